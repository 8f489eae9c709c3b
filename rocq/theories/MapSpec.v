(** Specification vocabulary for the map: what a reader of the published messages
    sees, and what the map should show given the frames alone. *)
From Coq Require Import List ZArith QArith Bool Sorting.Permutation.
From Verif Require Import Base VoxelModel VoxelSpec GridModel GridSpec MapModel.
Import ListNotations.

(** Place of the world an entry of a nav_msgs/OccupancyGrid stands for, by the ROS
    convention: rows of cells from the lower left corner, which is at the origin
    pose; here for a message without rotation. *)
Definition ros_place (msg : occ_msg) (col row : nat) : point :=
  (fst (om_origin msg) + (inject_Z (Z.of_nat col) + (1#2)) * om_res msg,
   snd (om_origin msg) + (inject_Z (Z.of_nat row) + (1#2)) * om_res msg)%Q.
Definition ros_entry (msg : occ_msg) (col row : nat) : option Z :=
  nth_error (om_data msg) (row * om_width msg + col).

(** The same published map and cloud (the load time of the map aside). *)
Definition same_map {X} (a b : mapper X) : Prop :=
  let p := calcOccupancyGridMsg a in let q := calcOccupancyGridMsg b in
  om_height p = om_height q /\ om_width p = om_width q /\ om_res p = om_res q /\
  om_origin p = om_origin q /\ om_yaw p = om_yaw q /\ om_data p = om_data q /\
  getPclMap a = getPclMap b.

(** The window of the map shows the same rectangle of the world. *)
Definition same_extent {X} (a b : mapper X) : Prop :=
  same_window (n_vox (m_ndt a)) (n_vox (m_ndt b)).

Definition world : qpose := mkPose 0 0 0.
(** Resolution of the map, 25 cm. *)
Definition map_res : Q := 1#4.

Section Frames.
Context {X L : Type}.
Variable tcell : qtrans L -> ncell X -> ncell X.
Variable btw : qpose -> qpose -> qtrans L.
Variable tp : qtrans L -> point -> point.

(** The cells of a frame at their place in the world. *)
Definition placed (f : ngrid X) : list (ncell X) :=
  map (tcell (btw (n_pose f) world)) (getValidCells (n_vox f)).
(** Where its scans were taken from. *)
Definition sensor_at (f : ngrid X) : point := tp (btw (n_pose f) world) (0, 0)%Q.

(** A frame none of whose positions is exactly on a border between map cells and
    whose gaussian cells are at least one map cell away from the sensor. *)
Definition drawable (f : ngrid X) : Prop :=
  off_border map_res (sensor_at f) /\ off_borders map_res (placed f) /\
  rays_ok map_res (sensor_at f) (placed f).

(** What the frames, in this order, put in a square of the map: the mean of the
    last gaussian cell that lies in it. *)
Definition drawn (fs : list (ngrid X)) (c : pcell) : option point :=
  fold_left (fun _ v => Some (nc_mean v)) (landing map_res c (flat_map placed fs)) None.

(** A beam of the frame goes through the square before it ends. *)
Definition swept (f : ngrid X) (c : pcell) : Prop :=
  exists e t, In e (placed f) /\ nc_gauss e = true /\ (0 <= t < 1)%Q /\
              in_cell map_res c (seg_point (sensor_at f) (nc_mean e) t).
(** One of the frames put a distribution with mean [q] in the square and no later one
    puts another there or sends a beam through it. *)
Definition lasting (fs : list (ngrid X)) (c : pcell) (q : point) : Prop :=
  exists s1 f s2, fs = s1 ++ f :: s2 /\ drawn [f] c = Some q /\
    forall f', In f' s2 -> landing map_res c (placed f') = [] /\ ~ swept f' c.
(** No frame sends a beam through a square in which an earlier one put something. *)
Definition undisturbed (fs : list (ngrid X)) : Prop :=
  forall s1 f s2 c f', fs = s1 ++ f :: s2 -> In f' s2 -> landing map_res c (placed f) <> [] -> ~ swept f' c.

(** The map a new mapper holds after it was given these frames one by one. *)
Definition build (merge : ncell X -> ncell X -> ncell X) (dflt : ncell X)
  (occRay : ncell X -> point -> ncell X -> ncell X) (rawOcc : ncell X -> Q)
  (fs : list (ngrid X)) : res (mapper X) :=
  foldM (fun m f => addFrame merge dflt tcell occRay rawOcc btw tp m f (n_time f)) fs (m_new dflt).

(** Oldest frame first. *)
Fixpoint chronological (fs : list (ngrid X)) : Prop :=
  match fs with
  | [] => True
  | f :: t => (forall f', In f' t -> (n_time f <= n_time f')%Q) /\ chronological t
  end.

(** The frames given to the mapper, stamped with their capture times. *)
Definition given (ops : list (mop (X:=X))) : list (ngrid X) :=
  flat_map (fun o => match o with
                     | MAdd f ts => [mkN (n_pose f) (n_cs f) (n_init f) ts (n_vox f) (n_means f)]
                     | _ => [] end) ops.
(** The caller left its frames alone. *)
Definition untouched (ops : list (mop (X:=X))) : Prop :=
  forall fs, ~ In (MTouch fs) ops.
(** When the map was last redrawn. *)
Definition last_redraw (ops : list (mop (X:=X))) : Q :=
  fold_left (fun t o => match o with MRecalc _ t' => t' | _ => t end) ops 0%Q.

(** Time stamps are pairwise different. *)
Fixpoint distinct_times (fs : list (ngrid X)) : Prop :=
  match fs with
  | [] => True
  | f :: t => (forall f', In f' t -> ~ (n_time f == n_time f')%Q) /\ distinct_times t
  end.
End Frames.
