(** Vocabulary: calls in general position, so that nothing that is computed in them is
    undefined. *)
From Coq Require Import Reals List ZArith QArith Qabs Bool.
From Verif Require Import Base LinAlg3 GeoModel GraphModel LoopModel SlamModel AlgModel AlgSpec NodeModel NodeSpec.
From Verif Require Import VoxelModel VoxelSpec GridModel GridSpec ScanSpec MapModel MapSpec SysModel SysSpec RunModel.
Import ListNotations.
Open Scope nat_scope.

Section Cells.
Context {X : Type}.
Notation cell := (ncell X).
(** None of the distributions lies on a border between squares of this size, or exactly
    at the place [s] they are seen from. *)
Definition apart (cs : Q) (s : point) (l : list cell) : Prop :=
  forall v, In v l -> nc_gauss v = true -> off_border cs (nc_mean v) /\ ~ peq (nc_mean v) s.

Variable dflt : cell.
Variable addPt : cell -> point -> cell.
Variable compute : cell -> cell.
(** The same for the points of a scan and the distributions made of them. *)
Definition scan_apart (cs : Q) (s : point) (l : list (option point)) : Prop :=
  (forall p, In (Some p) l -> off_border cs p) /\
  forall c x, scan_cell dflt addPt compute cs l c = Some x -> ~ peq (nc_mean x) s.
End Cells.

Section Calls.
Context {X Guess D : Type}.
Notation cell := (ncell X).
Notation grid := (ngrid X).
Notation body := (res grid).
Notation scan := (list (option point)).
Variable merge : cell -> cell -> cell.
Variable dflt : cell.
Variable addPt : cell -> point -> cell.
Variable compute : cell -> cell.
Variable tcell : qt -> cell -> cell.
Variable occRay : cell -> point -> cell -> cell.
Variable rawOcc : cell -> Q.
Variable btw : qpose -> qpose -> qt.
Variable tp : qt -> point -> point.
Variable noLin : T2.
Variable moveOrigin : qpose -> qt -> qpose.
Variable moveScan : T2 -> point -> point.
Variable dbl : R -> Q.

(** A scan that is drawn into a frame. *)
Definition stroke_apart (s : pose * T2 * scan) : Prop :=
  scan_apart dflt addPt compute (1#4) (sensor_of btw tp dbl s) (in_frame btw tp moveScan dbl s).
(** A frame that is drawn into the map. *)
Definition frame_apart (f : grid) : Prop :=
  off_border map_res (sensor_at btw tp f) /\ apart map_res (sensor_at btw tp f) (placed tcell btw f).
(** A scan that was matched and goes into the running window [g]: it is made a grid [l],
    which is turned and shifted as the matcher says ([l']) and merged into the window; then
    the window follows, by less than 2^31 cells. *)
Definition match_apart (g : grid) (s : scan) (reg : T2) : Prop :=
  let o := n_pose g in
  scan_apart dflt addPt compute (1#4) (tp (btw o o) (0, 0)%Q) (map (option_map (tp (btw o o))) s) /\
  (forall l, n_initialize merge dflt addPt compute tcell occRay btw tp (n_setOrigin (newFrame dflt) o) s = Ok l ->
     off_borders (1#4) (map (tcell (mkTr reg 0 0)) (getValidCells (n_vox l))) /\
     forall l', n_transform merge tcell noLin moveOrigin l (toQ dbl reg) = Ok l' ->
       off_border (1#4) (tp (btw (n_pose l') o) (0, 0)%Q) /\
       apart (1#4) (tp (btw (n_pose l') o) (0, 0)%Q)
             (map (tcell (btw (n_pose l') o)) (getValidCells (n_vox l')))) /\
  (Qabs (dbl (tx reg)) < inject_Z (2^31) * (1#4))%Q /\ (Qabs (dbl (ty reg)) < inject_Z (2^31) * (1#4))%Q.

(** A call of update() in state [y], in general position. *)
Record calm (y : sys X) (a' : alg body body) (e : yev D) : Prop := {
  calm_scan : forall s, In s (strokes_of e) -> stroke_apart s;
  calm_match : forall w reg p g, In (ARep (KMatch w reg) p) (v_evs e) -> a_win (y_alg y) = Some (Ok g) ->
    match_apart g (i_scan (v_in e)) reg;
  calm_node : forall id f, In (ANode id) (v_evs e) -> gridOf dbl (a_frame (y_alg y)) = Ok f -> frame_apart f;
  calm_redraw : forall k f g, In ARedraw (v_evs e) -> getPoseData (a_slam a') k = Ok f -> gridOf dbl f = Ok g ->
    frame_apart g
}.

(** Nothing the system holds is undefined. *)
Definition whole (y : sys X) : Prop :=
  (exists g, f_body (a_frame (y_alg y)) = Ok g) /\
  (forall k f, getPoseData (a_slam (y_alg y)) k = Ok f -> exists g, f_body f = Ok g) /\
  (forall w, a_win (y_alg y) = Some w -> exists g, w = Ok g).

Variable oob : option bool.
Variable ser : bool.
Variable env : aenv body body (option point) Guess D.
Notation run := (run X).
Notation msg := (nmsg (option point)).
Notation rstep := (rstep merge dflt tcell occRay rawOcc btw tp dbl oob ser env).
(** What update() is called with for an accepted message: the motion since the previous
    one and the scan. *)
Definition call_of (r : run) (m : msg) (i : ainput (option point) D) : Prop :=
  exists odom pts, accepted m = Some odom /\ ms_scan m = Some pts /\ i_scan i = pts /\
    i_motion i = if r_ready r then t2mul (t2inv (getTransFromPose (r_odom r))) (getTransFromPose odom) else t2id.
(** Runs all of whose calls were in general position. *)
Inductive quiet : list (msg * list (rout X)) -> list (yev D) -> run -> Prop :=
| quiet_new : quiet [] [] (run_new dflt env)
| quiet_step t h r m r' o c : quiet t h r -> rstep r m r' o c ->
    (forall e, In e c -> calm (r_sys r) (y_alg (r_sys r')) e) ->
    quiet ((m, o) :: t) (c ++ h) r'.
End Calls.
