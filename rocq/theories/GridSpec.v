(** Specification vocabulary for the NDT grid: which cells of a list land in a
    given square of the plane, and what accumulating them means. *)
From Coq Require Import List ZArith QArith Qabs Bool.
From Verif Require Import Base VoxelModel VoxelSpec GridModel.
Import ListNotations.

(** The position does not lie exactly on the left or the upper border of its
    square (the places where VoxelGrid2D is wrong, see C02/C05). *)
Definition off_border (cs : Q) (p : point) : Prop :=
  forall c, in_cell cs c p ->
    ~ (fst p == (inject_Z (fst c) - (1#2)) * cs)%Q /\
    ~ (snd p == (inject_Z (snd c) + (1#2)) * cs)%Q.

Definition in_cell_b (cs : Q) (c : pcell) (p : point) : bool :=
  Qle_bool ((inject_Z (fst c) - (1#2)) * cs) (fst p) &&
  negb (Qle_bool ((inject_Z (fst c) + (1#2)) * cs) (fst p)) &&
  negb (Qle_bool (snd p) ((inject_Z (snd c) - (1#2)) * cs)) &&
  Qle_bool (snd p) ((inject_Z (snd c) + (1#2)) * cs).

Section Spec.
Context {X : Type}.
Notation cell := (ncell X).

(** The gaussian cells of [l] whose mean lies in the square [c], in order. *)
Definition landing (cs : Q) (c : pcell) (l : list cell) : list cell :=
  filter (fun v => nc_gauss v && in_cell_b cs c (nc_mean v)) l.

(** Add all of [l] to what was there. *)
Definition accumulate (mrg : cell -> cell -> cell) (old : option cell) (l : list cell)
  : option cell :=
  fold_left (fun acc v => Some (match acc with Some o => mrg o v | None => v end)) l old.

(** The merge of all of [l] (nothing if there are none). *)
Definition merged (mrg : cell -> cell -> cell) (l : list cell) : option cell :=
  accumulate mrg None l.

(** The last of [l], else what was there. *)
Definition latest (old : option cell) (l : list cell) : option cell :=
  fold_left (fun _ v => Some v) l old.

(** Grids whose two copies of the cell size agree and whose storage matches. *)
Definition nwf (g : ngrid X) : Prop :=
  wf (n_vox g) /\ n_cs g = cell_size (n_vox g).

(** The cell [v] seen in the world frame, for a grid whose axes are those of
    the world. *)
Definition world_pos (g : ngrid X) (v : cell) : point :=
  (p_x (n_pose g) + fst (nc_mean v), p_y (n_pose g) + snd (nc_mean v))%Q.
Definition peq (a b : point) : Prop := (fst a == fst b)%Q /\ (snd a == snd b)%Q.

(** Same window of the plane. *)
Definition same_window (a b : vgrid cell) : Prop :=
  w_left b = w_left a /\ w_right b = w_right a /\ h_up b = h_up a /\
  h_down b = h_down a /\ cell_size b = cell_size a.

(** Everything of the grid but its cells and its cloud of means. *)
Definition same_header (a b : ngrid X) : Prop :=
  n_pose b = n_pose a /\ n_cs b = n_cs a /\ n_time b = n_time a.

(** Every gaussian cell is stored in the square its mean lies in. *)
Definition anchored (g : ngrid X) : Prop :=
  forall c v, content (n_vox g) c = Some v -> nc_gauss v = true ->
    in_cell (cell_size (n_vox g)) c (nc_mean v).

(** The gaussian cells of the grid in reading order of the window. *)
Definition gaussians (g : ngrid X) : list cell :=
  flat_map (fun c => match content (n_vox g) c with
                     | Some v => if nc_gauss v then [v] else []
                     | None => [] end) (window (n_vox g)).

Definition off_borders (cs : Q) (l : list cell) : Prop :=
  forall v, In v l -> nc_gauss v = true -> off_border cs (nc_mean v).
End Spec.

(** ** Histories of public calls on a grid *)
Inductive gop (X L : Type) :=
| GMerge (l : list (ncell X)) (resize : bool)     (* mergeIn(cells, resize) *)
| GMove (t : qtrans L)                            (* move *)
| GEnlarge (lft dwn rgt upp : Q)                  (* enlarge *)
| GClear                                          (* clear *)
| GOrigin (o : qpose)                             (* setOrigin *)
| GStamp (ts : Q).                                (* setTimestamp *)
Arguments GMerge {X L}. Arguments GMove {X L}. Arguments GEnlarge {X L}.
Arguments GClear {X L}. Arguments GOrigin {X L}. Arguments GStamp {X L}.

Definition gstep {X L} (mrg : ncell X -> ncell X -> ncell X) (g : ngrid X) (o : gop X L)
  : res (ngrid X) :=
  match o with
  | GMerge l r => mergeInCells mrg g l r
  | GMove t => do r <- n_move g t; Ok (fst r)
  | GEnlarge a b x y => n_enlarge g a b x y
  | GClear => Ok (n_clear g)
  | GOrigin o => Ok (n_setOrigin g o)
  | GStamp ts => Ok (n_setTimestamp g ts)
  end.
Definition grun {X L} (mrg : ncell X -> ncell X -> ncell X) (g : ngrid X) (ops : list (gop X L))
  : res (ngrid X) := foldM (gstep mrg) ops g.

(** Positions of merged cells off the borders, motions within int range. *)
Definition gop_ok {X L} (cs : Q) (o : gop X L) : Prop :=
  match o with
  | GMerge l _ => off_borders cs l
  | GMove t => (Qabs (tr_x t) < inject_Z (2^31) * cs)%Q /\
               (Qabs (tr_y t) < inject_Z (2^31) * cs)%Q
  | _ => True
  end.

(** Merging two gaussians that both have their mean in a square yields one with
    its mean in that square; merging into a cell without gaussian takes over the
    position of the new one. *)
Definition merge_stays {X} (mrg : ncell X -> ncell X -> ncell X) : Prop :=
  forall a b cs c, nc_gauss b = true -> in_cell cs c (nc_mean b) ->
    (nc_gauss a = true -> in_cell cs c (nc_mean a)) ->
    in_cell cs c (nc_mean (mrg a b)).

(** The points of a scan that lie in a square, in order. *)
Definition points_in (cs : Q) (c : pcell) (pcl : list (option point)) : list point :=
  filter (in_cell_b cs c) (flat_map (fun o => match o with Some p => [p] | None => [] end) pcl).

Section Spec2.
Context {X : Type}.
Notation cell := (ncell X).

(** The cloud of means holds exactly the means of the gaussian cells. *)
Definition cloud_current (g : ngrid X) : Prop :=
  exists ms, n_means g = Some ms /\
    forall p, In p ms <-> exists c v, content (n_vox g) c = Some v /\
                                      nc_gauss v = true /\ nc_mean v = p.

(** Free-space update by rays from [start] to the gaussian cells of [l]: a cell
    either is as before, or it lies on one of the segments strictly before its
    end, exists afterwards with the mean it had (a new cell: that of a default
    cell), and has kept or lost its distribution but not gained one. *)
Definition traced (dflt : cell) (cs : Q) (start : point) (l : list cell)
  (old new : pcell -> option cell) : Prop :=
  forall c, new c = old c \/
    ((exists e t, In e l /\ nc_gauss e = true /\ (0 <= t < 1)%Q /\
                  in_cell cs c (seg_point start (nc_mean e) t)) /\
     exists x, new c = Some x /\
       let o := match old c with Some o => o | None => dflt end in
       nc_mean x = nc_mean o /\ (nc_gauss x = true -> nc_gauss o = true)).

(** updateOccupancy by a beam keeps the mean; it may drop the distribution (when the
    occupancy gets down to zero, ndt_cell.cpp:178-180) but never makes one. *)
Definition occ_only (occRay : cell -> point -> cell -> cell) : Prop :=
  forall c s e, nc_mean (occRay c s e) = nc_mean c /\
    (nc_gauss (occRay c s e) = true -> nc_gauss c = true).

(** Rays of at least one cell (and fewer than 2^63). *)
Definition rays_ok (cs : Q) (start : point) (l : list cell) : Prop :=
  forall e, In e l -> nc_gauss e = true ->
    (1 <= seg_len cs start (nc_mean e))%Q /\
    (seg_len cs start (nc_mean e) < inject_Z (2^63))%Q.
End Spec2.
