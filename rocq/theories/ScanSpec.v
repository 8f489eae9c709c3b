(** Specification vocabulary for frames made from scans and for transforming a
    frame. *)
From Coq Require Import List ZArith QArith Bool.
From Verif Require Import Base VoxelModel VoxelSpec GridModel GridSpec.
Import ListNotations.

Definition sumQ (l : list Q) : Q := fold_right Qplus 0%Q l.
(** [p] is the average of the points [ps]. *)
Definition average (ps : list point) (p : point) : Prop :=
  ps <> [] /\
  (inject_Z (Z.of_nat (length ps)) * fst p == sumQ (map fst ps))%Q /\
  (inject_Z (Z.of_nat (length ps)) * snd p == sumQ (map snd ps))%Q.

Section ScanSpec.
Context {X L : Type}.
Notation cell := (ncell X).
Variable dflt : cell.
Variable addPt : cell -> point -> cell.
Variable compute : cell -> cell.

(** The distribution of the points of a scan that lie in the square [c]; none
    when they do not make one. *)
Definition scan_cell (cs : Q) (pcl : list (option point)) (c : pcell) : option cell :=
  let x := compute (fold_left addPt (points_in cs c pcl) dflt) in
  if nc_gauss x then Some x else None.

(** What computing the distribution of a cell does to its mean (C20). *)
Definition means_average : Prop :=
  forall ps, nc_gauss (compute (fold_left addPt ps dflt)) = true ->
    average ps (nc_mean (compute (fold_left addPt ps dflt))).

(** The beams from [start] to the distributions of the scan are at least one cell
    long. *)
Definition scan_rays (cs : Q) (start : point) (pcl : list (option point)) : Prop :=
  forall c x, scan_cell cs pcl c = Some x ->
    (1 <= seg_len cs start (nc_mean x))%Q /\ (seg_len cs start (nc_mean x) < inject_Z (2^63))%Q.

(** [c] is a square crossed by one of these beams before its end. *)
Definition on_beam (cs : Q) (start : point) (pcl : list (option point)) (c : pcell) : Prop :=
  exists d x t, scan_cell cs pcl d = Some x /\ (0 <= t < 1)%Q /\
                in_cell cs c (seg_point start (nc_mean x) t).

(** Free-space update: a square off the beams is as before; one on a beam has
    either not changed or exists now, with the mean it had (that of a default cell
    if it did not exist) and with no distribution unless it had one. *)
Definition freed (cs : Q) (start : point) (pcl : list (option point))
  (old new : pcell -> option cell) : Prop :=
  forall c, new c = old c \/
    (on_beam cs start pcl c /\ exists x, new c = Some x /\
       let o := match old c with Some o => o | None => dflt end in
       nc_mean x = nc_mean o /\ (nc_gauss x = true -> nc_gauss o = true)).

(** A scan taken at [o], seen from the frame of [g]. *)
Definition seen_from (btw : qpose -> qpose -> qtrans L) (tp : qtrans L -> point -> point)
  (g : ngrid X) (o : qpose) (pcl : list (option point)) : list (option point) :=
  map (option_map (tp (btw o (n_pose g)))) pcl.
End ScanSpec.

(** Centre of a square. *)
Definition centre (cs : Q) (c : pcell) : point :=
  (inject_Z (fst c) * cs, inject_Z (snd c) * cs)%Q.
(** [p] is the centre of the window of the grid: halfway between the centres of
    its outermost columns and rows. *)
Definition window_centre {X} (g : ngrid X) (p : point) : Prop :=
  forall a b, in_box (n_vox g) a = true -> in_box (n_vox g) b = true ->
    (forall c, in_box (n_vox g) c = true ->
       (fst a <= fst c <= fst b)%Z /\ (snd a <= snd c <= snd b)%Z) ->
    (2 * fst p == fst (centre (n_cs g) a) + fst (centre (n_cs g) b))%Q /\
    (2 * snd p == snd (centre (n_cs g) a) + snd (centre (n_cs g) b))%Q.
(** The centre of every square of the window is at most [r] from [p]. *)
Definition reaches {X} (g : ngrid X) (p : point) (r : Q) : Prop :=
  (0 <= r)%Q /\ forall c, in_box (n_vox g) c = true ->
    (sq_dist (centre (n_cs g) c) p <= r * r)%Q.
