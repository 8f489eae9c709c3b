(** Vocabulary for the correlative registration. *)
From Coq Require Import Reals ZArith List Permutation.
From Verif Require Import Base LinAlg3 GeoModel OptModel RegModel CorrModel.
Import ListNotations.
Open Scope R_scope.

(** nearest integer, halves upwards *)
Definition nearest (x : R) (z : Z) : Prop := IZR z - 1 / 2 <= x < IZR z + 1 / 2.
(** Standard deviation in cells, limited to half a cell and ten cells. *)
Definition sigma (step std : R) : R := Rmax (1 / 2) (Rmin (std * step) 10).
(** Weight of a cell [r] rows and [c] columns away from an occupied one. *)
Definition weight (step std : R) (r c w : Z) : Prop :=
  nearest (100 * exp (- ((IZR r ^ 2 + IZR c ^ 2) / (2 * sigma step std ^ 2)))) w.

(** The table's value at a row and a column. *)
Definition tabAt (t : lut) (r c : Z) : option Z := nth_error (l_table t) (Z.to_nat (r * l_row t + c)).
Definition inTable (t : lut) (r c : Z) : Prop := (0 <= r < l_col t /\ 0 <= c < l_row t)%Z.
(** The points counted: strictly inside the box around the target and the origin. *)
Definition strictly (t : lut) (p : P2) : Prop :=
  l_minx t < fst p < l_maxx t /\ l_miny t < snd p < l_maxy t.
(** The cell a position falls into: cells are [l_step] wide, column [border] is
    centred on the smallest x, row [border] on the largest y. *)
Definition fallsInto (t : lut) (p : P2) (r c : Z) : Prop :=
  IZR (c - l_border t) * l_step t - l_step t / 2 <= fst p - l_minx t < IZR (c - l_border t) * l_step t + l_step t / 2 /\
  IZR (r - l_border t) * l_step t - l_step t / 2 <= l_maxy t - snd p < IZR (r - l_border t) * l_step t + l_step t / 2.
Definition occupied (t : lut) (target : list P2) (r c : Z) : Prop :=
  exists p, In p target /\ strictly t p /\ fallsInto t p r c.
(** [v] is the largest weight an occupied cell within the kernel gives, 0 if there is none. *)
Definition smeared (t : lut) (target : list P2) (step std : R) (r c v : Z) : Prop :=
  (v = 0%Z \/ exists r0 c0, occupied t target r0 c0 /\ (Z.abs (r - r0) <= l_border t)%Z /\
     (Z.abs (c - c0) <= l_border t)%Z /\ weight step std (r - r0) (c - c0) v) /\
  (forall r0 c0 w, occupied t target r0 c0 -> (Z.abs (r - r0) <= l_border t)%Z ->
     (Z.abs (c - c0) <= l_border t)%Z -> weight step std (r - r0) (c - c0) w -> (w <= v)%Z).
(** the box: the smallest one around the target and the origin *)
Definition boxOf (t : lut) (target : list P2) : Prop :=
  (forall p, p = (0, 0) \/ In p target ->
     l_minx t <= fst p <= l_maxx t /\ l_miny t <= snd p <= l_maxy t) /\
  (exists p, (p = (0, 0) \/ In p target) /\ fst p = l_minx t) /\
  (exists p, (p = (0, 0) \/ In p target) /\ fst p = l_maxx t) /\
  (exists p, (p = (0, 0) \/ In p target) /\ snd p = l_miny t) /\
  (exists p, (p = (0, 0) \/ In p target) /\ snd p = l_maxy t).

(** A score of [n] points against a target of [m] points. *)
Definition scoreBound (n m : nat) (s : xr) : Prop :=
  exists x, s = Fin x /\ 0 <= x <= INR n / INR m.

(** ** The search *)
(** the offsets tried: a grid from minus the range up to, not including, the range *)
Definition candidate (c : corrcfg) (v : V3) : Prop :=
  exists i j k : nat,
    v = mkV (- cc_range c + INR i * cc_step c) (- cc_range c + INR j * cc_step c) (- cc_rrange c + INR k * cc_rot c) /\
    vx v < cc_range c /\ vy v < cc_range c /\ vz v < cc_rrange c.
(** the score the search gives an offset: that of the cells of the turned cloud, shifted *)
Definition searchScore (t : lut) (pcl : list P2) (v : V3) : res xr :=
  getScoreIdx t (transformIndexes t (vx v) (vy v) (toIndexes t (rotateCloud (vz v) pcl))).
(** every rotation is worked on once, by some thread *)
Definition scheduled (threads n : nat) (sched : list (nat * nat)) : Prop :=
  Permutation (map snd sched) (seq 0 n) /\ forall e, In e sched -> (fst e < threads)%nat.
(** the number of rotations *)
Definition rotCount (c : corrcfg) (n : nat) : Prop :=
  forall k, (k < n)%nat <-> - cc_rrange c + INR k * cc_rot c < cc_rrange c.
Definition usable (c : corrcfg) : Prop :=
  0 < cc_step c /\ 1 / 2 * cc_step c <= 997 / 100 /\ 0 < cc_rot c /\ 0 < cc_range c /\ 0 < cc_rrange c.
(** where the search really looks for the offset of [m] and [n] cells: the border
    is missing, so one border further left and up *)
Definition lookedAt (t : lut) (th : R) (m n : Z) (p : P2) : P2 :=
  (cos th * fst p - sin th * snd p + (IZR m - IZR (l_border t)) * l_step t,
   sin th * fst p + cos th * snd p + (IZR n + IZR (l_border t)) * l_step t).
