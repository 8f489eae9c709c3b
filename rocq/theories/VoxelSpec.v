(** Specification vocabulary for the voxel grid, independent of how the code
    computes indices: the plane is divided in square cells (i,j) of side [cs]
    centred at (i*cs, j*cs); a grid shows a rectangular window of the plane. *)
From Coq Require Import List ZArith QArith Bool.
From Verif Require Import Base VoxelModel.
Import ListNotations.
Open Scope Z_scope.

Definition pcell := (Z * Z)%type.

(** Point (x,y) belongs to plane cell (i,j).  Left and upper borders belong to
    the cell, right and lower borders to the next one. *)
Definition in_cell (cs : Q) (c : pcell) (p : point) : Prop :=
  ((inject_Z (fst c) - (1#2)) * cs <= fst p)%Q /\
  (fst p < (inject_Z (fst c) + (1#2)) * cs)%Q /\
  ((inject_Z (snd c) - (1#2)) * cs < snd p)%Q /\
  (snd p <= (inject_Z (snd c) + (1#2)) * cs)%Q.

(** Chebyshev distance on plane cells *)
Definition within (r : Z) (a b : pcell) : Prop :=
  Z.abs (fst a - fst b) <= r /\ Z.abs (snd a - snd b) <= r.

Section Spec.
Context {C : Type}.
Implicit Type g : vgrid C.

(** The window of the plane shown by the grid. *)
Definition in_box g (c : pcell) : bool :=
  (- Z.of_nat (w_left g) <=? fst c) && (fst c <=? Z.of_nat (w_right g)) &&
  ((- Z.of_nat (h_down g) <=? snd c) && (snd c <=? Z.of_nat (h_up g))).

(** Storage is row-major, upper row first. *)
Definition slot_of g (c : pcell) : nat :=
  Z.to_nat ((Z.of_nat (h_up g) - snd c) * Z.of_nat (width g)
            + (fst c + Z.of_nat (w_left g))).

(** What the grid holds at a cell of the plane. *)
Definition content g (c : pcell) : option C :=
  if in_box g c then nth (slot_of g c) (cells g) None else None.

(** All cells of the window, in reading order. *)
Definition zrange (lo : Z) (n : nat) : list Z :=
  map (fun k => lo + Z.of_nat k) (seq 0 n).
Definition window g : list pcell :=
  flat_map (fun r => map (fun i => (i, Z.of_nat (h_up g) - Z.of_nat r))
                         (zrange (- Z.of_nat (w_left g)) (width g)))
           (seq 0 (height g)).

(** Well-formed grids: positive cell size and matching storage. *)
Definition wf g : Prop :=
  (0 < cell_size g)%Q /\ length (cells g) = (width g * height g)%nat.

(** [g'] shows at least the window of [g]. *)
Definition grows g g' : Prop :=
  (w_left g <= w_left g' /\ w_right g <= w_right g' /\
   h_up g <= h_up g' /\ h_down g <= h_down g')%nat /\ cell_size g' = cell_size g.

(** The point lies exactly on the left border of a column to the right of the
    window, or exactly on the upper border of a row below the window.  This
    includes the right and lower outer edge of the window itself. *)
Definition on_outer_edge g (c : pcell) (p : point) : Prop :=
  (Z.of_nat (w_right g) < fst c /\
     (fst p == (inject_Z (fst c) - (1#2)) * cell_size g)%Q) \/
  (snd c < - Z.of_nat (h_down g) /\
     (snd p == (inject_Z (snd c) + (1#2)) * cell_size g)%Q).

(** The smallest window that contains the old one and the cell [c]. *)
Definition hull g (c : pcell) g' : Prop :=
  Z.of_nat (w_left g') = Z.max (Z.of_nat (w_left g)) (- fst c) /\
  Z.of_nat (w_right g') = Z.max (Z.of_nat (w_right g)) (fst c) /\
  Z.of_nat (h_up g') = Z.max (Z.of_nat (h_up g)) (snd c) /\
  Z.of_nat (h_down g') = Z.max (Z.of_nat (h_down g)) (- snd c) /\
  cell_size g' = cell_size g.

Definition n_cells g : Z :=
  Z.of_nat (length (filter (fun c => match c with Some _ => true | None => false end)
                           (cells g))).
End Spec.

(** Boolean forms used to state exact lists. *)
Definition within_b (r : Z) (a b : pcell) : bool :=
  (Z.abs (fst a - fst b) <=? r) && (Z.abs (snd a - snd b) <=? r).
Definition present {C} (g : vgrid C) (c : pcell) : bool :=
  match content g c with Some _ => true | None => false end.

(** ** Rays *)

(** Length of the segment in cells along its dominant axis. *)
From Coq Require Import Qabs Qminmax.
Definition seg_len (cs : Q) (s e : point) : Q :=
  Qmax (Qabs (fst e - fst s) / cs) (Qabs (snd e - snd s) / cs).

(** The point of the segment s-e (extended beyond e for t > 1) at fraction t. *)
Definition seg_point (s e : point) (t : Q) : point :=
  (fst s + t * (fst e - fst s), snd s + t * (snd e - snd s))%Q.

(** The k-th sample: k half-cell steps along the dominant axis. *)
Definition ray_sample (cs : Q) (s e : point) (k : nat) : point :=
  seg_point s e (inject_Z (Z.of_nat k) / (2 * seg_len cs s e)).

(** Strictly inside the outer border of the window. *)
Definition strictly_inside {C} (g : vgrid C) (p : point) : Prop :=
  ((- inject_Z (Z.of_nat (w_left g)) - (1#2)) * cell_size g < fst p)%Q /\
  (fst p < (inject_Z (Z.of_nat (w_right g)) + (1#2)) * cell_size g)%Q /\
  ((- inject_Z (Z.of_nat (h_down g)) - (1#2)) * cell_size g < snd p)%Q /\
  (snd p < (inject_Z (Z.of_nat (h_up g)) + (1#2)) * cell_size g)%Q.

Definition pcell_eqb (a b : pcell) : bool := ((fst a =? fst b) && (snd a =? snd b))%Z%bool.

(** Remove consecutive repetitions. *)
Fixpoint dedup_from (prev : pcell) (l : list pcell) : list pcell :=
  match l with
  | [] => []
  | x :: t => if pcell_eqb x prev then dedup_from prev t else x :: dedup_from x t
  end.
Definition dedup (l : list pcell) : list pcell :=
  match l with [] => [] | x :: t => x :: dedup_from x t end.

(** Neighbouring list elements are different but adjacent cells. *)
Fixpoint step_chain (prev : pcell) (l : list pcell) : Prop :=
  match l with
  | [] => True
  | x :: t => x <> prev /\ within 1 prev x /\ step_chain x t
  end.

Section Spec2.
Context {C : Type}.
Implicit Type g : vgrid C.

(** Same window, cell size, counter and number of slots. *)
Definition same_frame g g' : Prop :=
  w_left g' = w_left g /\ w_right g' = w_right g /\
  h_up g' = h_up g /\ h_down g' = h_down g /\
  cell_size g' = cell_size g /\ n_valid g' = n_valid g /\
  length (cells g') = length (cells g).

(** The value expected at a cell after adding [v] there. *)
Definition new_value (mrg : C -> C -> C) (old : option C) (v : C) (merging : bool) : C :=
  match old with Some o => if merging then mrg o v else v | None => v end.

(** Neither of the positions used lies on a right or lower cell border that is
    outside the window (see on_outer_edge). *)
Definition safe_op g (o : vop (C:=C)) : Prop :=
  match o with
  | OpAdd p _ _ | OpRemove p =>
      forall c, in_cell (cell_size g) c p -> ~ on_outer_edge g c p
  | OpRay s e =>
      (forall c, in_cell (cell_size g) c s -> ~ on_outer_edge g c s) /\
      ~ (seg_len (cell_size g) s e == 0)%Q
  | _ => True
  end.

(** Operations that keep the counter of existing cells up to date. *)
Definition counting (o : vop (C:=C)) : bool :=
  match o with
  | OpAdd _ _ _ | OpRemove _ | OpEnlarge _ _ _ _ => true
  | OpTranslate _ _ d => negb d
  | OpClear | OpRay _ _ => false
  end.
End Spec2.
