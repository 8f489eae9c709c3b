(** Vocabulary for rounding in the voxel grid. *)
From Coq Require Import List ZArith QArith Qabs.
From Verif Require Import Base VoxelModel FloatModel.
Open Scope Q_scope.

Section Spec.
Context {C : Type}.
Notation grid := (vgrid C).
(** The size of the cells is a power of two, such as the 0.25 used by the program. *)
Definition binary_cells (g : grid) : Prop := exists e, (-90 <= e <= 90)%Z /\ cell_size g == two e.
(** Window and point reach at most 2^n cells from the origin. *)
Definition reaches (n : Z) (g : grid) (p : point) : Prop :=
  ((Z.of_nat (w_left g) <= 2 ^ n /\ Z.of_nat (w_right g) <= 2 ^ n) /\
   (Z.of_nat (h_up g) <= 2 ^ n /\ Z.of_nat (h_down g) <= 2 ^ n))%Z /\
  Qabs (fst p) <= two n * cell_size g /\ Qabs (snd p) <= two n * cell_size g.
(** The point is farther than [d] cells from every line between cells. *)
Definition off_lines (d : Q) (g : grid) (p : point) : Prop := forall k : Z,
  d * cell_size g < Qabs (fst p - (inject_Z k + (1#2)) * cell_size g) /\
  d * cell_size g < Qabs (snd p - (inject_Z k + (1#2)) * cell_size g).
End Spec.

(** A number that is a double. *)
Definition is_double (q : Q) : Prop := f64 q == q.
