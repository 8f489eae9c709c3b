(** Specification vocabulary for C145: the points as real vectors, coordinates and entries. *)
From Coq Require Import List ZArith QArith Reals Qreals Bool.
From Verif Require Import LinAlg3 FloatBatchModel.
Import ListNotations.
Open Scope R_scope.

Definition real3 (p : qpoint) : V3 := mkV (Q2R (at_ AX p)) (Q2R (at_ AY p)) (Q2R (at_ AZ p)).
Definition coord (i : axis) (v : V3) : R := match i with AX => vx v | AY => vy v | AZ => vz v end.
Definition entry (i j : axis) (m : M3) : R :=
  match i, j with
  | AX, AX => m11 m | AX, AY => m12 m | AX, AZ => m13 m
  | AY, AX => m21 m | AY, AY => m22 m | AY, AZ => m23 m
  | AZ, AX => m31 m | AZ, AY => m32 m | AZ, AZ => m33 m
  end.
(** all coordinates between -b and b *)
Definition within (b : R) (l : list qpoint) : Prop := Forall (fun p => forall i, Rabs (Q2R (at_ i p)) <= b) l.
(** The symmetric matrix an eigenvalue solver takes from the entries on and below the diagonal. *)
Definition lower (c : axis -> axis -> Q) : M3 :=
  mkM (Q2R (c AX AX)) (Q2R (c AY AX)) (Q2R (c AZ AX))
      (Q2R (c AY AX)) (Q2R (c AY AY)) (Q2R (c AZ AY))
      (Q2R (c AZ AX)) (Q2R (c AZ AY)) (Q2R (c AZ AZ)).
