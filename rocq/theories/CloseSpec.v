(** When two clouds show the same place. *)
From Coq Require Import Reals List Sorting.Permutation.
From Verif Require Import GeoModel RegModel CorrModel.
Import ListNotations.
Open Scope R_scope.

Definition apart (p q : P2) : R := sqrt ((fst p - fst q) ^ 2 + (snd p - snd q) ^ 2).
(** at least [n] of the points have a target point closer than [d] *)
Definition shared (d n : R) (points target : list P2) : Prop :=
  exists hits misses, Permutation points (hits ++ misses) /\
    (forall p, In p hits -> exists q, In q target /\ apart p q < d) /\
    n <= INR (length hits).
