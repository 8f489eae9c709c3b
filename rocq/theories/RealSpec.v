(** What the parts of the registrations that are not in the repository promise. *)
From Coq Require Import Reals List ZArith.
From Verif Require Import Base GeoModel OptModel RegModel CorrModel CorrSpec.
Import ListNotations.
Open Scope R_scope.

(** std::sort followed by back(): an element that no score of the list exceeds *)
Definition sorts (pick : list voxel -> voxel) : Prop := forall l, l <> [] -> sortedBack l (pick l).
(** the two threads work on each of the 30 rotations once *)
Definition shares (sched : list P2 -> list P2 -> T2 -> list (nat * nat)) : Prop :=
  forall a b g, scheduled 2 30 (sched a b g).

(** Two motions that differ by at most [r], in metres and radians taken together. *)
Definition differs (r : R) (t t' : T2) : Prop :=
  exists p q, t = getTransFromPose p /\ t' = getTransFromPose q /\
    sqrt ((px q - px p) ^ 2 + (py q - py p) ^ 2 + (pth q - pth p) ^ 2) <= r.
