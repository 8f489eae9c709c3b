(** Vocabulary for the scan matcher. *)
From Coq Require Import Reals ZArith List Permutation.
From Verif Require Import Base LinAlg3 GeoModel OptModel RegModel CorrModel CorrSpec MatchModel.
Import ListNotations.
Open Scope R_scope.

(** less than [d] apart along both axes *)
Definition within (d : R) (p q : P2) : Prop :=
  Rabs (fst p - fst q) < d /\ Rabs (snd p - snd q) < d.
(** at least [n] of the points lie within [d] of a target point *)
Definition overlap (d n : R) (points target : list P2) : Prop :=
  exists hits misses, Permutation points (hits ++ misses) /\
    (forall p, In p hits -> exists q, In q target /\ within d p q) /\
    n <= INR (length hits).
(** the threshold asked for last: requests outside of (0, 1) are refused, 0.6 at
    the start *)
Definition asked {F} (ops : list (mop F)) : R :=
  fold_left (fun l o => match o with
                        | Threshold x => if Rlt_dec 0 x then if Rlt_dec x 1 then x else l else l
                        | Match _ _ _ => l
                        end) ops (6 / 10).
(** The registration of two grids fails if one has no distributions. *)
Definition empty_fails {F} (cloud : F -> list P2) (d2d : F -> F -> T2 -> bool * T2) : Prop :=
  forall a b g, cloud a = [] \/ cloud b = [] -> fst (d2d a b g) = false.
(** The verification score of a transform: what the lookup table of the target gives
    the moved source. *)
Definition verified {F} (cloud : F -> list P2) (cellSize : F -> R) (source target : F) (t : T2) (x : R)
  : Prop :=
  exists tab, initGrid (cloud target) (cellSize target) (1 / 2) = Ok tab /\
    getScorePts tab (map (t2apply t) (cloud source)) = Ok (Fin x).
