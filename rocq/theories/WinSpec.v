(** Vocabulary for the size of the running window. *)
From Coq Require Import Reals List ZArith QArith.
From Verif Require Import Base LinAlg3 GeoModel GraphModel LoopModel SlamModel AlgModel.
From Verif Require Import VoxelModel VoxelSpec GridModel GridSpec ScanSpec SysModel SysSpec.
Import ListNotations.
Open Scope nat_scope.

(** In the square of this half width around the origin. *)
Definition inbox (r : Q) (p : point) : Prop := (- r <= fst p <= r /\ - r <= snd p <= r)%Q.
(** The mean of a computed cell: the average of its points, or still the zero it was
    made with when the cell has no distribution (ndt_cell.cpp:4-13, 62-130). *)
Definition bare {X} (dflt : ncell X) (addPt : ncell X -> point -> ncell X) (compute : ncell X -> ncell X) : Prop :=
  forall ps, let c := compute (fold_left addPt ps dflt) in
    average ps (nc_mean c) \/ (nc_gauss c = false /\ peq (nc_mean c) (0, 0)%Q).
(** The mean of a merged cell lies on the line between the two (ndt_cell.cpp:15-60). *)
Definition mixes {X} (merge : ncell X -> ncell X -> ncell X) : Prop :=
  forall a b, exists s, (0 <= s <= 1)%Q /\
    peq (nc_mean (merge a b)) (s * fst (nc_mean a) + (1 - s) * fst (nc_mean b), s * snd (nc_mean a) + (1 - s) * snd (nc_mean b))%Q.
(** A call whose scan reaches no farther than [rho] along either axis, also as turned by
    the match, and whose match is no farther than [mu] from the origin of the window. *)
Section Modest.
Context {D : Type}.
Variable tp : qtrans T2 -> point -> point.
Variable dbl : R -> Q.
Variables rho mu : Q.
Notation yev := (yev D).
Definition modest (e : yev) : Prop :=
  (forall p, In (Some p) (i_scan (v_in e)) -> inbox rho p) /\
  forall reg, i_match (v_in e) = Some reg -> inbox mu (dbl (tx reg), dbl (ty reg)) /\
    forall p, In (Some p) (i_scan (v_in e)) -> inbox rho (tp (mkTr reg 0 0) p).
End Modest.
