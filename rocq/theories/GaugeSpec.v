(** Specification vocabulary for C143: what the optimiser minimises. *)
From Coq Require Import Reals List.
From Verif Require Import Base LinAlg3 GeoModel GeoSpec GraphModel SlamModel OptModel.
Import ListNotations.
Open Scope R_scope.

(** By how much the pose y misses the pose to which the motion z leads from x: where y is
    seen from there, and the angle between the two brought into (-pi, pi]. *)
Definition misfit (x z y : pose) : pose :=
  let t := compose x z in
  let w := seen_from t (px y, py y) in
  mkP (fst w) (snd w) (normalizeAngle (pth y - pth t)).

(** Sum of the squared misfits of the constraints, weighted with their information, for
    estimates of the poses; this is what g2o minimises. *)
Definition cost (l : list (gedge pose M3)) (est : nat -> pose) : R :=
  fold_right (fun e s =>
    match ge_from e, ge_to e with
    | Some a, Some b => quad (ge_info e) (vecOf (misfit (est a) (ge_meas e) (est b))) + s
    | _, _ => s
    end) 0 l.

(** The constraint agrees with the two poses exactly. *)
Definition fits (x z y : pose) : Prop := same_pose y (compose x z).
