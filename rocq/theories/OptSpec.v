(** What the mixture edge and the switch vertex promise, in terms of the
    components handed over and the values read back. *)
From Coq Require Import Reals ZArith List.
From Verif Require Import Base LinAlg3 GeoModel GeoSpec OptModel.
Import ListNotations.
Open Scope R_scope.

(** Determinant of the covariance of a component. *)
Definition cov_det (e : sedge) : R := mdet (minv (se_info e)).
(** Negative log likelihood, up to the common constant, of a component with
    weight [w] when the poses are [est]: the residual is the measured motion
    against the motion between the two poses. *)
Definition residual (est : nat -> pose) (e : sedge) : pose :=
  calcError (est (se_v0 e)) (est (se_v1 e)) (se_meas e).
Definition nll (est : nat -> pose) (e : sedge) (w : R) : R :=
  - ln w + 1 / 2 * ln (cov_det e) + 1 / 2 * quad (se_info e) (vecOf (residual est e)).
(** Component lists the library's documentation asks for: at least one
    component, a positive weight for each, proper covariances. *)
Definition proper (es : list sedge) (ws : list R) : Prop :=
  es <> [] /\ length ws = length es /\ (forall w, In w ws -> 0 < w) /\
  (forall e, In e es -> 0 < cov_det e).
(** A mixture edge is made, given its components, and asked for its error at
    each of a sequence of estimates. *)
Definition mixrun (self : sedge) (es : list sedge) (ws : list R) (est0 : nat -> pose)
  (ests : list (nat -> pose)) : res mixture :=
  do m <- initComponents est0 (newMixture self) es ws;
  foldM (fun m est => computeErrorMix est m) ests m.
(** The mixture shows component [i], which is [e]. *)
Definition shows (m : mixture) (i : nat) (e : sedge) : Prop :=
  mx_best m = Some (Z.of_nat i) /\ se_v0 (mx_self m) = se_v0 e /\ se_v1 (mx_self m) = se_v1 e /\
  se_meas (mx_self m) = se_meas e /\ se_info (mx_self m) = se_info e.

(** A switch value is a number between 0 and 1. *)
Definition in01 (v : option R) : Prop := exists r, v = Some r /\ 0 <= r <= 1.
(** What the optimiser may do: reset, and add any number. *)
Definition optimiser_op (o : swop) : Prop :=
  match o with SwOrigin => True | SwOplus (Some _) => True | _ => False end.

(** [j] is the column of partial derivatives of [f] at [s]. *)
Definition is_column (f : R -> pose) (s : R) (j : V3) : Prop :=
  derivable_pt_lim (fun x => px (f x)) s (vx j) /\
  derivable_pt_lim (fun x => py (f x)) s (vy j) /\
  derivable_pt_lim (fun x => pth (f x)) s (vz j).
