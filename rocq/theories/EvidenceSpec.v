(** Specification vocabulary for C140: lines and evidence. *)
From Coq Require Import Reals.
From Verif Require Import LinAlg3.
Open Scope R_scope.

(** The straight line through two points, and the points of it that a normal
    distribution with mean m and inverse covariance i finds most likely (least squared
    Mahalanobis distance). *)
Definition on_line (s e p : V3) : Prop := exists t, p = vadd e (vscale t (vsub e s)).
Definition mahalanobis2 (i : M3) (m p : V3) : R := quad i (vsub p m).
Definition most_likely (i : M3) (m s e p : V3) : Prop :=
  on_line s e p /\ forall q, on_line s e q -> mahalanobis2 i m p <= mahalanobis2 i m q.
(** Log odds that one reading speaks for free space where it passed a place of
    likelihood lik at distance d from its end; one centimetre of sensor noise. *)
Definition free_evidence (lik d : R) : R :=
  let p := 1/2 + 1/10 * (lik * (1 - exp (- (1/2) * (d / (1/100)) ^ 2))) in
  ln (p / (1 - p)).
