(** Proofs about what robust constraints cost. *)
From Coq Require Import Reals ZArith List Bool Arith Lia Lra.
From Verif Require Import Base LinAlg3 GeoModel GeoSpec GraphModel GraphSpec GraphProofs LoopModel
  SlamModel SlamSpec SlamProofs OptModel OptSpec OptProofs RobustModel RobustSpec RobustProofs RobustRun.
Import ListNotations.
Open Scope R_scope.

Lemma switch_chi i z p q s : quad i (vecOf (switchError p q z s)) = s * s * chi i z p q.
Proof.
  unfold chi, switchError, quad, vecOf, vdot, mvmul. cbn. ring.
Qed.
Lemma switch_cost_eq one i z p q s :
  switch_cost one i z p q s = s * s * chi i z p q + one * ((1 - s) * (1 - s)).
Proof. unfold switch_cost, priorError. rewrite switch_chi. reflexivity. Qed.

Lemma best_switch one c : 0 < one -> 0 <= c ->
  let t := one / (one + c) in 0 < t <= 1 /\ t * t * c + one * ((1 - t) * (1 - t)) = one * c / (one + c) /\
  one * c / (one + c) < one /\
  forall s, t * t * c + one * ((1 - t) * (1 - t)) <= s * s * c + one * ((1 - s) * (1 - s)).
Proof.
  intros H1 H2 t. assert (P : 0 < one + c) by lra.
  assert (T : t * (one + c) = one) by (unfold t; field; lra).
  assert (E : t * t * c + one * ((1 - t) * (1 - t)) = one * c / (one + c)) by (unfold t; field; lra).
  assert (I : 0 < / (one + c)) by (apply Rinv_0_lt_compat; auto).
  split; [|split; [exact E|split]].
  - unfold t, Rdiv. split; [apply Rmult_lt_0_compat; auto|].
    apply (Rmult_le_reg_r (one + c)); [exact P|]. rewrite Rmult_assoc, Rinv_l by lra. lra.
  - apply (Rmult_lt_reg_r (one + c)); [exact P|]. unfold Rdiv. rewrite Rmult_assoc, Rinv_l by lra. nra.
  - intro s. assert (Q : s * s * c + one * ((1 - s) * (1 - s)) - (t * t * c + one * ((1 - t) * (1 - t))) =
      (one + c) * ((s - t) * (s - t)) + 2 * (s - t) * (t * (one + c) - one)) by ring.
    rewrite T in Q. assert (0 <= (s - t) * (s - t)) by apply Rle_0_sqr. nra.
Qed.

Section R.
Context {Obj Guess D : Type}.
Notation slam := (slam pose Obj M3).
Notation senv := (senv pose Obj M3 Guess D).

Lemma nll_trusted (env : senv) est f g tr i : 0 < mdet i ->
  nll est (component env f g tr i) 1 =
    - (1 / 2) * ln (mdet i) + 1 / 2 * chi i (se2 env tr) (est f) (est g).
Proof.
  intro H. unfold nll, cov_det, component, residual, chi. cbn [se_info se_v0 se_v1 se_meas].
  rewrite det_cov, ln_1, ln_Rinv by auto. ring.
Qed.
Lemma nll_null (env : senv) est f g tr :
  nll est (component env f g tr information_invalid) (1 / 10000) =
    ln 10000 - (1 / 2) * ln (mdet information_invalid) +
    1 / 2 * chi information_invalid (se2 env tr) (est f) (est g).
Proof.
  unfold nll, cov_det, component, residual, chi. cbn [se_info se_v0 se_v1 se_meas].
  pose proof det_null as N. rewrite det_cov, ln_Rinv by auto.
  replace (1 / 10000) with (/ 10000) by field. rewrite ln_Rinv by lra. ring.
Qed.

Lemma settled_split (env : senv) (s : slam) f g tr i id m : settledQ env s (f, g, tr, i) (id, m) ->
  let z := se2 env tr in let p := estOf s f in let q := estOf s g in
  se_v0 (mx_self m) = f /\ se_v1 (mx_self m) = g /\ se_meas (mx_self m) = z /\
  se_err (mx_self m) = calcError p q z /\
  ((mx_best m = Some 0%Z /\ se_info (mx_self m) = i /\ chi i z p q - chi information_invalid z p q <= limit i) \/
   (mx_best m = Some 1%Z /\ se_info (mx_self m) = information_invalid /\
    limit i <= chi i z p q - chi information_invalid z p q)).
Proof.
  intros [[(F1 & F2 & Hi) _] (k & e & w & A & B & (S1 & S2 & S3 & S4 & S5) & R & M)] z p q.
  cbn [snd] in *. pose proof det_null as N.
  assert (LI : limit i = ln (mdet i) - ln (mdet information_invalid) + 2 * ln 10000).
  { unfold limit, Rdiv. rewrite ln_mult; [|exact Hi|apply Rinv_0_lt_compat; exact N]. rewrite (ln_Rinv (mdet information_invalid) N). ring. }
  pose proof (M 0%nat _ _ eq_refl eq_refl) as M0. pose proof (M 1%nat _ _ eq_refl eq_refl) as M1.
  unfold comps, mm_weights in *. cbn [map] in *.
  destruct k as [|[|k]]; cbn [nth_error] in A, B; [| |destruct k; discriminate A];
    injection A as <-; injection B as <-; unfold component in S2, S3, S4, S5, R; cbn [se_v0 se_v1 se_meas se_info] in *.
  - rewrite (nll_trusted env _ f g tr i Hi), (nll_null env _ f g tr) in M1.
    split; [exact S2|]. split; [exact S3|]. split; [exact S4|]. split; [exact R|].
    left. split; [exact S1|]. split; [exact S5|]. fold p q z in M1. rewrite LI. lra.
  - rewrite (nll_trusted env _ f g tr i Hi), (nll_null env _ f g tr) in M0.
    split; [exact S2|]. split; [exact S3|]. split; [exact S4|]. split; [exact R|].
    right. split; [exact S1|]. split; [exact S5|]. fold p q z in M0. rewrite LI. lra.
Qed.
End R.
