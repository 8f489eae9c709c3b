(** Proofs about the fitting constants. *)
From Coq Require Import Reals ZArith List Bool Lra Lia Psatz.
From Verif Require Import Base LinAlg3 GeoModel OptModel RegModel RegSpec.
Import ListNotations.
Open Scope R_scope.

(** strict convexity of exp between 0 and [l] *)
Lemma exp_convex a l : 0 < a < 1 -> 0 < l -> exp (a * l) < 1 - a + a * exp l.
Proof.
  intros A L.
  assert (E1 : 1 + - (a * l) < exp (- (a * l))) by (apply exp_ineq1; nra).
  assert (E2 : 1 + (1 - a) * l < exp ((1 - a) * l)) by (apply exp_ineq1; nra).
  assert (P : 0 < exp (a * l)) by apply exp_pos.
  assert (F1 : exp (a * l) * exp (- (a * l)) = 1) by (rewrite <- exp_plus, Rplus_opp_r; apply exp_0).
  assert (F2 : exp (a * l) * exp ((1 - a) * l) = exp l) by (rewrite <- exp_plus; f_equal; ring).
  rewrite <- F2.
  assert (G1 : exp (a * l) * (1 + - (a * l)) < 1) by (eapply Rlt_le_trans; [apply Rmult_lt_compat_l; [exact P|exact E1]|right; exact F1]).
  assert (G2 : exp (a * l) * (1 + (1 - a) * l) < exp (a * l) * exp ((1 - a) * l))
    by (apply Rmult_lt_compat_l; assumption).
  nra.
Qed.

Lemma calcParams_eq r res : 0 < r < 1 -> 0 < res ->
  let k := 10 * (1 - r) * res ^ 2 / r in
  0 < k /\
  calcParams r res = mkFP (- ln (1 + k)) (- 2 * ln (ln (1 + k * exp (- (1 / 2))) / ln (1 + k)))
                          (- 2 * ln (ln (1 + k * exp (- (1 / 2))) / ln (1 + k)) / 2).
Proof.
  intros Hr Hs k.
  assert (S2 : 0 < res ^ 2) by (apply pow_lt; exact Hs).
  assert (K : 0 < k).
  { unfold k. apply Rdiv_lt_0_compat; [|lra]. apply Rmult_lt_0_compat; lra. }
  split; [exact K|].
  unfold calcParams.
  set (c2 := r / res ^ 2).
  assert (C2 : 0 < c2) by (apply Rdiv_lt_0_compat; lra).
  assert (E : 10 * (1 - r) = k * c2) by (unfold k, c2; field; lra).
  rewrite E.
  assert (L : forall a, 0 < a -> - ln (k * c2 * a + c2) - - ln c2 = - ln (1 + k * a)).
  { intros a A. replace (k * c2 * a + c2) with (c2 * (1 + k * a)) by ring.
    rewrite ln_mult; [ring|exact C2|nra]. }
  assert (L1 : - ln (k * c2 + c2) - - ln c2 = - ln (1 + k)).
  { replace (k * c2 + c2) with (c2 * (1 + k)) by ring.
    rewrite ln_mult; [ring|exact C2|nra]. }
  rewrite L1, L by apply exp_pos.
  assert (P : 0 < ln (1 + k)) by (apply Rle_lt_trans with (ln 1); [rewrite ln_1; apply Rle_refl|apply ln_increasing; lra]).
  assert (D : forall x, - x / - ln (1 + k) = x / ln (1 + k)) by (intro; field; lra).
  rewrite D. reflexivity.
Qed.

Theorem fit r res : 0 < r < 1 -> 0 < res ->
  let p := calcParams r res in g_d1 p < 0 /\ 0 < g_d2 p < 1 /\ g_half p = g_d2 p / 2.
Proof.
  intros Hr Hs p. destruct (calcParams_eq r res Hr Hs) as (K & E).
  unfold p. rewrite E. clear p E. set (k := 10 * (1 - r) * res ^ 2 / r) in *. clearbody k.
  cbn [g_d1 g_d2 g_half].
  assert (P : 0 < ln (1 + k)) by (apply Rle_lt_trans with (ln 1); [rewrite ln_1; apply Rle_refl|apply ln_increasing; lra]).
  set (a := exp (- (1 / 2))).
  assert (A0 : 0 < a) by apply exp_pos.
  assert (A1 : a < 1) by (apply Rlt_le_trans with (exp 0); [unfold a; apply exp_increasing; lra|rewrite exp_0; apply Rle_refl]).
  assert (Q : 0 < ln (1 + k * a)) by (apply Rle_lt_trans with (ln 1); [rewrite ln_1; apply Rle_refl|apply ln_increasing; nra]).
  assert (Q1 : ln (1 + k * a) < ln (1 + k)) by (apply ln_increasing; nra).
  assert (Q2 : a * ln (1 + k) < ln (1 + k * a)).
  { apply exp_lt_inv. rewrite exp_ln by nra.
    apply Rlt_le_trans with (1 := exp_convex a (ln (1 + k)) (conj A0 A1) P).
    rewrite exp_ln by lra. lra. }
  set (rho := ln (1 + k * a) / ln (1 + k)).
  assert (R1 : rho < 1).
  { unfold rho. apply (Rmult_lt_reg_r (ln (1 + k)) _ _ P). unfold Rdiv.
    rewrite Rmult_assoc, Rinv_l by lra. lra. }
  assert (R2 : a < rho).
  { unfold rho. apply (Rmult_lt_reg_r (ln (1 + k)) _ _ P). unfold Rdiv.
    rewrite Rmult_assoc, Rinv_l by lra. lra. }
  assert (L1 : ln rho < 0) by (apply Rlt_le_trans with (ln 1); [apply ln_increasing; lra|rewrite ln_1; apply Rle_refl]).
  assert (L2 : - (1 / 2) < ln rho).
  { replace (- (1 / 2)) with (ln a) by (unfold a; apply ln_exp). apply ln_increasing; lra. }
  repeat split; lra.
Qed.

Theorem fit_score r res : 0 < r < 1 -> 0 < res ->
  let p := calcParams r res in
  (forall d, 0 < fitted p d) /\
  (forall d, 0 <= d -> fitted p d <= fitted p 0) /\
  (forall d e, d < e -> fitted p e < fitted p d).
Proof.
  intros Hr Hs p. destruct (fit r res Hr Hs) as (D1 & D2 & H). fold p in D1, D2, H.
  assert (M : forall d e, d < e -> fitted p e < fitted p d).
  { intros d e L. unfold fitted. apply Rmult_lt_compat_l; [lra|]. apply exp_increasing. nra. }
  split; [|split; [|exact M]].
  - intro d. unfold fitted. apply Rmult_lt_0_compat; [lra|apply exp_pos].
  - intros d [L| <-]; [left; apply M; exact L|right; reflexivity].
Qed.

(** the guard of P2D never fires for a distance that is not negative *)
Lemma guard_ok p d : 0 < g_d2 p < 1 -> g_half p = g_d2 p / 2 -> 0 <= d ->
  0 <= g_d2 p * exp (- g_half p * d) <= 1.
Proof.
  intros D H L. pose proof (exp_pos (- g_half p * d)).
  assert (exp (- g_half p * d) <= 1).
  { apply Rle_trans with (exp 0); [|rewrite exp_0; apply Rle_refl]. destruct (Rle_lt_or_eq_dec _ _ L) as [G| <-].
    - left. apply exp_increasing. nra.
    - right. f_equal. ring. }
  nra.
Qed.
