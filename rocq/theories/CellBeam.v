(** Proofs for C140: how much one beam tells about a distribution. *)
From Coq Require Import Reals Lra Psatz List ZArith Bool Lia.
From Verif Require Import Base LinAlg3 CellModel CellSpec EvidenceSpec CellProofs CellCases.
Import ListNotations.
Open Scope R_scope.

Lemma quad_line i m d e t : sym i ->
  quad i (vsub (vadd e (vscale t d)) m) =
  quad i (vsub e m) + 2 * t * vdot (mvmul i d) (vsub e m) + t * t * quad i d.
Proof.
  intro S. destruct i as [a1 a2 a3 b1 b2 b3 c1 c2 c3]. unfold sym in S.
  assert (E : a2 = b1 /\ a3 = c1 /\ b3 = c2) by (unfold mtr in S; cbn in S; injection S as; subst; auto).
  destruct E as (-> & -> & ->). destruct m, d, e. unfold quad. munfold. ring.
Qed.
Lemma pow2_pos x : x <> 0 -> 0 < x ^ 2.
Proof. intro N. replace (x ^ 2) with (Rsqr x) by (unfold Rsqr; ring). apply Rsqr_pos_lt, N. Qed.
Lemma minv_sym a : sym a -> sym (minv a).
Proof.
  intro S. destruct a as [a1 a2 a3 b1 b2 b3 c1 c2 c3]. unfold sym, minv in *. munfold.
  injection S as E1 E2 E3 E4 E5 E6. subst. f_equal; ring.
Qed.
Lemma pd_det m : posdef m -> mdet m <> 0.
Proof. exact (posdef_det eig3 eigen_solver_exists m). Qed.
Lemma pd_quad m v : posdef m -> 0 <= quad (minv m) v.
Proof. exact (minv_pd_quad eig3 eigen_solver_exists m v). Qed.
Lemma minv_posdef m : posdef m -> posdef (minv m).
Proof.
  intro P. split; [apply minv_sym, P|]. intros v NV.
  assert (D : mdet m <> 0) by (apply pd_det; auto). set (w := mvmul (minv m) v).
  assert (E : v = mvmul m w) by (unfold w; rewrite <- mvmul_mmul, minv_r, mvmul_1; auto).
  assert (NW : w <> vzero) by (intro Z; apply NV; rewrite E, Z; apply mvmul_zero).
  pose proof (proj2 P w NW) as Q. unfold quad in *. fold w. rewrite E, vdot_comm. exact Q.
Qed.

(** the vertex of a parabola *)
Lemma vertex i m s e : posdef i -> s <> e ->
  let d := vsub e s in
  let p := vadd e (vscale (- vdot (mvmul i d) (vsub e m) / quad i d) d) in
  most_likely i m s e p /\ forall q, most_likely i m s e q -> q = p.
Proof.
  intros P NE d p.
  assert (ND : d <> vzero) by (intro Z; apply NE; symmetry; apply vsub_zero, Z).
  pose proof (proj2 P d ND) as QP. set (A := quad i d) in *. set (b := vdot (mvmul i d) (vsub e m)) in *.
  assert (V : forall t, quad i (vsub (vadd e (vscale t d)) m) =
    quad i (vsub p m) + A * (t - (- b / A)) ^ 2).
  { intro t. unfold p. rewrite !(quad_line i m d e) by apply P. fold b A. field. lra. }
  assert (ML : most_likely i m s e p).
  { split; [exists (- b / A); reflexivity|]. intros q (t & ->). unfold mahalanobis2. fold d. rewrite V.
    pose proof (pow2_ge_0 (t - - b / A)). nra. }
  split; [exact ML|]. intros q ((t & ->) & L). fold d in L. fold d.
  assert (LE : mahalanobis2 i m (vadd e (vscale t d)) <= mahalanobis2 i m p) by (apply L, ML).
  unfold mahalanobis2 in LE. rewrite V in LE.
  assert (Z : t - - b / A = 0).
  { destruct (Req_dec (t - - b / A) 0) as [Z|N]; [exact Z|]. exfalso.
    assert (0 < (t - - b / A) ^ 2) by (apply pow2_pos; exact N). nra. }
  unfold p. do 2 f_equal. lra.
Qed.

Lemma free_evidence_bounds lik d : 0 <= lik <= 1 -> 0 <= free_evidence lik d < ln (3/2) /\
  (0 < lik -> d <> 0 -> 0 < free_evidence lik d) /\ free_evidence lik 0 = 0.
Proof.
  intro L. assert (G : forall p, 1/2 <= p < 3/5 -> 0 <= ln (p/(1-p)) < ln (3/2)).
  { intros p Hp. assert (1 <= p/(1-p) < 3/2).
    { split; apply Rmult_le_reg_r with (1-p) || apply Rmult_lt_reg_r with (1-p); try lra;
      unfold Rdiv; rewrite Rmult_assoc, Rinv_l; lra. }
    split; [rewrite <- ln_1; destruct (Req_dec 1 (p/(1-p))) as [<-|]; [lra|]; left; apply ln_increasing; lra|].
    apply ln_increasing; lra. }
  assert (TH : forall d, 0 < exp (- (1/2) * (d / (1/100)) ^ 2) <= 1).
  { intro y. split; [apply exp_pos|]. pose proof (pow2_ge_0 (y / (1/100))) as Y.
    apply Rle_trans with (exp 0); [|rewrite exp_0; lra].
    destruct (Req_dec (- (1/2) * (y / (1/100)) ^ 2) 0) as [->|]; [lra|]. left. apply exp_increasing. lra. }
  split; [|split].
  - apply G. specialize (TH d). nra.
  - intros LP DN. unfold free_evidence. rewrite <- ln_1.
    assert (T : exp (- (1/2) * (d / (1/100)) ^ 2) < 1).
    { apply Rlt_le_trans with (exp 0); [apply exp_increasing|rewrite exp_0; lra].
      assert (0 < (d / (1/100)) ^ 2) by (apply pow2_pos; intro Z; apply DN; assert (d / (1/100) = 100 * d) by field; lra). lra. }
    set (th := exp _) in *. specialize (TH d). fold th in TH.
    set (p := 1/2 + _). assert (PP : 1/2 < p < 3/5) by (unfold p; nra).
    apply ln_increasing; [lra|]. apply Rmult_lt_reg_r with (1-p); [lra|]. unfold Rdiv. rewrite Rmult_assoc, Rinv_l; lra.
  - unfold free_evidence. replace (- (1/2) * (0 / (1/100)) ^ 2) with 0 by (unfold Rdiv; ring). rewrite exp_0.
    replace (1/2 + 1/10 * (lik * (1 - 1))) with (1/2) by ring. replace (1/2/(1-1/2)) with 1 by field. apply ln_1.
Qed.

Section Beam.
Variable eig : M3 -> M3 * V3.
Hypothesis EIG : eigen_solver eig.

Lemma maxlik i m s e j : posdef i -> s <> e ->
  exists p, maxLikOnLine m i s e j = (p, exp (- mahalanobis2 i m p / 2)) /\ most_likely i m s e p /\
    forall q, most_likely i m s e q -> q = p.
Proof.
  clear. intros P NE. destruct (vertex i m s e P NE) as (V & U).
  set (d := vsub e s) in *. assert (ND : d <> vzero) by (intro Z; apply NE; symmetry; apply vsub_zero, Z).
  eexists. split; [|split; [exact V|exact U]].
  unfold maxLikOnLine. fold d. set (N := vnorm d).
  assert (NN : N <> 0) by (intro Z; apply ND, vnorm_zero, Z).
  assert (S : vdot (mvmul i (vscale (/ N) d)) (vscale (/ N) d) = / N * / N * quad i d).
  { unfold quad. destruct i, d. munfold. ring. }
  assert (B : vdot (mvmul i (vscale (/ N) d)) (vsub e m) = / N * vdot (mvmul i d) (vsub e m)).
  { destruct i, d, e, m. munfold. ring. }
  rewrite S, B. pose proof (proj2 P d ND) as QP. set (A := quad i d) in *.
  destruct (Req_EM_T (/ N * / N * A) 0) as [Z|_].
  { exfalso. apply Rmult_integral in Z. destruct Z as [Z|Z]; [|lra].
    apply Rmult_integral in Z. destruct Z as [Z|Z]; apply Rinv_neq_0_compat in NN; lra. }
  set (b := vdot (mvmul i d) (vsub e m)).
  assert (E : vadd (vscale (- (/ N * b) / (/ N * / N * A)) (vscale (/ N) d)) e = vadd e (vscale (- b / A) d)).
  { destruct d, e. munfold. f_equal; field; lra. }
  rewrite E. reflexivity.
Qed.

Lemma beam_exact B c s e j n x : reach eig B c -> c_gauss c = true -> (0 <= n)%Z -> s <> e ->
  1/100 <= l1 (vsub (c_mean c) e) -> c_occ c = Some x ->
  exists i p, mmul i (c_cov c) = mid /\ most_likely i (c_mean c) s e p /\
    (forall q, most_likely i (c_mean c) s e q -> q = p) /\
    let y := Rmax (-1) (x - IZR n * free_evidence (exp (- mahalanobis2 i (c_mean c) p / 2)) (vnorm (vsub p e))) in
    c_occ (updateOccupancy c s e j n) = Some y /\
    (c_gauss (updateOccupancy c s e j n) = true <-> 0 < y).
Proof.
  intros R G HN NE FAR OX. pose proof (reach_CI eig EIG _ c R) as I.
  destruct (ci_gauss _ _ I G) as (PD & _ & IC & _). rewrite (inverse_pd eig EIG _ PD) in IC || rewrite (inverse_pd _ PD) in IC.
  assert (PI : posdef (minv (c_cov c))) by (apply minv_posdef, PD).
  destruct (maxlik (minv (c_cov c)) (c_mean c) s e j PI NE) as (p & ML & MP & U).
  exists (minv (c_cov c)), p. split; [apply minv_l, pd_det, PD|]. split; [exact MP|]. split; [exact U|].
  pose proof (ci_occ _ _ I) as OR. rewrite OX in OR. cbn in OR.
  assert (PN : 0 <= IZR n) by (apply IZR_le in HN; exact HN).
  assert (Q : 0 <= mahalanobis2 (minv (c_cov c)) (c_mean c) p) by (apply pd_quad, PD).
  set (lik := exp _). assert (LK : 0 <= lik <= 1).
  { unfold lik. split; [left; apply exp_pos|]. apply Rle_trans with (exp 0); [|rewrite exp_0; lra].
    destruct (Req_dec (- mahalanobis2 (minv (c_cov c)) (c_mean c) p / 2) 0) as [->|]; [lra|]. left. apply exp_increasing. lra. }
  set (d := vnorm (vsub p e)). destruct (free_evidence_bounds lik d LK) as ((F0 & _) & _).
  assert (BL : beamLogOdd c s e j = Some (- free_evidence lik d)).
  { unfold beamLogOdd. rewrite IC. destruct (Req_EM_T (vnorm (vsub e s)) 0) as [Z|_].
    { exfalso. apply NE. symmetry. apply vsub_zero, vnorm_zero, Z. }
    rewrite ML. f_equal. fold lik d. unfold free_evidence.
    replace (- (1 / 2) * (d / (1 / 100)) ^ 2) with (- (1/2) * (d * d) / (SENSOR_NOISE * SENSOR_NOISE)) by (unfold SENSOR_NOISE; field).
    set (th := exp _). assert (TH : 0 < th) by apply exp_pos.
    assert (T1 : th <= 1).
    { unfold th. apply Rle_trans with (exp 0); [|rewrite exp_0; lra].
      destruct (Req_dec (- (1/2) * (d * d) / (SENSOR_NOISE * SENSOR_NOISE)) 0) as [->|]; [lra|]. left. apply exp_increasing.
      assert (0 <= d * d / (SENSOR_NOISE * SENSOR_NOISE)) by (unfold SENSOR_NOISE; nra). unfold SENSOR_NOISE in *. nra. }
    replace (1 / 10 * (lik * (1 - th)) + 1 / 2) with (1 / 2 + 1 / 10 * (lik * (1 - th))) by ring.
    set (l := 1 / 2 + _). assert (0 < l < 1) by (unfold l; nra).
    rewrite <- ln_Rinv by (apply Rdiv_lt_0_compat; lra). f_equal. field. lra. }
  cbv zeta. set (y := Rmax _ _).
  assert (Y : clampOcc (x + IZR n * - free_evidence lik d) = y).
  { pose proof (Rmult_le_pos _ _ PN F0) as W. unfold y. replace (IZR n * - free_evidence lik d) with (- (IZR n * free_evidence lik d)) by ring.
    clearbody lik d. clear y. set (w := IZR n * free_evidence lik d) in *. unfold clampOcc, MAX_OCC, MIN_OCC, Rmax.
    destruct (Rlt_dec 1 (x + - w)); [lra|].
    destruct (Rlt_dec (x + - w) (-1)), (Rle_dec (-1) (x - w)); lra. }
  unfold updateOccupancy. rewrite G. cbn [negb]. unfold at_end. destruct (Rlt_dec _ _) as [L|_]; [lra|].
  rewrite BL, OX. cbn [addOcc option_map]. rewrite Y. cbn [occ_le0].
  destruct (Rle_dec y 0) as [L|L]; cbn [set_gauss set_occ c_occ c_gauss]; (split; [reflexivity|]); split; intro H; try lra; try discriminate.
  exact G.
Qed.

(** The side on which the mean lies makes no difference. *)
Lemma beam_through B c s e j n x t : reach eig B c -> c_gauss c = true -> (0 <= n)%Z -> s <> e ->
  1/100 <= l1 (vsub (c_mean c) e) -> c_occ c = Some x -> c_mean c = vadd e (vscale t (vsub e s)) ->
  c_occ (updateOccupancy c s e j n) =
    Some (Rmax (-1) (x - IZR n * free_evidence 1 (vnorm (vsub (c_mean c) e)))).
Proof.
  intros R G HN NE FAR OX M.
  destruct (beam_exact B c s e j n x R G HN NE FAR OX) as (i & p & II & MP & U & Y & _).
  pose proof (reach_CI eig EIG _ c R) as I. destruct (ci_gauss _ _ I G) as (PD & _ & _ & _).
  assert (IE : i = minv (c_cov c)).
  { assert (D : mdet (c_cov c) <> 0) by (apply pd_det, PD).
    rewrite <- (mmul_1_r i), <- (minv_r (c_cov c)), <- mmul_assoc, II, mmul_1_l by exact D. reflexivity. }
  assert (Z : mahalanobis2 i (c_mean c) (c_mean c) = 0).
  { unfold mahalanobis2, quad. destruct i, (c_mean c). munfold. ring. }
  assert (PM : c_mean c = p).
  { apply U. split; [exists t; exact M|]. intros q _. rewrite Z, IE. apply pd_quad, PD. }
  rewrite <- PM, Z in Y. replace (- 0 / 2) with 0 in Y by field. rewrite exp_0 in Y. exact Y.
Qed.
End Beam.
