(** Proofs: the motion of the window is split without rounding. *)
From Coq Require Import Reals Qreals Lra List ZArith QArith Qabs Qround Bool Lia Psatz Arith.
From Flocq Require Import Core.
From Verif Require Import Base VoxelModel GridModel FloatModel FloatSpec FloatIEEE FloatErr FloatProofs.
Import ListNotations.
Open Scope R_scope.
Set Default Proof Using "Type".

Section Axis.
Variables (cs t : Q) (e : Z).
Hypothesis EE : (-90 <= e <= 0)%Z.
Hypothesis CS : (cs == two e)%Q.
Hypothesis TD : is_double t.
Hypothesis TB : (Qabs t <= two 23 * cs)%Q.

Lemma cs_R : Q2R cs = B e. Proof using CS. rewrite (Qeq_eqR _ _ CS). apply q2r_two. Qed.
Lemma cs_nz : ~ (cs == 0)%Q.
Proof using CS. intro H. apply Qeq_eqR in H. rewrite cs_R, RMicromega.Q2R_0 in H. pose proof (B_pos e). lra. Qed.
Lemma t_bound : Rabs (Q2R t) <= B (23 + e).
Proof using CS TB. apply Qle_Rle in TB. rewrite q2r_abs, Q2R_mult, q2r_two, cs_R, <- bpow_plus in TB. exact TB. Qed.
(** the digits of t reach below the size of a cell *)
Lemma digits : exists M q, Q2R t = IZR M * B q /\ (Z.abs M < 2 ^ 53)%Z /\ (-1074 <= q <= e)%Z.
Proof using EE CS TD TB.
  destruct (Req_dec (Q2R t) 0) as [Z0|NZ].
  { exists 0%Z, e. split; [rewrite Z0; ring|]. split; [reflexivity|lia]. }
  assert (F : generic_format radix2 (FLT_exp (-1074) 53) (Q2R t)).
  { unfold is_double in TD. apply Qeq_eqR in TD. rewrite f64_ieee in TD. rewrite <- TD. apply generic_format_round; [apply FLT_exp_valid; reflexivity|apply valid_rnd_N]. }
  exists (Ztrunc (scaled_mantissa radix2 (FLT_exp (-1074) 53) (Q2R t))), (cexp radix2 (FLT_exp (-1074) 53) (Q2R t)).
  split; [exact F|]. set (q := cexp _ _ _). 
  assert (MG : (mag radix2 (Q2R t) <= 24 + e)%Z).
  { apply mag_le_bpow; [exact NZ|]. eapply Rle_lt_trans; [exact t_bound|]. apply bpow_lt. lia. }
  split.
  - set (M := Ztrunc _). assert (E : Q2R t = IZR M * B q) by exact F.
    assert (L : Rabs (Q2R t) < B (mag radix2 (Q2R t))) by apply bpow_mag_gt.
    rewrite E, Rabs_mult, (Rabs_right (B q)) in L by (apply Rle_ge, bpow_ge_0). rewrite <- E in L.
    assert (LQ : (mag radix2 (Q2R t) <= 53 + q)%Z) by (unfold q, cexp, FLT_exp; lia).
    assert (L2 : Rabs (IZR M) * B q < B 53 * B q).
    { rewrite <- bpow_plus. eapply Rlt_le_trans; [exact L|]. apply B_le, LQ. }
    apply Rmult_lt_reg_r in L2; [|apply B_pos]. rewrite <- abs_IZR in L2. change (B 53) with (IZR (2 ^ 53)) in L2. apply lt_IZR, L2.
  - unfold q, cexp, FLT_exp. lia.
Qed.
Lemma quotient_exact : Q2R (f64 (t / cs)) = Q2R (t / cs) /\ Q2R (f64 (Qabs t / cs)) = Q2R (Qabs t / cs).
Proof using EE CS TD TB.
  destruct digits as (M & q & E & MB & QB). rewrite !f64_ieee, !Q2R_div by apply cs_nz. rewrite q2r_abs, E, cs_R.
  assert (D : forall m, IZR m * B q / B e = IZR m * B (q - e)).
  { intro m. unfold Z.sub. rewrite bpow_plus, bpow_opp. field. apply Rgt_not_eq, B_pos. }
  rewrite Rabs_mult, (Rabs_right (B q)), <- abs_IZR by (apply Rle_ge, bpow_ge_0). rewrite !D. split; apply fixed64; lia.
Qed.
Theorem move_exact : faxisMove cs t = axisMove cs t.
Proof using EE CS TD TB.
  destruct quotient_exact as [E1 E2]. unfold faxisMove, axisMove. cbv zeta.
  assert (F2 : Qfloor (f64 (Qabs t / cs)) = Qfloor (Qabs t / cs)) by (rewrite <- !q2r_floor, E2; reflexivity).
  assert (F1 : Qfloor (f64 (t / cs)) = Qfloor (t / cs)) by (rewrite <- !q2r_floor, E1; reflexivity).
  assert (C1 : Qceiling (f64 (t / cs)) = Qceiling (t / cs)) by (rewrite <- !q2r_ceil, E1; reflexivity).
  assert (L1 : Qlt_b (f64 (t / cs)) 0 = Qlt_b (t / cs) 0) by (apply eq_true_iff_eq; rewrite !Qlt_b_R, E1; reflexivity).
  rewrite F2, F1, C1, L1. reflexivity.
Qed.
Lemma whole_exact k : (Z.abs k <= 2 ^ 23)%Z -> Q2R (fwhole cs k) = IZR k * B e.
Proof using EE CS.
  intro K. unfold fwhole. rewrite f32_ieee, Q2R_mult, f32_ieee, q2r_Z, cs_R, fixed32Z by lia. apply fixed32; lia.
Qed.
Lemma steps_bound k : axisMove cs t = Ok (Some k) ->
  (Z.abs k <= 2 ^ 23)%Z /\ Rabs (Q2R t - IZR k * B e) <= Rabs (Q2R t).
Proof using EE CS TB.
  intro A. unfold axisMove in A. destruct (0 <? _)%Z; [|discriminate]. apply bind_ok_inv in A. destruct A as (k' & TI & A). injection A as ->.
  assert (K : (if Qlt_b (t / cs) 0 then Qceiling (t / cs) else Qfloor (t / cs)) = k).
  { unfold to_int in TI. destruct (_ && _)%Z in TI; [injection TI as TI; exact TI|discriminate]. }
  pose proof (B_pos e) as BP. pose proof t_bound as T. rewrite bpow_plus in T.
  set (v := Q2R (t / cs)). assert (V : v = Q2R t / B e) by (unfold v; rewrite Q2R_div, cs_R by apply cs_nz; reflexivity).
  assert (TV : Q2R t = v * B e) by (rewrite V; field; lra).
  assert (VB : Rabs v <= 8388608).
  { rewrite TV, Rabs_mult, (Rabs_right (B e)) in T by lra. apply Rmult_le_reg_r in T; [exact T|exact BP]. }
  assert (VK : (v < 0 /\ v <= IZR k /\ (k <= 0)%Z) \/ (0 <= v /\ IZR k <= v /\ (0 <= k)%Z)).
  { destruct (Qlt_b (t / cs) 0) eqn:L.
    - apply Qlt_b_R in L. rewrite RMicromega.Q2R_0 in L. fold v in L. left. rewrite <- q2r_ceil in K. fold v in K. split; [exact L|].
      split; [rewrite <- K; apply Zceil_ub|]. rewrite <- K. apply Zceil_glb. cbn. lra.
    - assert (N : 0 <= v). { apply Rnot_lt_le. intro H. assert (Qlt_b (t / cs) 0 = true) by (apply Qlt_b_R; rewrite RMicromega.Q2R_0; exact H). congruence. }
      right. rewrite <- q2r_floor in K. fold v in K. split; [exact N|]. split; [rewrite <- K; apply Zfloor_lb|]. rewrite <- K. apply Zfloor_lub. exact N. }
  apply Rabs_le_inv in VB.
  assert (R1 : Q2R t - IZR k * B e = (v - IZR k) * B e) by (rewrite TV; ring).
  rewrite R1, TV, !Rabs_mult. destruct VK as [(A1 & A2 & A3)|(A1 & A2 & A3)].
  - pose proof (IZR_le _ _ A3) as A4. split.
    + assert (IZR (-8388608) <= IZR k) by lra. apply le_IZR in H. lia.
    + apply Rmult_le_compat_r; [apply Rabs_pos|]. rewrite !Rabs_left1 by lra. lra.
  - pose proof (IZR_le _ _ A3) as A4. split.
    + assert (IZR k <= IZR 8388608) by lra. apply le_IZR in H. lia.
    + apply Rmult_le_compat_r; [apply Rabs_pos|]. rewrite !Rabs_right by lra. lra.
Qed.
Theorem rest_exact o : axisMove cs t = Ok o -> (faxisRest cs t o == axisRest cs t o)%Q.
Proof using EE CS TD TB.
  intro A. destruct o as [k|]; [|reflexivity]. destruct (steps_bound k A) as [KB RB].
  destruct digits as (M & q & E & MB & QB). apply eqR_Qeq. unfold faxisRest, axisRest.
  rewrite f64_ieee, !Q2R_minus, (whole_exact k KB), Q2R_mult, q2r_Z, cs_R.
  set (r := Q2R t - IZR k * B e) in *.
  assert (ER : r = IZR (M - k * 2 ^ (e - q)) * B q).
  { unfold r. rewrite E, minus_IZR, mult_IZR, (IZR_Zpower radix2) by lia. rewrite Rmult_minus_distr_r, Rmult_assoc, <- bpow_plus. do 3 f_equal. lia. }
  rewrite ER. apply fixed64; [|lia].
  assert (AM : Rabs (IZR (M - k * 2 ^ (e - q))) <= Rabs (IZR M)).
  { rewrite ER, E, !Rabs_mult in RB. apply Rmult_le_reg_r in RB; [exact RB|]. rewrite Rabs_right by (apply Rle_ge, bpow_ge_0). apply B_pos. }
  rewrite <- !abs_IZR in AM. apply le_IZR in AM. lia.
Qed.
End Axis.
(** positions that are whole cells stay so *)
Theorem origin_exact cs e a o : (-90 <= e <= 0)%Z -> (cs == two e)%Q -> (Z.abs a <= 2 ^ 50)%Z ->
  (forall k, o = Some k -> (Z.abs k <= 2 ^ 23)%Z) ->
  (forigin cs (inject_Z a * cs) o == inject_Z (a + steps o) * cs)%Q.
Proof.
  intros EE CS AB KB. apply eqR_Qeq. unfold forigin. rewrite Q2R_mult, q2r_Z, (cs_R cs e CS), plus_IZR.
  destruct o as [k|]; cbn [steps]; rewrite f64_ieee, Q2R_plus, Q2R_mult, q2r_Z, (cs_R cs e CS).
  - rewrite (whole_exact cs e EE CS k (KB k eq_refl)). rewrite <- Rmult_plus_distr_r, <- plus_IZR. specialize (KB k eq_refl). apply fixed64; lia.
  - rewrite RMicromega.Q2R_0, Rplus_0_r. rewrite Rplus_0_r. apply fixed64; lia.
Qed.
