(** The rounding of FloatModel.v is the one of IEEE 754 as formalised in Flocq. *)
From Coq Require Import Reals Qreals Lra List ZArith QArith Qabs Qround Qpower Bool Lia Psatz.
From Flocq Require Import Core.
From Verif Require Import Base VoxelModel FloatModel.
Open Scope R_scope.

Notation fmt64 := (FLT_exp (-1074) 53).
Notation fmt32 := (FLT_exp (-149) 24).
Notation RN prec emin := (round radix2 (FLT_exp emin prec) ZnearestE).

Lemma q2r_Z n : Q2R (inject_Z n) = IZR n.
Proof. unfold Q2R, inject_Z. cbn. field. Qed.
Lemma q2r_two e : Q2R (two e) = bpow radix2 e.
Proof.
  unfold two. destruct e as [|p|p]; cbn [Qpower bpow].
  - unfold Q2R. cbn. field.
  - assert (E : (Qpower_positive (2#1) p == inject_Z (Z.pow_pos 2 p))%Q).
    { change (2#1)%Q with (inject_Z 2). rewrite <- (Zpower_Qpower 2 (Zpos p)) by lia. reflexivity. }
    rewrite (Qeq_eqR _ _ E), q2r_Z. reflexivity.
  - assert (E : (Qpower_positive (2#1) p == inject_Z (Z.pow_pos 2 p))%Q).
    { change (2#1)%Q with (inject_Z 2). rewrite <- (Zpower_Qpower 2 (Zpos p)) by lia. reflexivity. }
    rewrite Q2R_inv.
    + rewrite (Qeq_eqR _ _ E), q2r_Z. reflexivity.
    + rewrite E. intro H. unfold inject_Z, Qeq in H. cbn in H. rewrite Z.mul_1_r in H.
      pose proof (Z.pow_pos_nonneg 2 (Zpos p)). cbn in H0. lia.
Qed.
Lemma q2r_abs q : Q2R (Qabs q) = Rabs (Q2R q).
Proof.
  destruct (Qlt_le_dec q 0) as [N|N].
  - rewrite (Qeq_eqR _ _ (Qabs_neg q (Qlt_le_weak _ _ N))), Q2R_opp. apply Qlt_Rlt in N. rewrite RMicromega.Q2R_0 in N.
    rewrite Rabs_left by exact N. reflexivity.
  - rewrite (Qeq_eqR _ _ (Qabs_pos q N)). apply Qle_Rle in N. rewrite RMicromega.Q2R_0 in N. rewrite Rabs_right by lra. reflexivity.
Qed.
Lemma q2r_floor q : Zfloor (Q2R q) = Qfloor q.
Proof.
  apply Zfloor_imp. rewrite <- !q2r_Z. split.
  - apply Qle_Rle, Qfloor_le.
  - apply Qlt_Rlt, Qlt_floor.
Qed.
Lemma q2r_ceil q : Zceil (Q2R q) = Qceiling q.
Proof. unfold Zceil, Qceiling. rewrite <- Q2R_opp, q2r_floor. reflexivity. Qed.
Lemma log2_bounds z : (0 < z)%Z -> bpow radix2 (Z.log2 z) <= IZR z < bpow radix2 (Z.log2 z + 1).
Proof.
  intro P. destruct (Z.log2_spec z P) as [A B]. pose proof (Z.log2_nonneg z).
  rewrite <- !(IZR_Zpower radix2) by lia. split; [apply IZR_le|apply IZR_lt]; cbn [radix_val radix2]; [exact A|exact B].
Qed.
Lemma qexp_mag q : ~ (q == 0)%Q -> qexp q = mag radix2 (Q2R q) :> Z.
Proof.
  intro NZ. symmetry. apply mag_unique. unfold qexp. set (l := (Z.log2 (Z.abs (Qnum q)) - Z.log2 (Zpos (Qden q)))%Z).
  assert (NN : (0 < Z.abs (Qnum q))%Z).
  { destruct (Z.eq_dec (Qnum q) 0) as [E|E]; [|lia]. exfalso. apply NZ. unfold Qeq. cbn. rewrite E. reflexivity. }
  pose proof (log2_bounds _ NN) as [A1 A2]. pose proof (log2_bounds (Zpos (Qden q)) eq_refl) as [B1 B2].
  assert (AQ : Rabs (Q2R q) = IZR (Z.abs (Qnum q)) / IZR (Zpos (Qden q))).
  { unfold Q2R. rewrite Rabs_mult, abs_IZR, (Rabs_right (/ _)); [reflexivity|]. apply Rle_ge, Rlt_le, Rinv_0_lt_compat, IZR_lt. reflexivity. }
  assert (DP : 0 < IZR (Zpos (Qden q))) by (apply IZR_lt; reflexivity).
  assert (U : Rabs (Q2R q) < bpow radix2 (l + 1)).
  { rewrite AQ. apply (Rmult_lt_reg_r (IZR (Zpos (Qden q)))); [exact DP|]. unfold Rdiv. rewrite Rmult_assoc, Rinv_l, Rmult_1_r by lra.
    eapply Rlt_le_trans; [exact A2|]. replace (Z.log2 (Z.abs (Qnum q)) + 1)%Z with ((l + 1) + Z.log2 (Zpos (Qden q)))%Z by (unfold l; ring).
    rewrite bpow_plus. apply Rmult_le_compat_l; [apply bpow_ge_0|exact B1]. }
  assert (L : bpow radix2 (l - 1) <= Rabs (Q2R q)).
  { rewrite AQ. apply (Rmult_le_reg_r (IZR (Zpos (Qden q)))); [exact DP|]. unfold Rdiv. rewrite Rmult_assoc, Rinv_l, Rmult_1_r by lra.
    eapply Rle_trans; [|exact A1]. replace (Z.log2 (Z.abs (Qnum q))) with ((l - 1) + (Z.log2 (Zpos (Qden q)) + 1))%Z by (unfold l; ring).
    rewrite bpow_plus. apply Rmult_le_compat_l; [apply bpow_ge_0|apply Rlt_le, B2]. }
  destruct (Qle_bool (two l) (Qabs q)) eqn:E.
  - apply Qle_bool_iff, Qle_Rle in E. rewrite q2r_two, q2r_abs in E. replace (l + 1 - 1)%Z with l by lia. split; [exact E|exact U].
  - assert (N : (Qabs q < two l)%Q). { apply Qnot_le_lt. intro N. apply Qle_bool_iff in N. congruence. }
    apply Qlt_Rlt in N. rewrite q2r_two, q2r_abs in N. split; [exact L|exact N].
Qed.
Lemma nearest_even_ok q : ZnearestE (Q2R q) = nearest_even q.
Proof.
  unfold Znearest, nearest_even. rewrite q2r_floor, q2r_ceil.
  assert (H : Rcompare (Q2R q - IZR (Qfloor q)) (/ 2) = Qcompare (q - inject_Z (Qfloor q)) (1#2)).
  { assert (E1 : Q2R q - IZR (Qfloor q) = Q2R (q - inject_Z (Qfloor q))) by (rewrite Q2R_minus, q2r_Z; reflexivity).
    assert (E2 : / 2 = Q2R (1#2)) by (unfold Q2R; cbn; lra). rewrite E1, E2.
    destruct (Qcompare _ _) eqn:E.
    - apply Qeq_alt in E. rewrite (Qeq_eqR _ _ E). apply Rcompare_Eq. reflexivity.
    - apply Qlt_alt in E. apply Rcompare_Lt, Qlt_Rlt, E.
    - apply Qgt_alt in E. apply Rcompare_Gt, Qlt_Rlt, E. }
  rewrite H.
  assert (CE : (inject_Z (Qfloor q) < q)%Q -> Qceiling q = (Qfloor q + 1)%Z).
  { intro P. rewrite <- q2r_ceil. apply Zceil_imp. replace (Qfloor q + 1 - 1)%Z with (Qfloor q) by lia.
    rewrite <- !q2r_Z. split; [apply Qlt_Rlt, P|apply Qle_Rle, Qlt_le_weak, Qlt_floor]. }
  destruct (Qcompare _ _) eqn:E; [| reflexivity |].
  - apply Qeq_alt in E. assert (P : (inject_Z (Qfloor q) < q)%Q) by (apply Rlt_Qlt; apply Qeq_eqR in E; rewrite Q2R_minus in E; unfold Q2R at 3 in E; cbn in E; lra).
    rewrite (CE P). destruct (Z.even (Qfloor q)); reflexivity.
  - apply CE. apply Qgt_alt in E. apply Rlt_Qlt. apply Qlt_Rlt in E. rewrite Q2R_minus in E. unfold Q2R at 1 in E. cbn in E. lra.
Qed.
Theorem rounded_ieee prec emin q : Q2R (rounded prec emin q) = RN prec emin (Q2R q).
Proof.
  unfold rounded. destruct (Qeq_bool q 0) eqn:E.
  - apply Qeq_bool_eq in E. rewrite (Qeq_eqR _ _ E). rewrite RMicromega.Q2R_0. symmetry. apply round_0, valid_rnd_N.
  - apply Qeq_bool_neq in E. unfold round, F2R, scaled_mantissa, cexp, FLT_exp. cbn [Fnum Fexp].
    rewrite <- (qexp_mag q E). set (e := Z.max _ _). rewrite Q2R_mult, q2r_Z, q2r_two, <- nearest_even_ok, Q2R_mult, q2r_two. reflexivity.
Qed.
