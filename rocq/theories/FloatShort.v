(** Proofs: ray tracing with rounding, rays shorter than a cell. *)
From Coq Require Import Reals Qreals Lra List ZArith QArith Qabs Qround Qminmax Bool Lia Psatz Arith NArith.
From Flocq Require Import Core.
From Verif Require Import Base QLemmas VoxelModel VoxelSpec VoxelProofs VoxelRay FloatModel FloatSpec FloatIEEE FloatErr FloatProofs FloatRayModel FloatRay.
Import ListNotations.
Open Scope R_scope.

(** ** errors relative to the length *)
Section Rel.
Variables (e j : Z).
Hypothesis EE : (-90 <= e <= 90)%Z.
Hypothesis JJ : (-60 <= j <= 0)%Z.
Lemma axis_rel d : Rabs d <= B (j + e) -> Rabs (RD (Rabs (RD d) / B e) - Rabs d / B e) <= B (j - 51).
Proof.
  intro A. pose proof (err 53 (-1074) eq_refl d (j + e) A ltac:(lia)) as D1. pose proof (B_pos e) as BP.
  assert (U : B (j + e - 53) = B (j - 53) * B e) by (rewrite <- bpow_plus; f_equal; lia).
  assert (A1 : Rabs (Rabs (RD d) - Rabs d) <= B (j + e - 53)) by (eapply Rle_trans; [apply Rabs_triang_inv2|exact D1]).
  assert (A2 : Rabs (Rabs (RD d) / B e - Rabs d / B e) <= B (j - 53)).
  { replace (Rabs (RD d) / B e - Rabs d / B e) with ((Rabs (RD d) - Rabs d) / B e) by (field; lra).
    unfold Rdiv. rewrite Rabs_mult, (Rabs_right (/ B e)) by (apply Rle_ge, Rlt_le, Rinv_0_lt_compat, BP).
    apply (Rmult_le_reg_r (B e)); [exact BP|]. rewrite Rmult_assoc, Rinv_l, Rmult_1_r by lra. rewrite <- U. exact A1. }
  assert (A3 : Rabs (Rabs (RD d) / B e) <= B (j + 1)).
  { apply div_abs. rewrite Rabs_Rabsolu. assert (L : B (j + e - 53) <= B (j + e)) by (apply B_le; lia).
    replace (j + 1 + e)%Z with ((j + e) + 1)%Z by lia. rewrite B_S.
    pose proof (Rabs_triang (RD d - d) d) as T. replace (RD d - d + d) with (RD d) in T by ring. lra. }
  pose proof (err 53 (-1074) eq_refl _ (j + 1) A3 ltac:(lia)) as A4.
  replace (j + 1 - 53)%Z with ((j - 53) + 1)%Z in A4 by lia. rewrite B_S in A4.
  replace (j - 51)%Z with ((j - 53) + 1 + 1)%Z by lia. rewrite !B_S. pose proof (B_pos (j - 53)).
  apply Rabs_le_inv in A2, A4. apply Rabs_le. lra.
Qed.
Lemma delta_rel d len flen : B (j - 1) <= len <= B j -> Rabs d <= len * B e -> Rabs (flen - len) <= B (j - 51) ->
  Rabs (RD (RD (RD d / flen) * / 2) - d / len * / 2) <= B (e - 48).
Proof.
  intros [L1 L2] DL LE. pose proof (B_pos e) as BP. pose proof (B_pos (j - 2)) as JP.
  assert (A : Rabs d <= B (j + e)).
  { eapply Rle_trans; [exact DL|]. rewrite bpow_plus. apply Rmult_le_compat_r; lra. }
  pose proof (err 53 (-1074) eq_refl d (j + e) A ltac:(lia)) as D1.
  assert (J1 : B (j - 1) = 2 * B (j - 2)) by (replace (j - 1)%Z with (j - 2 + 1)%Z by lia; apply B_S).
  assert (J2 : B (j - 51) <= B (j - 2)) by (apply B_le; lia).
  assert (F1 : B (j - 2) <= flen) by (apply Rabs_le_inv in LE; lra).
  set (u := B (e - 50)). assert (UP : 0 < u) by apply B_pos.
  set (q := RD d / flen).
  assert (S1 : Rabs (d / len) <= B e).
  { unfold Rdiv. rewrite Rabs_mult, (Rabs_right (/ len)) by (apply Rle_ge, Rlt_le, Rinv_0_lt_compat; lra).
    apply (Rmult_le_reg_r len); [lra|]. rewrite Rmult_assoc, Rinv_l, Rmult_1_r by lra. lra. }
  assert (P1 : Rabs (q - d / len) <= 3 * u).
  { replace (q - d / len) with (((RD d - d) + d / len * (len - flen)) * / flen) by (unfold q; field; lra).
    rewrite Rabs_mult. rewrite (Rabs_right (/ flen)) by (apply Rle_ge, Rlt_le, Rinv_0_lt_compat; lra).
    apply (Rmult_le_reg_r flen); [lra|]. rewrite Rmult_assoc, Rinv_l, Rmult_1_r by lra.
    assert (S2 : Rabs (d / len * (len - flen)) <= B e * B (j - 51)).
    { rewrite Rabs_mult. rewrite (Rabs_minus_sym len flen). apply Rmult_le_compat; try apply Rabs_pos; assumption. }
    pose proof (Rabs_triang (RD d - d) (d / len * (len - flen))) as T.
    assert (W1 : B e * B (j - 51) = 2 * (u * B (j - 2))).
    { unfold u. rewrite <- !bpow_plus. rewrite <- B_S. f_equal. lia. }
    assert (W2 : B (j + e - 53) <= u * B (j - 2)).
    { unfold u. rewrite <- bpow_plus. apply B_le. lia. }
    assert (W3 : 3 * u * B (j - 2) <= 3 * u * flen) by (apply Rmult_le_compat_l; lra). lra. }
  assert (US : 4 * u <= B e).
  { replace (4 * u) with (B (e - 48)); [apply B_le; lia|]. unfold u. replace (e - 48)%Z with (e - 50 + 1 + 1)%Z by lia. rewrite !B_S. ring. }
  assert (P2 : Rabs q <= B (e + 1)). { rewrite B_S. apply Rabs_le_inv in P1, S1. apply Rabs_le. lra. }
  assert (UE : B (e - 52) <= u) by (apply B_le; lia).
  pose proof (err 53 (-1074) eq_refl q (e + 1) P2 ltac:(lia)) as P3.
  replace (e + 1 - 53)%Z with (e - 52)%Z in P3 by lia.
  assert (P4 : Rabs (RD q * / 2) <= B (e + 1)). { rewrite B_S in *. apply Rabs_le_inv in P2, P3. apply Rabs_le. lra. }
  pose proof (err 53 (-1074) eq_refl _ (e + 1) P4 ltac:(lia)) as P5.
  replace (e + 1 - 53)%Z with (e - 52)%Z in P5 by lia.
  replace (e - 48)%Z with (e - 50 + 1 + 1)%Z by lia. rewrite !B_S. fold u.
  apply Rabs_le_inv in P1, P3, P5. apply Rabs_le. lra.
Qed.
End Rel.

Lemma half_Q : Q2R (1#2) = / 2. Proof. unfold Q2R. cbn. lra. Qed.

Section Short.
Context {C : Type}.
Variable dflt : C.
Variables (e n : Z).
Hypothesis EE : (-90 <= e <= 90)%Z.
Hypothesis NN : (0 <= n <= 16)%Z.
Variable g : vgrid C.
Hypothesis CS : (cell_size g == two e)%Q.
Variables s ed : point.
Hypothesis RS : reaches n g s.
Hypothesis RE : reaches n g ed.
Hypothesis LO : forall k : Z, (two (n - 50) < Qabs (ray_len g s ed - inject_Z k))%Q.
Hypothesis L1 : (ray_len g s ed < 1)%Q.
Set Default Proof Using "All".

Notation len := (Q2R (ray_len g s ed)).
Lemma NN' : (0 <= n <= 17)%Z. Proof. lia. Qed.
Lemma len_0 : 0 <= len.
Proof. rewrite (len_R dflt e n EE NN' g CS s ed RS RE LO). eapply Rle_trans; [|apply Rmax_l].
  apply Rmult_le_pos; [apply Rabs_pos|apply Rlt_le, Rinv_0_lt_compat, B_pos]. Qed.
Lemma len_lo : B (n - 50) < len.
Proof.
  pose proof (LO 0) as H. apply Qlt_Rlt in H. rewrite q2r_two, q2r_abs, Q2R_minus, q2r_Z, Rminus_0_r in H.
  rewrite Rabs_right in H by (apply Rle_ge, len_0). exact H.
Qed.
Lemma len_hi : len < 1.
Proof. apply Qlt_Rlt in L1. rewrite RMicromega.Q2R_1 in L1. exact L1. Qed.
(** the binary order of the length *)
Lemma order : exists j, (-60 <= j <= 0)%Z /\ B (j - 1) <= len <= B j.
Proof.
  pose proof len_lo as L. pose proof len_hi as H. pose proof (B_pos (n - 50)) as P.
  destruct (mag radix2 len) as [j M]. specialize (M ltac:(lra)). rewrite Rabs_right in M by lra.
  exists j. split; [|lra]. split.
  - assert ((n - 50) < j)%Z by (apply (lt_bpow radix2); lra). lia.
  - assert ((j - 1) < 0)%Z by (apply (lt_bpow radix2); rewrite B_0; lra). lia.
Qed.
Lemma times_len a b : a / B e <= b -> a <= b * B e.
Proof. clear. intro H. pose proof (B_pos e). apply (Rmult_le_compat_r (B e)) in H; [|lra]. unfold Rdiv in H. rewrite Rmult_assoc, Rinv_l, Rmult_1_r in H by lra. exact H. Qed.
Lemma axes : Rabs (Q2R (fst ed - fst s)) <= len * B e /\ Rabs (Q2R (snd ed - snd s)) <= len * B e.
Proof.
  pose proof (len_R dflt e n EE NN' g CS s ed RS RE LO) as LR.
  split; apply times_len; rewrite LR; [apply Rmax_l|apply Rmax_r].
Qed.
Lemma one_axis : Rabs (Q2R (fst ed - fst s)) = len * B e \/ Rabs (Q2R (snd ed - snd s)) = len * B e.
Proof.
  pose proof (len_R dflt e n EE NN' g CS s ed RS RE LO) as LR. pose proof (B_pos e) as BP.
  unfold Rmax in LR. destruct (Rle_dec _ _) in LR; [right|left]; rewrite LR; field; lra.
Qed.
Lemma flen_rel j : (-60 <= j <= 0)%Z -> B (j - 1) <= len <= B j -> Rabs (Q2R (fray_len g s ed) - len) <= B (j - 51).
Proof.
  intros JJ [J1 J2]. pose proof (len_R dflt e n EE NN' g CS s ed RS RE LO) as LR. pose proof (B_pos e) as BP. destruct axes as [X Y].
  rewrite LR at 1. unfold fray_len. rewrite q2r_max, !(axis_R dflt e n EE NN' g CS s ed RS RE LO).
  apply max_err; apply (axis_rel e j EE JJ); rewrite bpow_plus; (eapply Rle_trans; [eassumption|]); apply Rmult_le_compat_r; lra.
Qed.
Lemma flen_pos : 0 < Q2R (fray_len g s ed).
Proof.
  destruct order as (j & JJ & J1 & J2). pose proof (flen_rel j JJ (conj J1 J2)) as F. apply Rabs_le_inv in F.
  assert (B (j - 51) < B (j - 1)) by (apply bpow_lt; lia). lra.
Qed.
Lemma nz : ~ (ray_len g s ed == 0)%Q /\ ~ (fray_len g s ed == 0)%Q.
Proof.
  pose proof len_lo as L. pose proof (B_pos (n - 50)) as P. pose proof flen_pos as F.
  split; intro H; apply Qeq_eqR in H; rewrite RMicromega.Q2R_0 in H; lra.
Qed.
Lemma short_deltas : near1 (B (n + 1 + e - 49)) (fst (ray_delta g s ed)) (fst (fray_delta g s ed)) /\
  near1 (B (n + 1 + e - 49)) (snd (ray_delta g s ed)) (snd (fray_delta g s ed)).
Proof.
  destruct order as (j & JJ & J12). pose proof (flen_rel j JJ J12) as F. destruct nz as [Z1 Z2]. destruct axes as [X Y].
  assert (BB : B (e - 48) <= B (n + 1 + e - 49)) by (apply B_le; lia).
  unfold near1, ray_delta, fray_delta. cbn [fst snd].
  rewrite !f64_ieee, !Q2R_mult, !f64_ieee, !Q2R_div, !f64_ieee, !half_Q by assumption.
  split; (eapply Rle_trans; [|exact BB]); apply (delta_rel e j EE JJ); assumption.
Qed.
(** half a cell along one of the axes *)
Lemma half_step : Rabs (Q2R (fst (ray_delta g s ed))) = B e / 2 \/ Rabs (Q2R (snd (ray_delta g s ed))) = B e / 2.
Proof.
  destruct nz as [Z1 _]. pose proof len_lo as L. pose proof (B_pos (n - 50)) as P.
  unfold ray_delta. cbn [fst snd]. rewrite !Q2R_mult, !Q2R_div, !half_Q by assumption.
  destruct one_axis as [X|X]; [left|right]; unfold Rdiv; rewrite !Rabs_mult, X, (Rabs_right (/ len)), (Rabs_right (/ 2));
    try (apply Rle_ge, Rlt_le, Rinv_0_lt_compat; lra); field; lra.
Qed.
Lemma small_step : Rabs (Q2R (fst (ray_delta g s ed))) <= B e / 2 /\ Rabs (Q2R (snd (ray_delta g s ed))) <= B e / 2.
Proof.
  destruct nz as [Z1 _]. pose proof len_lo as L. pose proof (B_pos (n - 50)) as P. destruct axes as [X Y].
  unfold ray_delta. cbn [fst snd]. rewrite !Q2R_mult, !Q2R_div, !half_Q by assumption.
  assert (G : forall d, Rabs d <= len * B e -> Rabs (d / len * / 2) <= B e / 2).
  { intros d D. unfold Rdiv. rewrite !Rabs_mult, (Rabs_right (/ len)), (Rabs_right (/ 2)); try (apply Rle_ge, Rlt_le, Rinv_0_lt_compat; lra).
    apply Rmult_le_compat_r; [lra|]. apply (Rmult_le_reg_r len); [lra|]. rewrite Rmult_assoc, Rinv_l, Rmult_1_r by lra. lra. }
  split; apply G; assumption.
Qed.
Lemma strict_R p : in_strict g p = true -> Rabs (Q2R (fst p)) <= B (n + e) + B e / 2 /\ Rabs (Q2R (snd p)) <= B (n + e) + B e / 2.
Proof.
  intro I. pose proof (cell_pos e g CS) as CP. rewrite in_strict_iff in I by exact CP. destruct I as (A1 & A2 & A3 & A4).
  destruct RS as (((W1 & W2) & (W3 & W4)) & _).
  assert (LR : forall k : nat, Q2R ((- inject_Z (Z.of_nat k) - (1#2)) * cell_size g) = (- IZR (Z.of_nat k) - / 2) * B e).
  { intro k. rewrite Q2R_mult, Q2R_minus, Q2R_opp, q2r_Z, half_Q, (cs_R dflt e n EE NN' g CS s ed RS RE LO). reflexivity. }
  assert (HR : forall k : nat, Q2R ((inject_Z (Z.of_nat k) + (1#2)) * cell_size g) = (IZR (Z.of_nat k) + / 2) * B e).
  { intro k. rewrite Q2R_mult, Q2R_plus, q2r_Z, half_Q, (cs_R dflt e n EE NN' g CS s ed RS RE LO). reflexivity. }
  apply Qlt_Rlt in A1, A2, A3, A4. rewrite LR in A1, A3. rewrite HR in A2, A4.
  assert (NB : forall k : nat, (Z.of_nat k <= 2 ^ n)%Z -> 0 <= IZR (Z.of_nat k) <= B n).
  { intros k K. split; [apply IZR_le; lia|]. apply IZR_le in K. rewrite (IZR_Zpower radix2) in K by lia. exact K. }
  apply NB in W1, W2, W3, W4. pose proof (B_pos e) as BP.
  rewrite bpow_plus. split; apply Rabs_le; split; nra.
Qed.
Definition Far : nat := Z.to_nat (2 ^ (n + 2) + 2).
Lemma Far_R : INR Far = B (n + 2) + 2.
Proof. unfold Far. rewrite INR_IZR_INZ, Z2Nat.id by (pose proof (Z.pow_pos_nonneg 2 (n + 2)); lia). rewrite plus_IZR, (IZR_Zpower radix2) by lia. reflexivity. Qed.
Lemma samp_R k : Q2R (fst (samp (ray_delta g s ed) s k)) = Q2R (fst s) + INR k * Q2R (fst (ray_delta g s ed)) /\
  Q2R (snd (samp (ray_delta g s ed) s k)) = Q2R (snd s) + INR k * Q2R (snd (ray_delta g s ed)).
Proof.
  destruct (samp_closed (ray_delta g s ed) s k) as [X Y]. rewrite (Qeq_eqR _ _ X), (Qeq_eqR _ _ Y).
  rewrite !Q2R_plus, !Q2R_mult, q2r_Z, <- INR_IZR_INZ. split; reflexivity.
Qed.
Lemma starts : Rabs (Q2R (fst s)) <= B (n + e) /\ Rabs (Q2R (snd s)) <= B (n + e).
Proof. apply (ends dflt e n EE NN' g CS s ed RS RE LO). Qed.
Lemma far_off : Rabs (Q2R (fst (samp (ray_delta g s ed) s Far))) <= B (n + e) + B e / 2 ->
  Rabs (Q2R (snd (samp (ray_delta g s ed) s Far))) <= B (n + e) + B e / 2 -> False.
Proof.
  intros I1 I2. pose proof (conj I1 I2) as I. clear I1 I2. destruct (samp_R Far) as [X Y]. rewrite X, Y, Far_R in I.
  destruct starts as [SX SY]. pose proof (B_pos e) as BP. pose proof (B_pos n) as NP.
  assert (E1 : B (n + e) = B n * B e) by apply bpow_plus.
  assert (E2 : B (n + 2) = 4 * B n) by (replace (n + 2)%Z with (n + 1 + 1)%Z by lia; rewrite !B_S; ring).
  assert (G : forall a d, Rabs a <= B n * B e -> Rabs d = B e / 2 -> Rabs (a + (4 * B n + 2) * d) <= B n * B e + B e / 2 -> False).
  { intros a d A D H. assert (K : (4 * B n + 2) * Rabs d = Rabs ((a + (4 * B n + 2) * d) + - a)).
    { replace (a + (4 * B n + 2) * d + - a) with ((4 * B n + 2) * d) by ring. rewrite Rabs_mult, (Rabs_right (4 * B n + 2)) by lra. reflexivity. }
    pose proof (Rabs_triang (a + (4 * B n + 2) * d) (- a)) as T. rewrite Rabs_Ropp in T. rewrite <- K, D in T. nra. }
  rewrite E1, E2 in *. destruct half_step as [H|H]; [exact (G _ _ SX H (proj1 I))|exact (G _ _ SY H (proj2 I))].
Qed.
Lemma far_out : in_strict g (samp (ray_delta g s ed) s Far) = false.
Proof. apply not_true_is_false. intro I. apply strict_R in I. apply far_off; apply I. Qed.
Lemma far_box d : in_cell (cell_size g) d (samp (ray_delta g s ed) s Far) -> in_box g d = false.
Proof.
  intros (A1 & A2 & A3 & A4). apply not_true_is_false. intro I. unfold in_box in I. rewrite !andb_true_iff, !Z.leb_le in I. destruct I as [[I1 I2] [I3 I4]].
  assert (WW : (- 2 ^ n <= fst d <= 2 ^ n /\ - 2 ^ n <= snd d <= 2 ^ n)%Z) by (destruct RS as (((W1 & W2) & (W3 & W4)) & _); lia).
  destruct WW as [[X1 X2] [Y1 Y2]]. apply IZR_le in X1, X2, Y1, Y2. rewrite opp_IZR, (IZR_Zpower radix2) in X1, Y1 by lia.
  rewrite (IZR_Zpower radix2) in X2, Y2 by lia. pose proof (B_pos e) as BP.
  apply Qle_Rle in A1, A4. apply Qlt_Rlt in A2, A3.
  assert (LR : forall k, Q2R ((inject_Z k - (1#2)) * cell_size g) = (IZR k - / 2) * B e).
  { intro k. rewrite Q2R_mult, Q2R_minus, q2r_Z, half_Q, (cs_R dflt e n EE NN' g CS s ed RS RE LO). reflexivity. }
  assert (HR : forall k, Q2R ((inject_Z k + (1#2)) * cell_size g) = (IZR k + / 2) * B e).
  { intro k. rewrite Q2R_mult, Q2R_plus, q2r_Z, half_Q, (cs_R dflt e n EE NN' g CS s ed RS RE LO). reflexivity. }
  rewrite LR in A1, A3. rewrite HR in A2, A4.
  apply far_off; rewrite bpow_plus; apply Rabs_le; split; nra.
Qed.
Lemma Far_small : (Z.of_nat Far < 2 ^ 64 - 1)%Z.
Proof.
  unfold Far. assert (0 < 2 ^ (n + 2) <= 2 ^ 18)%Z by (split; [apply Z.pow_pos_nonneg; lia|apply Z.pow_le_mono_r; lia]).
  rewrite Z2Nat.id by lia. assert (2 ^ 18 + 2 < 2 ^ 64 - 1)%Z by reflexivity. lia.
Qed.
Lemma least (f : nat -> bool) m : f m = false -> (0 < m)%nat -> exists k, (0 < k <= m)%nat /\ f k = false /\ forall i, (0 < i < k)%nat -> f i = true.
Proof.
  clear. induction m as [|m IH]; intros F P; [lia|]. destruct (Nat.eq_dec m 0) as [->|N0]; [exists 1%nat; split; [lia|]; split; [exact F|]; intros; lia|].
  destruct (f m) eqn:E.
  - assert (D : (exists k, (0 < k <= m)%nat /\ f k = false) \/ forall i, (0 < i <= m)%nat -> f i = true).
    { clear. induction m as [|m [(k & K & E)|IH]]; [right; intros; lia|left; exists k; split; [lia|exact E]|].
      destruct (f (S m)) eqn:E; [right|left; exists (S m); split; [lia|exact E]].
      intros i I. destruct (Nat.eq_dec i (S m)) as [->|]; [exact E|apply IH; lia]. }
    destruct D as [(k & K & FK)|A].
    + assert (S : forall k, (0 < k)%nat -> f k = false -> exists k', (0 < k' <= k)%nat /\ f k' = false /\ forall i, (0 < i < k')%nat -> f i = true).
      { clear. induction k as [k IH] using lt_wf_ind. intros P F.
        assert (D : (exists i, (0 < i < k)%nat /\ f i = false) \/ forall i, (0 < i < k)%nat -> f i = true).
        { clear. induction k as [|k [(i & K & E)|IH]]; [right; intros; lia|left; exists i; split; [lia|exact E]|].
          destruct k as [|k]; [right; intros; lia|].
          destruct (f (S k)) eqn:E; [right|left; exists (S k); split; [lia|exact E]].
          intros i I. destruct (Nat.eq_dec i (S k)) as [->|]; [exact E|apply IH; lia]. }
        destruct D as [(i & I & FI)|A]; [|exists k; split; [lia|]; split; [exact F|exact A]].
        destruct (IH i ltac:(lia) ltac:(lia) FI) as (k' & K' & Q). exists k'. split; [lia|exact Q]. }
      destruct (S k ltac:(lia) FK) as (k' & K' & Q). exists k'. split; [lia|exact Q].
    + exists (S m). split; [lia|]. split; [exact F|]. intros i I. apply A. lia.
  - destruct (IH eq_refl ltac:(lia)) as (k & K & Q). exists k. split; [lia|exact Q].
Qed.

Hypothesis SO : forall j, (forall i, (0 < i < j)%nat -> strictly_inside g (ray_sample (cell_size g) s ed i)) ->
  off_lines (two (2 * n - 43)) g (ray_sample (cell_size g) s ed j).
Lemma len_posQ : (0 < ray_len g s ed)%Q.
Proof. apply Rlt_Qlt. rewrite RMicromega.Q2R_0. pose proof len_lo. pose proof (B_pos (n - 50)). lra. Qed.
Lemma short_off k : (forall i, (0 < i < k)%nat -> in_strict g (samp (ray_delta g s ed) s i) = true) ->
  off1 (n + 1) g (fst (samp (ray_delta g s ed) s k)) /\ off1 (n + 1) g (snd (samp (ray_delta g s ed) s k)).
Proof.
  intro I. pose proof (cell_pos e g CS) as CP. destruct (samp_sample g s ed k CP len_posQ) as [X Y]. unfold off1.
  replace (2 * (n + 1) - 45)%Z with (2 * n - 43)%Z by lia.
  assert (O : off_lines (two (2 * n - 43)) g (ray_sample (cell_size g) s ed k)).
  { apply SO. intros i H. specialize (I i H). rewrite in_strict_iff in I by exact CP.
    destruct (samp_sample g s ed i CP len_posQ) as [X' Y']. revert I. apply strictly_inside_ext; assumption. }
  split; intro z; [rewrite X|rewrite Y]; apply O.
Qed.
Lemma reach_more p : reaches n g p -> reaches (n + 1) g p.
Proof.
  clear - CS NN. intros ((A & D) & X & Y). assert (P : (2 ^ n <= 2 ^ (n + 1))%Z) by (apply Z.pow_le_mono_r; lia).
  assert (M : (two n * cell_size g <= two (n + 1) * cell_size g)%Q).
  { apply Qmult_le_compat_r; [apply two_mono; lia|]. apply Qlt_le_weak, (cell_pos e g CS). }
  split; [lia|]. split; eapply Qle_trans; eassumption.
Qed.
Theorem short_rounded : frayTrace dflt g s ed = rayTrace dflt g s ed.
Proof.
  unfold frayTrace, rayTrace. rewrite (inside_exact e n EE ltac:(lia) g s CS RS).
  destruct (isInside g s); cbn [negb]; [|reflexivity].
  assert (SOF : off_lines (two (2 * n - 43)) g s).
  { destruct (short_off 0) as [X Y]; [intros i H; lia|]. unfold off1 in X, Y. replace (2 * (n + 1) - 45)%Z with (2 * n - 43)%Z in X, Y by lia.
    intro k. split; [apply X|apply Y]. }
  assert (I0 : fcalcIndex g s = calcIndex g s).
  { unfold fcalcIndex, calcIndex. rewrite (square_exact e n EE ltac:(lia) g s CS RS); [reflexivity|].
    apply (off_weaker e g s (n - 48) (2 * n - 43) CS); [lia|exact SOF]. }
  rewrite I0. destruct (calcIndex g s) as [i0| |]; cbn [bind]; try reflexivity.
  destruct (touch dflt (cells g) i0) as [l0| |]; cbn [bind]; try reflexivity.
  destruct nz as [Z1 Z2].
  assert (Q1 : Qeq_bool (ray_len g s ed) 0 = false) by (apply not_true_is_false; intro H; apply Z1, Qeq_bool_iff, H).
  assert (Q2 : Qeq_bool (fray_len g s ed) 0 = false) by (apply not_true_is_false; intro H; apply Z2, Qeq_bool_iff, H).
  rewrite Q1, Q2. unfold fray_count, ray_count. rewrite (flen_floor dflt e n EE NN' g CS s ed RS RE LO), !iter_N_nat.
  generalize (N.to_nat (Z.to_N (u64 (2 * Qfloor (ray_len g s ed) - 1)))). intro m.
  assert (FP : (0 < Far)%nat) by (unfold Far; pose proof (Z.pow_pos_nonneg 2 (n + 2)); lia).
  destruct (least (fun k => in_strict g (samp (ray_delta g s ed) s k)) Far far_out FP) as (K & [K1 K2] & KO & KI).
  assert (KR : INR K <= B (n + 1 + 2)).
  { apply le_INR in K2. rewrite Far_R in K2. replace (n + 1 + 2)%Z with (n + 2 + 1)%Z by lia. rewrite B_S.
    assert (B 2 <= B (n + 2)) by (apply B_le; lia). assert (B 2 = 4) by (cbn; lra). lra. }
  assert (OK : forall k, (k <= K)%nat -> ok1 e (n + 1) (fst (samp (ray_delta g s ed) s k)) /\ ok1 e (n + 1) (snd (samp (ray_delta g s ed) s k))).
  { intros k KK. unfold ok1. destruct starts as [SX SY]. pose proof (B_pos e) as BP.
    assert (E1 : B (n + 1 + e) = 2 * B (n + e)) by (replace (n + 1 + e)%Z with (n + e + 1)%Z by lia; apply B_S).
    assert (E2 : B e <= B (n + e)) by (apply B_le; lia). rewrite E1.
    destruct k as [|k]; [cbn [samp]; split; lra|].
    assert (PV : Rabs (Q2R (fst (samp (ray_delta g s ed) s k))) <= B (n + e) + B e / 2 /\ Rabs (Q2R (snd (samp (ray_delta g s ed) s k))) <= B (n + e) + B e / 2).
    { destruct k as [|k]; [cbn [samp]; split; lra|]. apply strict_R, KI. lia. }
    destruct small_step as [D1 D2]. destruct PV as [P1 P2]. cbn [samp fst snd]. rewrite !Q2R_plus.
    split; (eapply Rle_trans; [apply Rabs_triang|lra]). }
  assert (WO : window_ok (n + 1) g) by (exact (proj1 (reach_more s RS))).
  pose proof (loop_exit dflt e (n + 1) EE ltac:(lia) g CS WO s ed (fray_delta g s ed) K KR (proj1 short_deltas) (proj2 short_deltas)
    OK (fun k _ => short_off k) m) as LE.
  assert (KP : 0 < INR K) by (apply lt_0_INR; lia).
  specialize (LE KP KO 0%nat (mkRay l0 [i0] s i0 i0) (mkRay l0 [i0] s i0 i0) K1).
  assert (R0 : rel e (n + 1) g s ed 0 (mkRay l0 [i0] s i0 i0) (mkRay l0 [i0] s i0 i0)).
  { unfold rel, near1. cbn [r_cells r_res r_old r_cur r_p samp]. repeat (split; [reflexivity|]).
    cbn [INR]. unfold Rminus. rewrite Rmult_0_l, !Rplus_opp_r, Rabs_R0.
    split; [lra|]. split; [lra|]. intros i H. lia. }
  specialize (LE R0). unfold alike_flow in LE.
  destruct (iter_nat m (rayStep dflt g (ray_delta g s ed)) _), (iter_nat m (frayStep dflt g (fray_delta g s ed)) _);
    try contradiction; try reflexivity; destruct LE as [-> ->]; reflexivity.
Qed.
End Short.
