(** Rounding errors of the index computations (over the reals; Flocq's rounding). *)
From Coq Require Import Reals Lra ZArith Lia Psatz.
From Flocq Require Import Core.
Open Scope R_scope.
Set Default Proof Using "Type".

Notation RN prec emin := (round radix2 (FLT_exp emin prec) ZnearestE).
Notation B := (bpow radix2).

Lemma B_pos e : 0 < B e. Proof. apply bpow_gt_0. Qed.
Lemma B_0 : B 0 = 1. Proof. reflexivity. Qed.
Lemma B_S e : B (e + 1) = 2 * B e.
Proof. rewrite bpow_plus. change (B 1) with 2. ring. Qed.
Lemma B_le a b : (a <= b)%Z -> B a <= B b. Proof. apply bpow_le. Qed.

Section Err.
Variables prec emin : Z.
Hypothesis PP : (0 < prec)%Z.
Local Instance vp : Prec_gt_0 prec := PP.
Local Instance vm : Monotone_exp (FLT_exp emin prec) := FLT_exp_monotone emin prec.

Lemma err x k : Rabs x <= B k -> (emin <= k + 1 - prec)%Z -> Rabs (RN prec emin x - x) <= B (k - prec).
Proof using PP.
  intros A E. eapply Rle_trans; [apply error_le_half_ulp; apply FLT_exp_valid; exact PP|].
  assert (U : ulp radix2 (FLT_exp emin prec) x <= B (k + 1 - prec)).
  { eapply Rle_trans; [apply ulp_le with (y := B k); [apply FLT_exp_valid; exact PP|apply FLT_exp_monotone|]|].
    - rewrite (Rabs_right (B k)) by (apply Rle_ge, bpow_ge_0). exact A.
    - rewrite ulp_bpow. unfold FLT_exp. apply B_le. lia. }
  replace (k + 1 - prec)%Z with ((k - prec) + 1)%Z in U by lia. rewrite B_S in U. lra.
Qed.
Lemma fixed m e : (Z.abs m < 2 ^ prec)%Z -> (emin <= e)%Z -> RN prec emin (IZR m * B e) = IZR m * B e.
Proof using PP.
  intros M E. apply round_generic; [apply valid_rnd_N|]. apply generic_format_FLT.
  exists (Float radix2 m e); [reflexivity|exact M|exact E].
Qed.
Lemma between x a b e : (Z.abs a < 2 ^ prec)%Z -> (Z.abs b < 2 ^ prec)%Z -> (emin <= e)%Z ->
  IZR a * B e <= x <= IZR b * B e -> IZR a * B e <= RN prec emin x <= IZR b * B e.
Proof using PP.
  intros A C E [L U]. rewrite <- (fixed a e A E), <- (fixed b e C E).
  split; apply round_le; auto using valid_rnd_N; apply FLT_exp_valid; exact PP.
Qed.
Lemma err_abs x k : Rabs x <= B k -> (emin <= k + 1 - prec)%Z -> (0 < prec)%Z -> Rabs (RN prec emin x) <= B (k + 1).
Proof using PP.
  intros A E _. pose proof (err x k A E) as H. assert (L : B (k - prec) <= B k) by (apply B_le; lia).
  rewrite B_S. pose proof (Rabs_triang (RN prec emin x - x) x) as T. replace (RN prec emin x - x + x) with (RN prec emin x) in T by ring. lra.
Qed.

(** The column or row of a number [x], [m] right of the centre of the first cell. *)
Variables (e n : Z).
Hypothesis EE : (-90 <= e <= 90)%Z.
Hypothesis NN : (0 <= n)%Z.
Hypothesis PM : (n + 5 <= prec <= 53)%Z.
Hypothesis EM : (emin <= -149)%Z.

Definition fsq (x m : R) : R := RN prec emin (RN prec emin (RN prec emin (x + m) + B e / 2) / B e).
Definition esq (x m : R) : R := (x + m + B e / 2) / B e.

Lemma div_abs x k : Rabs x <= B (k + e) -> Rabs (x / B e) <= B k.
Proof using Type.
  intro A. unfold Rdiv. rewrite Rabs_mult, (Rabs_right (/ B e)) by (apply Rle_ge, Rlt_le, Rinv_0_lt_compat, B_pos).
  apply (Rmult_le_reg_r (B e)); [apply B_pos|]. rewrite Rmult_assoc, Rinv_l, Rmult_1_r by (apply Rgt_not_eq, B_pos).
  rewrite bpow_plus in A. exact A.
Qed.
Lemma div_sub x y : x / B e - y / B e = (x - y) / B e.
Proof using Type. field. apply Rgt_not_eq, B_pos. Qed.
Lemma half_B : B e / 2 = B (e - 1).
Proof using Type. replace (B e) with (B ((e - 1) + 1)) by (f_equal; lia). rewrite B_S. lra. Qed.

Lemma fsq_err x m : Rabs (x + m) <= B (n + 1 + e) -> Rabs (fsq x m - esq x m) <= B (n + 5 - prec).
Proof using PP EE NN PM EM.
  intro A. unfold fsq, esq. set (s1 := RN prec emin (x + m)).
  pose proof (err (x + m) (n + 1 + e) A ltac:(lia)) as E1. fold s1 in E1.
  assert (A1 : Rabs (s1 + B e / 2) <= B (n + 3 + e)).
  { pose proof (err_abs (x + m) (n + 1 + e) A ltac:(lia) PP) as A1. fold s1 in A1. rewrite half_B.
    replace (n + 1 + e + 1)%Z with (n + 2 + e)%Z in A1 by lia.
    eapply Rle_trans; [apply Rabs_triang|]. rewrite (Rabs_right (B (e - 1))) by (apply Rle_ge, bpow_ge_0).
    assert (L : B (e - 1) <= B (n + 2 + e)) by (apply B_le; lia).
    replace (n + 3 + e)%Z with ((n + 2 + e) + 1)%Z by lia. rewrite B_S. lra. }
  set (s2 := RN prec emin (s1 + B e / 2)).
  pose proof (err _ _ A1 ltac:(lia)) as E2. fold s2 in E2.
  pose proof (err_abs _ _ A1 ltac:(lia) PP) as A2. fold s2 in A2.
  replace (n + 3 + e + 1)%Z with ((n + 4) + e)%Z in A2 by lia. apply div_abs in A2.
  pose proof (err _ _ A2 ltac:(lia)) as E3. set (s3 := RN prec emin (s2 / B e)) in *.
  assert (D1 : Rabs ((s1 - (x + m)) / B e) <= B (n + 1 - prec)) by (apply div_abs; replace (n + 1 - prec + e)%Z with (n + 1 + e - prec)%Z by lia; exact E1).
  assert (D2 : Rabs ((s2 - (s1 + B e / 2)) / B e) <= B (n + 3 - prec)) by (apply div_abs; replace (n + 3 - prec + e)%Z with (n + 3 + e - prec)%Z by lia; exact E2).
  assert (EQ : s3 - (x + m + B e / 2) / B e = (s3 - s2 / B e) + ((s2 - (s1 + B e / 2)) / B e + (s1 - (x + m)) / B e)) by (field; apply Rgt_not_eq, B_pos).
  rewrite EQ. eapply Rle_trans; [apply Rabs_triang|].
  pose proof (Rabs_triang ((s2 - (s1 + B e / 2)) / B e) ((s1 - (x + m)) / B e)) as T.
  replace (n + 5 - prec)%Z with ((n + 4 - prec) + 1)%Z by lia. rewrite B_S.
  replace (n + 4 - prec)%Z with ((n + 3 - prec) + 1)%Z in * by lia. rewrite B_S in *.
  assert (L : B (n + 1 - prec) <= B (n + 3 - prec)) by (apply B_le; lia). lra.
Qed.
(** never in a lower square, and at most in the next one *)
Lemma fsq_near x m k : Rabs (x + m) <= B (n + 1 + e) -> IZR k <= esq x m < IZR k + 1 -> IZR k <= fsq x m <= IZR (k + 1).
Proof using PP EE NN PM EM.
  intros A [L U]. unfold esq in L, U. pose proof (B_pos e) as BP.
  assert (KB : (Z.abs (2 * k) < 2 ^ prec)%Z /\ (Z.abs (2 * k - 1) < 2 ^ prec)%Z /\ (Z.abs (2 * k + 1) < 2 ^ prec)%Z /\ (Z.abs (2 * k + 2) < 2 ^ prec)%Z).
  { assert (H1 : Rabs (esq x m) <= B (n + 2)).
    { apply div_abs. eapply Rle_trans; [apply Rabs_triang|]. rewrite half_B, (Rabs_right (B (e - 1))) by (apply Rle_ge, bpow_ge_0).
      assert (L1 : B (e - 1) <= B (n + 1 + e)) by (apply B_le; lia). replace (n + 2 + e)%Z with ((n + 1 + e) + 1)%Z by lia. rewrite B_S. lra. }
    unfold esq in H1. assert (H2 : IZR k <= IZR (2 ^ (n + 2))).
    { rewrite (IZR_Zpower radix2) by lia. apply Rabs_le_inv in H1. lra. }
    assert (H3 : IZR (- 2 ^ (n + 2) - 1) <= IZR k).
    { rewrite minus_IZR, opp_IZR, (IZR_Zpower radix2) by lia. apply Rabs_le_inv in H1. lra. }
    apply le_IZR in H2, H3. assert (P : (2 ^ (n + 5) <= 2 ^ prec)%Z) by (apply Z.pow_le_mono_r; lia).
    replace (n + 5)%Z with ((n + 2) + 3)%Z in P by lia. rewrite Z.pow_add_r in P by lia. change (2 ^ 3)%Z with 8%Z in P.
    assert (1 <= 2 ^ (n + 2))%Z by (apply Z.lt_pred_le, Z.pow_pos_nonneg; lia). lia. }
  destruct KB as (K1 & K2 & K3 & K4).
  assert (S0 : IZR (2 * k - 1) * B (e - 1) <= x + m <= IZR (2 * k + 1) * B (e - 1)).
  { rewrite <- half_B, minus_IZR, plus_IZR, mult_IZR.
    apply (Rmult_le_compat_r (B e)) in L; [|lra]. apply (Rmult_lt_compat_r (B e)) in U; [|lra].
    unfold Rdiv in L, U. rewrite !Rmult_assoc, Rinv_l, !Rmult_1_r in L, U by lra. lra. }
  apply (between _ _ _ (e - 1)) in S0; [|assumption|assumption|lia]. fold (fsq x m). unfold fsq. set (s1 := RN prec emin (x + m)) in *.
  assert (S1 : IZR (2 * k) * B (e - 1) <= s1 + B e / 2 <= IZR (2 * k + 2) * B (e - 1)).
  { rewrite minus_IZR, plus_IZR, mult_IZR in S0. rewrite plus_IZR, mult_IZR, half_B. lra. }
  apply (between _ _ _ (e - 1)) in S1; [|assumption|assumption|lia]. set (s2 := RN prec emin (s1 + B e / 2)) in *.
  assert (S2 : IZR (2 * k) * B (-1) <= s2 / B e <= IZR (2 * k + 2) * B (-1)).
  { replace (e - 1)%Z with (-1 + e)%Z in S1 by lia. rewrite bpow_plus in S1. destruct S1 as [S1 S1'].
    split; apply (Rmult_le_reg_r (B e)); try exact BP; unfold Rdiv; rewrite ?(Rmult_assoc s2), ?Rinv_l, ?Rmult_1_r by lra; lra. }
  apply (between _ _ _ (-1)) in S2; [|assumption|assumption|lia].
  assert (H : B (-1) = / 2) by reflexivity. rewrite H, plus_IZR, mult_IZR in S2. rewrite plus_IZR. lra.
Qed.

(** How many squares a window has to grow. *)
Definition finc (a b : R) : R := RN prec emin (RN prec emin (a - b) / B e).
Lemma finc_err a b b' : Rabs (a - b') <= B (n + 2 + e) -> Rabs (b' - b) <= B (n + e - prec) ->
  Rabs (finc a b' - (a - b) / B e) <= B (n + 4 - prec).
Proof using PP EE NN PM EM.
  intros A D. unfold finc. pose proof (err _ _ A ltac:(lia)) as E1. pose proof (err_abs _ _ A ltac:(lia) PP) as A1.
  set (s1 := RN prec emin (a - b')) in *. replace (n + 2 + e + 1)%Z with ((n + 3) + e)%Z in A1 by lia. apply div_abs in A1.
  pose proof (err _ _ A1 ltac:(lia)) as E2. set (s2 := RN prec emin (s1 / B e)) in *.
  assert (D1 : Rabs ((s1 - (a - b')) / B e) <= B (n + 2 - prec)) by (apply div_abs; replace (n + 2 - prec + e)%Z with (n + 2 + e - prec)%Z by lia; exact E1).
  assert (D0 : Rabs ((b' - b) / B e) <= B (n - prec)) by (apply div_abs; replace (n - prec + e)%Z with (n + e - prec)%Z by lia; exact D).
  assert (EQ : s2 - (a - b) / B e = (s2 - s1 / B e) + ((s1 - (a - b')) / B e - (b' - b) / B e)) by (field; apply Rgt_not_eq, B_pos).
  rewrite EQ. eapply Rle_trans; [apply Rabs_triang|].
  pose proof (Rabs_triang ((s1 - (a - b')) / B e) (- ((b' - b) / B e))) as T. rewrite Rabs_Ropp in T. fold (((s1 - (a - b')) / B e) - ((b' - b) / B e)) in T.
  replace (n + 4 - prec)%Z with ((n + 3 - prec) + 1)%Z by lia. rewrite B_S.
  replace (n + 3 - prec)%Z with ((n + 2 - prec) + 1)%Z in * by lia. rewrite B_S in *.
  assert (L : B (n - prec) <= B (n + 2 - prec)) by (apply B_le; lia). lra.
Qed.
End Err.

(** numbers away from the integers *)
Definition off (d a : R) : Prop := forall k : Z, d < Rabs (a - IZR k).
Lemma floor_same d a b : off d a -> Rabs (b - a) <= d -> Zfloor b = Zfloor a.
Proof.
  intros O D. apply Zfloor_imp. pose proof (Zfloor_lb a) as L. pose proof (Zfloor_ub a) as U.
  pose proof (O (Zfloor a)) as O1. pose proof (O (Zfloor a + 1)%Z) as O2. rewrite plus_IZR in *. apply Rabs_le_inv in D.
  rewrite Rabs_right in O1 by lra. rewrite Rabs_left in O2 by lra. lra.
Qed.
Lemma ceil_same d a b : off d a -> Rabs (b - a) <= d -> Zceil b = Zceil a.
Proof.
  intros O D. unfold Zceil. f_equal. apply (floor_same d).
  - intro k. specialize (O (- k)%Z). rewrite opp_IZR in O. rewrite <- Rabs_Ropp. replace (- (- a - IZR k)) with (a - - IZR k) by ring. exact O.
  - rewrite <- Rabs_Ropp. replace (- (- b - - a)) with (b - a) by ring. exact D.
Qed.
