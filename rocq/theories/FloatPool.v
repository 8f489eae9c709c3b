(** Proofs for C146. *)
From Coq Require Import Reals Qreals Lra List ZArith QArith Qabs Bool Lia Psatz.
From Flocq Require Import Core.
From Verif Require Import Base CellModel VoxelModel FloatModel FloatIEEE FloatErr FloatProofs FloatBatch FloatPoolModel FloatPoolSpec.
Import ListNotations.
Open Scope R_scope.
Set Default Proof Using "Type".

Lemma q2r_Z z : Q2R (inject_Z z) = IZR z. Proof. unfold Q2R. cbn. lra. Qed.
Section Pool.
Variable e : Z.
Hypothesis E0 : (0 <= e)%Z.
Notation E := (B e).
Variables (n1 n2 : Z) (m1 m2 x1 x2 D : R).
Hypothesis N1 : (1 <= n1 <= MAX_POINTS)%Z.
Hypothesis N2 : (1 <= n2 <= MAX_POINTS)%Z.
Hypothesis X1 : Rabs x1 <= E.
Hypothesis X2 : Rabs x2 <= E.
Hypothesis D1 : Rabs (m1 - x1) <= D.
Hypothesis D2 : Rabs (m2 - x2) <= D.
Hypothesis DE : D <= E.
Let N := (n1 + n2)%Z.
Let comb := r (r (m1 * IZR n1) + r (m2 * IZR n2)).
Let exact := IZR n1 * x1 + IZR n2 * x2.
Lemma E_pos : 0 < E. Proof. apply B_pos. Qed.
Lemma mabs m x : Rabs x <= E -> Rabs (m - x) <= D -> Rabs m <= 2 * E.
Proof using DE. intros A C. pose proof (Rabs_triang (m - x) x) as T. replace (m - x + x) with m in T by ring. lra. Qed.
Lemma B1 : B (e + 1) = 2 * E. Proof. apply B_S. Qed.
(** a power of two not much above the number of points *)
Lemma choose2 : exists k, (0 <= k <= 31)%Z /\ IZR N <= B k /\ B k <= 2 * IZR N.
Proof using N1 N2.
  exists (Z.log2 N + 1)%Z. assert (P : (2 <= N)%Z) by lia. assert (P' : (N <= 2 * MAX_POINTS)%Z) by lia.
  pose proof (Z.log2_spec N ltac:(lia)) as (A & C). pose proof (Z.log2_nonneg N).
  assert (L : (Z.log2 N < 31)%Z) by (apply Z.log2_lt_pow2; [lia|]; eapply Z.le_lt_trans; [exact P'|reflexivity]).
  split; [lia|]. split.
  - rewrite <- IZR_Zpower by lia. apply IZR_le. change (radix_val radix2) with 2%Z. rewrite Z.add_1_r. lia.
  - rewrite B_S, <- IZR_Zpower by lia. apply Rmult_le_compat_l; [lra|]. apply IZR_le. exact A.
Qed.
Lemma part n m x : (1 <= n <= MAX_POINTS)%Z -> (n <= N)%Z -> Rabs x <= E -> Rabs (m - x) <= D ->
  Rabs (r (m * IZR n)) <= IZR n * (2 * E) /\ Rabs (r (m * IZR n) - IZR n * x) <= 4 * (IZR N * (E * U)) + IZR n * D.
Proof using E0 N1 N2 DE.
  intros P L A C. pose proof (mabs m x A C) as M. assert (n0 : 0 < IZR n) by (apply IZR_lt; lia). pose proof E_pos. pose proof U_pos.
  assert (V : Rabs (m * IZR n) <= IZR n * (2 * E)).
  { rewrite Rabs_mult, (Rabs_pos_eq (IZR n)) by lra. nra. }
  split.
  - rewrite <- B1 in *. apply r_abs; [|lia|exact V]. rewrite Z.abs_eq by lia. eapply Z.le_lt_trans; [apply P|]. reflexivity.
  - destruct choose2 as (k & K & KN & NK). apply IZR_le in L. apply tri with (b := m * IZR n).
    + apply Rle_trans with (B (k + (e + 1)) * U).
      * apply r_err; [lia|]. rewrite bpow_plus, B1. eapply Rle_trans; [exact V|]. apply Rmult_le_compat_r; lra.
      * rewrite bpow_plus, B1. assert (0 < E * U) by nra. nra.
    + replace (m * IZR n - IZR n * x) with (IZR n * (m - x)) by ring. rewrite Rabs_mult, (Rabs_pos_eq (IZR n)) by lra.
      apply Rmult_le_compat_l; lra.
Qed.
Lemma comb_ok : Rabs comb <= IZR N * (2 * E) /\ Rabs (comb - exact) <= 12 * (IZR N * (E * U)) + IZR N * D.
Proof using All.
  destruct (part n1 m1 x1 N1 ltac:(lia) X1 D1) as (A1 & C1). destruct (part n2 m2 x2 N2 ltac:(lia) X2 D2) as (A2 & C2).
  pose proof E_pos. pose proof U_pos. assert (NN : IZR N = IZR n1 + IZR n2) by apply plus_IZR.
  assert (V : Rabs (r (m1 * IZR n1) + r (m2 * IZR n2)) <= IZR N * (2 * E)).
  { eapply Rle_trans; [apply Rabs_triang|]. rewrite NN. lra. }
  unfold comb. split.
  - rewrite <- B1 in *. apply r_abs; [|lia|exact V]. rewrite Z.abs_eq by lia. apply Z.le_lt_trans with (2 * MAX_POINTS)%Z; [lia|reflexivity].
  - destruct choose2 as (k & K & KN & NK).
    assert (R1 : Rabs (r (r (m1 * IZR n1) + r (m2 * IZR n2)) - (r (m1 * IZR n1) + r (m2 * IZR n2))) <= 4 * (IZR N * (E * U))).
    { apply Rle_trans with (B (k + (e + 1)) * U).
      * apply r_err; [lia|]. rewrite bpow_plus, B1. eapply Rle_trans; [exact V|]. apply Rmult_le_compat_r; lra.
      * rewrite bpow_plus, B1. assert (0 < E * U) by nra. nra. }
    assert (R2 : Rabs (r (m1 * IZR n1) + r (m2 * IZR n2) - exact) <= 8 * (IZR N * (E * U)) + IZR N * D).
    { unfold exact. replace (r (m1 * IZR n1) + r (m2 * IZR n2) - (IZR n1 * x1 + IZR n2 * x2)) with
        ((r (m1 * IZR n1) - IZR n1 * x1) + (r (m2 * IZR n2) - IZR n2 * x2)) by ring.
      eapply Rle_trans; [apply Rabs_triang|]. rewrite NN at 2. lra. }
    pose proof (tri _ _ _ _ _ R1 R2). lra.
Qed.
Lemma N_pos : 0 < IZR N. Proof using N1 N2. apply IZR_lt. lia. Qed.
Lemma div_N M v w : 0 < M -> Rabs v <= M * w -> Rabs (v / M) <= w.
Proof.
  intros P H. unfold Rdiv. rewrite Rabs_mult, (Rabs_pos_eq (/ M)) by (left; apply Rinv_0_lt_compat; lra).
  apply Rmult_le_reg_r with M; [lra|]. rewrite Rmult_assoc, Rinv_l by lra. lra.
Qed.
Lemma plain_ok : Rabs (r (comb / IZR N) - exact / IZR N) <= D + 32 * (E * U).
Proof using All.
  destruct comb_ok as (A & C). pose proof N_pos as NP. pose proof E_pos. pose proof U_pos.
  assert (R1 : Rabs (r (comb / IZR N) - comb / IZR N) <= 2 * (E * U)).
  { rewrite <- Rmult_assoc, <- B1. apply r_err; [lia|]. rewrite B1. apply div_N; assumption. }
  assert (R2 : Rabs (comb / IZR N - exact / IZR N) <= 12 * (E * U) + D).
  { replace (comb / IZR N - exact / IZR N) with ((comb - exact) / IZR N) by (field; lra). apply div_N; [exact NP|]. lra. }
  pose proof (tri _ _ _ _ _ R1 R2). assert (0 < E * U) by nra. lra.
Qed.
Let M := IZR MAX_POINTS.
Lemma capped_ok : (MAX_POINTS < N)%Z -> Rabs (r (r (comb * r (M / IZR N)) / M) - exact / IZR N) <= D + 32 * (E * U).
Proof using All.
  intro G. destruct comb_ok as (A & C). pose proof N_pos as NP. pose proof E_pos as EP. pose proof U_pos as UP.
  assert (M0 : 0 < M) by (apply IZR_lt; reflexivity). assert (MN : M < IZR N) by (apply IZR_lt; exact G).
  assert (NM : IZR N <= 2 * M) by (unfold M; rewrite <- mult_IZR; apply IZR_le; lia).
  assert (EU : 0 < E * U) by nra.
  assert (F : 0 <= M / IZR N <= 1).
  { split; [apply Rle_mult_inv_pos; lra|]. apply Rmult_le_reg_r with (IZR N); [lra|]. unfold Rdiv. rewrite Rmult_assoc, Rinv_l by lra. lra. }
  set (f := r (M / IZR N)).
  assert (F' : Rabs (M / IZR N) <= B 0) by (rewrite B_0, Rabs_pos_eq; lra).
  assert (fA : Rabs f <= 1).
  { unfold f. replace 1 with (IZR 1 * B 0) by (rewrite B_0; ring). apply r_abs; [cbn; lia|lia|rewrite Rmult_1_l; exact F']. }
  assert (fE : Rabs (f - M / IZR N) <= U) by (unfold f; rewrite <- (Rmult_1_l U), <- B_0; apply r_err; [lia|exact F']).
  set (g := r (comb * f)).
  assert (gv : Rabs (comb * f) <= IZR N * (2 * E)).
  { rewrite Rabs_mult. pose proof (Rabs_pos comb). pose proof (Rabs_pos f). nra. }
  assert (gA : Rabs g <= IZR N * (2 * E)).
  { unfold g. rewrite <- B1 in *. apply r_abs; [|lia|exact gv]. rewrite Z.abs_eq by lia. apply Z.le_lt_trans with (2 * MAX_POINTS)%Z; [lia|reflexivity]. }
  assert (gE : Rabs (g - exact * (M / IZR N)) <= 6 * (IZR N * (E * U)) + 12 * (M * (E * U)) + M * D).
  { assert (R1 : Rabs (g - comb * f) <= 4 * (IZR N * (E * U))).
    { destruct choose2 as (k & K & KN & NK). apply Rle_trans with (B (k + (e + 1)) * U).
      * apply r_err; [lia|]. rewrite bpow_plus, B1. eapply Rle_trans; [exact gv|]. apply Rmult_le_compat_r; lra.
      * rewrite bpow_plus, B1. nra. }
    assert (R2 : Rabs (comb * f - exact * (M / IZR N)) <= 2 * (IZR N * (E * U)) + (12 * (M * (E * U)) + M * D)).
    { replace (comb * f - exact * (M / IZR N)) with (comb * (f - M / IZR N) + (comb - exact) * (M / IZR N)) by ring.
      eapply Rle_trans; [apply Rabs_triang|]. rewrite !Rabs_mult. apply Rplus_le_compat.
      - replace (2 * (IZR N * (E * U))) with (IZR N * (2 * E) * U) by ring. apply Rmult_le_compat; auto using Rabs_pos.
      - rewrite (Rabs_pos_eq (M / IZR N)) by lra. replace (12 * (M * (E * U)) + M * D) with ((12 * (IZR N * (E * U)) + IZR N * D) * (M / IZR N)) by (field; lra).
        apply Rmult_le_compat_r; [lra|exact C]. }
    pose proof (tri _ _ _ _ _ R1 R2). lra. }
  assert (R1 : Rabs (r (g / M) - g / M) <= 4 * (E * U)).
  { replace (4 * (E * U)) with (B (e + 1 + 1) * U) by (rewrite !B_S; ring). apply r_err; [lia|]. rewrite !B_S. apply div_N; [exact M0|]. nra. }
  assert (R2 : Rabs (g / M - exact / IZR N) <= 24 * (E * U) + D).
  { replace (g / M - exact / IZR N) with ((g - exact * (M / IZR N)) / M) by (field; lra). apply div_N; [exact M0|]. nra. }
  pose proof (tri _ _ _ _ _ R1 R2). lra.
Qed.
Lemma exact_in : Rabs (exact / IZR N) <= E.
Proof using All.
  pose proof N_pos. apply div_N; [lra|]. unfold exact, N. rewrite plus_IZR. assert (0 < IZR n1) by (apply IZR_lt; lia). assert (0 < IZR n2) by (apply IZR_lt; lia).
  eapply Rle_trans; [apply Rabs_triang|]. rewrite !Rabs_mult, !(Rabs_pos_eq (IZR _)) by lra. nra.
Qed.
End Pool.

Lemma pool_step e D c x o a : proper (B (Z.of_nat e)) x -> proper (B (Z.of_nat e)) a -> fst c = fst x -> Rabs (Q2R (snd c) - snd x) <= D ->
  adds D o a -> D <= B (Z.of_nat e) ->
  fst (fpool c o) = fst (weigh x a) /\ Rabs (Q2R (snd (fpool c o)) - snd (weigh x a)) <= D + 32 * (B (Z.of_nat e) * U) /\
  proper (B (Z.of_nat e)) (weigh x a).
Proof.
  intros (N1 & X1) (N2 & X2) F H (F' & H') DE. destruct c as [c1 c2], x as [n1 x1], a as [n2 x2]. cbn [fst snd] in *. subst c1.
  assert (PR : proper (B (Z.of_nat e)) (weigh (n1, x1) (n2, x2))).
  { split; cbn [weigh fst snd].
    - unfold MAX_POINTS in *. lia.
    - rewrite <- plus_IZR. apply (exact_in (Z.of_nat e) ltac:(lia) n1 n2 (Q2R c2) (Q2R (mean o)) x1 x2 D); assumption. }
  assert (NZ : forall z, (0 < z)%Z -> ~ (inject_Z z == 0)%Q).
  { intros z P Z0. apply Qeq_eqR in Z0. rewrite q2r_Z, RMicromega.Q2R_0 in Z0. apply eq_IZR in Z0. lia. }
  destruct o as [n m|n m]; cbn [number mean] in *; subst n; cbn [fpool].
  - unfold fpoolAdd. cbn [fst snd]. destruct (MAX_POINTS <? n1 + n2)%Z eqn:G; cbn [fst snd weigh].
    + apply Z.ltb_lt in G. split; [lia|]. split; [|exact PR].
      rewrite f64_ieee, Q2R_div, f64_ieee, Q2R_mult, f64_ieee, Q2R_plus, !f64_ieee, !Q2R_mult, Q2R_div, !q2r_Z by (apply NZ; reflexivity || lia).
      rewrite <- plus_IZR. eapply capped_ok; eauto. lia.
    + apply Z.ltb_ge in G. split; [lia|]. split; [|exact PR].
      rewrite f64_ieee, Q2R_div, f64_ieee, Q2R_plus, !f64_ieee, !Q2R_mult, !q2r_Z by (apply NZ; lia).
      rewrite <- plus_IZR. eapply plain_ok; eauto. lia.
  - unfold fpoolMerge. cbn [fst snd weigh]. split; [destruct (MAX_POINTS <? n2 + n1)%Z eqn:G; [apply Z.ltb_lt in G|apply Z.ltb_ge in G]; lia|].
    split; [|exact PR]. rewrite f64_ieee, Q2R_div, f64_ieee, Q2R_plus, !f64_ieee, !Q2R_mult, !q2r_Z by (apply NZ; lia).
    rewrite <- plus_IZR, (Rplus_comm (r (Q2R m * IZR n2))), (Z.add_comm n2 n1). eapply plain_ok; eauto. lia.
Qed.
Lemma pools_ok e D l t : Forall2 (adds D) l t -> Forall (proper (B (Z.of_nat e))) t -> forall c x k,
  proper (B (Z.of_nat e)) x -> fst c = fst x -> 0 <= D -> Rabs (Q2R (snd c) - snd x) <= D + INR k * (32 * (B (Z.of_nat e) * U)) ->
  D + INR (k + length l) * (32 * (B (Z.of_nat e) * U)) <= B (Z.of_nat e) ->
  fst (fpools c l) = fst (weighted x t) /\
  Rabs (Q2R (snd (fpools c l)) - snd (weighted x t)) <= D + INR (k + length l) * (32 * (B (Z.of_nat e) * U)).
Proof.
  set (s := 32 * (B (Z.of_nat e) * U)). assert (S0 : 0 < s) by (unfold s; pose proof (B_pos (Z.of_nat e)); pose proof U_pos; nra).
  induction 1 as [|o a l t A F2 IH]; intros P c x k PX F D0 H L.
  - cbn [fpools fold_left weighted length]. rewrite Nat.add_0_r. split; assumption.
  - inversion P as [|? ? PA PT]; subst. cbn [length] in *. rewrite Nat.add_succ_r in *.
    assert (KL : INR k <= INR (S (k + length l))) by (apply le_INR; lia).
    destruct (pool_step e (D + INR k * s) c x o a PX PA F H) as (G1 & G2 & G3).
    + destruct A as (A1 & A2). split; [exact A1|]. pose proof (pos_INR k). nra.
    + nra.
    + fold s in G2. specialize (IH PT (fpool c o) (weigh x a) (S k) G3 G1 D0). rewrite S_INR in IH.
      replace (S k + length l)%nat with (S (k + length l)) in IH by lia. apply IH; [lra|exact L].
Qed.
