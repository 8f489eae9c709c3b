(** Proofs for C145. *)
From Coq Require Import Reals Qreals Lra List ZArith QArith Qabs Bool Lia Psatz.
From Flocq Require Import Core.
From Verif Require Import Base LinAlg3 CellModel CellSpec CellProofs VoxelModel FloatModel FloatIEEE FloatErr FloatProofs FloatBatchModel FloatBatchSpec.
Import ListNotations.
Open Scope R_scope.
Definition total (l : list R) : R := fold_right Rplus 0 l.
Definition average (l : list R) : R := total l / INR (length l).
Definition reach_of (b : R) (l : list (Q * Q)) : Prop := Forall (fun p => Rabs (Q2R (fst p)) <= b /\ Rabs (Q2R (snd p)) <= b) l.
Set Default Proof Using "Type".

Notation r := (RN 53 (-1074)).
Lemma P53 : (0 < 53)%Z. Proof. lia. Qed.
Lemma r_mono a b : a <= b -> r a <= r b.
Proof. intro H. apply round_le; [apply FLT_exp_valid; exact P53|apply valid_rnd_N|exact H]. Qed.
(** a bound that is a double survives rounding *)
Lemma r_abs v m k : (Z.abs m < 2 ^ 53)%Z -> (0 <= k)%Z -> Rabs v <= IZR m * B k -> Rabs (r v) <= IZR m * B k.
Proof.
  intros M K A. apply Rabs_le_inv in A. apply Rabs_le.
  pose proof (between 53 (-1074) P53 v (- m) m k ltac:(lia) M ltac:(lia)) as H. rewrite opp_IZR in H.
  replace (- IZR m * B k) with (- (IZR m * B k)) in H by ring. apply H. lra.
Qed.
Definition U : R := B (-53).
Lemma U_pos : 0 < U. Proof. apply B_pos. Qed.
Lemma r_err v k : (0 <= k)%Z -> Rabs v <= B k -> Rabs (r v - v) <= B k * U.
Proof.
  intros K A. pose proof (err 53 (-1074) P53 v k A ltac:(lia)) as H. unfold U. rewrite <- bpow_plus. exact H.
Qed.
Lemma tri a b c x y : Rabs (a - b) <= x -> Rabs (b - c) <= y -> Rabs (a - c) <= x + y.
Proof. intros H K. pose proof (Rabs_triang (a - b) (b - c)) as T. replace (a - b + (b - c)) with (a - c) in T by ring. lra. Qed.
Lemma prod_err a a' b b' ea eb X Y : Rabs (a - a') <= ea -> Rabs (b - b') <= eb -> Rabs a <= X -> Rabs b' <= Y ->
  Rabs (a * b - a' * b') <= X * eb + ea * Y.
Proof.
  intros A Bb XX YY. replace (a * b - a' * b') with (a * (b - b') + (a - a') * b') by ring.
  eapply Rle_trans; [apply Rabs_triang|]. rewrite !Rabs_mult.
  apply Rplus_le_compat; apply Rmult_le_compat; auto using Rabs_pos.
Qed.

Section Batch.
Variables (e k : Z) (n : nat).
Hypothesis E0 : (0 <= e)%Z.
Hypothesis K3 : (3 <= k <= 50)%Z.
Hypothesis NK : B (k - 1) <= INR n.
Hypothesis NK' : INR n + 1 <= B k.
Notation E := (B e).
Notation K := (B k).
Notation N := (INR n).
Lemma E1 : 1 <= E. Proof using E0. rewrite <- B_0. apply B_le. exact E0. Qed.
Lemma K8 : 8 <= K. Proof using K3. apply Rle_trans with (B 3); [cbn; lra|]. apply B_le. lia. Qed.
Lemma KN : K <= 2 * N.
Proof using NK. replace k with (k - 1 + 1)%Z by lia. rewrite B_S. lra. Qed.
Lemma N4 : 4 <= N. Proof using K3 NK. pose proof K8. pose proof KN. lra. Qed.
Lemma n_small : (Z.of_nat n < 2 ^ 50)%Z.
Proof using K3 NK'.
  apply lt_IZR. rewrite <- INR_IZR_INZ. apply Rlt_le_trans with K; [lra|].
  change 2%Z with (radix_val radix2). rewrite IZR_Zpower by lia. apply B_le. lia.
Qed.
Lemma EE : B (e + e) = E * E. Proof. apply bpow_plus. Qed.

Lemma sum_fold l : forall s s', fold_left (fun s x => f64 (s + x)) l s = s' ->
  forall t i, Forall (fun x => Rabs (Q2R x) <= E) l -> (i + length l <= n)%nat ->
  Rabs (Q2R s) <= INR i * E -> Rabs (Q2R s - t) <= INR i * (K * E * U) ->
  Rabs (Q2R s') <= INR (i + length l) * E /\ Rabs (Q2R s' - (t + total (map Q2R l))) <= INR (i + length l) * (K * E * U).
Proof using E0 K3 NK'.
  induction l as [|x l IH]; intros s s' H t i F L A D; cbn [fold_left] in H.
  - subst. cbn [map total fold_right length]. rewrite Rplus_0_r, Nat.add_0_r. split; assumption.
  - inversion F; subst x0 l0. cbn [length] in L. rewrite Nat.add_succ_r in L.
    assert (V : Rabs (Q2R s + Q2R x) <= INR (S i) * E).
    { rewrite S_INR. eapply Rle_trans; [apply Rabs_triang|]. lra. }
    assert (VK : INR (S i) * E <= B (k + e)).
    { rewrite bpow_plus. apply Rmult_le_compat_r; [left; apply B_pos|]. assert (INR (S i) <= N) by (apply le_INR; lia). lra. }
    assert (A' : Rabs (Q2R (f64 (s + x))) <= INR (S i) * E).
    { rewrite f64_ieee, Q2R_plus. rewrite INR_IZR_INZ. pose proof n_small. apply r_abs; [rewrite Z.abs_eq by lia|exact E0|]; [|rewrite <- INR_IZR_INZ; exact V].
      apply Z.le_lt_trans with (Z.of_nat n); [lia|]. eapply Z.lt_le_trans; [exact H0|]. apply Z.pow_le_mono_r; lia. }
    assert (D' : Rabs (Q2R (f64 (s + x)) - (t + Q2R x)) <= INR (S i) * (K * E * U)).
    { rewrite f64_ieee, Q2R_plus, S_INR. replace ((INR i + 1) * (K * E * U)) with (K * E * U + INR i * (K * E * U)) by ring.
      apply tri with (b := Q2R s + Q2R x).
      - rewrite <- bpow_plus. apply r_err; [lia|]. lra.
      - replace (Q2R s + Q2R x - (t + Q2R x)) with (Q2R s - t) by ring. exact D. }
    destruct (IH _ _ H (t + Q2R x) (S i) H3 ltac:(lia) A' D') as (P & Q). cbn [length].
    replace (i + S (length l))%nat with (S i + length l)%nat by lia. split; [exact P|].
    replace (t + total (map Q2R (x :: l))) with (t + Q2R x + total (map Q2R l)) by (unfold total; cbn [map fold_right]; ring). exact Q.
Qed.
Lemma sum_ok l : length l = n -> Forall (fun x => Rabs (Q2R x) <= E) l ->
  Rabs (Q2R (fsum l)) <= N * E /\ Rabs (Q2R (fsum l) - total (map Q2R l)) <= N * (K * E * U).
Proof using E0 K3 NK'.
  intros L F. destruct (sum_fold l 0%Q (fsum l) eq_refl 0 0%nat F ltac:(lia)) as (A & D).
  - rewrite RMicromega.Q2R_0, Rabs_R0. change (INR 0) with 0. lra.
  - rewrite RMicromega.Q2R_0, Rminus_0_r, Rabs_R0. change (INR 0) with 0. lra.
  - cbn [Nat.add] in *. rewrite L, Rplus_0_l in *. split; assumption.
Qed.
Definition rprod (p : Q * Q) : R := Q2R (fst p) * Q2R (snd p).
Lemma sum2_fold l : forall s s', fold_left (fun s p => f64 (s + f64 (fst p * snd p))) l s = s' ->
  forall t i, reach_of E l -> (i + length l <= n)%nat ->
  Rabs (Q2R s) <= INR (S i) * (E * E) -> Rabs (Q2R s - t) <= INR i * ((K + 1) * (E * E) * U) ->
  Rabs (Q2R s') <= INR (S (i + length l)) * (E * E) /\
  Rabs (Q2R s' - (t + total (map rprod l))) <= INR (i + length l) * ((K + 1) * (E * E) * U).
Proof using E0 K3 NK'.
  induction l as [|x l IH]; intros s s' H t i F L A D; cbn [fold_left] in H.
  - subst. cbn [map total fold_right length]. rewrite Rplus_0_r, Nat.add_0_r. split; assumption.
  - inversion F as [|y l1 FX FL]; subst y l1. destruct FX as (FA & FB). cbn [length] in L. rewrite Nat.add_succ_r in L.
    pose proof n_small as NS.
    assert (X : Rabs (rprod x) <= E * E).
    { unfold rprod. rewrite Rabs_mult. apply Rmult_le_compat; auto using Rabs_pos. }
    assert (XR : Rabs (r (rprod x)) <= E * E).
    { rewrite <- EE in *. replace (B (e + e)) with (IZR 1 * B (e + e)) in * by ring. apply r_abs; [cbn; lia|lia|exact X]. }
    assert (XE : Rabs (r (rprod x) - rprod x) <= E * E * U).
    { rewrite <- EE in *. apply r_err; [lia|exact X]. }
    assert (V : Rabs (Q2R s + r (rprod x)) <= INR (S (S i)) * (E * E)).
    { rewrite (S_INR (S i)). eapply Rle_trans; [apply Rabs_triang|]. lra. }
    assert (VK : INR (S (S i)) * (E * E) <= B (k + (e + e))).
    { rewrite bpow_plus, EE. apply Rmult_le_compat_r; [pose proof (B_pos e); nra|].
      rewrite S_INR. assert (INR (S i) <= N) by (apply le_INR; lia). lra. }
    assert (EQ : Q2R (f64 (s + f64 (fst x * snd x))) = r (Q2R s + r (rprod x))).
    { rewrite f64_ieee, Q2R_plus, f64_ieee, Q2R_mult. reflexivity. }
    assert (A' : Rabs (Q2R (f64 (s + f64 (fst x * snd x)))) <= INR (S (S i)) * (E * E)).
    { rewrite EQ, <- EE. rewrite INR_IZR_INZ. apply r_abs; [rewrite Z.abs_eq by lia|lia|]; [|rewrite <- INR_IZR_INZ, EE; exact V].
      apply Z.le_lt_trans with (Z.of_nat n + 1)%Z; [lia|]. apply Z.lt_le_trans with (2 ^ 50 + 1)%Z; [lia|]. cbn. lia. }
    assert (D' : Rabs (Q2R (f64 (s + f64 (fst x * snd x))) - (t + rprod x)) <= INR (S i) * ((K + 1) * (E * E) * U)).
    { rewrite EQ, S_INR. replace ((INR i + 1) * ((K + 1) * (E * E) * U)) with (K * (E * E) * U + (E * E * U + INR i * ((K + 1) * (E * E) * U))) by ring.
      apply tri with (b := Q2R s + r (rprod x)).
      - rewrite <- EE, <- bpow_plus. apply r_err; [lia|]. lra.
      - replace (Q2R s + r (rprod x) - (t + rprod x)) with ((r (rprod x) - rprod x) + (Q2R s - t)) by ring.
        eapply Rle_trans; [apply Rabs_triang|]. lra. }
    destruct (IH _ _ H (t + rprod x) (S i) FL ltac:(lia) A' D') as (P & Q). cbn [length].
    replace (i + S (length l))%nat with (S i + length l)%nat by lia. split; [exact P|].
    replace (t + total (map rprod (x :: l))) with (t + rprod x + total (map rprod l)) by (unfold total; cbn [map fold_right]; ring). exact Q.
Qed.
Lemma sum2_ok s0 l : 0 <= Q2R s0 <= 1 -> length l = n -> reach_of E l ->
  Rabs (Q2R (fsum2 s0 l)) <= (N + 1) * (E * E) /\
  Rabs (Q2R (fsum2 s0 l) - (Q2R s0 + total (map rprod l))) <= N * ((K + 1) * (E * E) * U).
Proof using E0 K3 NK'.
  intros S L F. destruct (sum2_fold l s0 (fsum2 s0 l) eq_refl (Q2R s0) 0%nat F ltac:(lia)) as (A & D).
  - rewrite Rabs_pos_eq by lra. change (INR 1) with 1. pose proof E1. nra.
  - rewrite Rminus_diag_eq, Rabs_R0 by reflexivity. change (INR 0) with 0. lra.
  - cbn [Nat.add] in *. rewrite L, S_INR in *. split; assumption.
Qed.
Lemma div_abs' v M : Rabs v <= N * M -> Rabs (v / N) <= M.
Proof using K3 NK.
  intro H. pose proof N4. unfold Rdiv. rewrite Rabs_mult, (Rabs_pos_eq (/ N)) by (left; apply Rinv_0_lt_compat; lra).
  apply Rmult_le_reg_r with N; [lra|]. rewrite Rmult_assoc, Rinv_l by lra. lra.
Qed.
Lemma mean_ok l : length l = n -> Forall (fun x => Rabs (Q2R x) <= E) l ->
  Rabs (Q2R (fmean l)) <= E /\ Rabs (Q2R (fmean l) - average (map Q2R l)) <= (K + 1) * E * U.
Proof using E0 K3 NK NK'.
  intros L F. destruct (sum_ok l L F) as (A & D). pose proof N4.
  assert (EQ : Q2R (fmean l) = r (Q2R (fsum l) / N)).
  { unfold fmean. rewrite f64_ieee, Q2R_div, q2r_qn; [rewrite <- INR_IZR_INZ, L; reflexivity|].
    rewrite L. intro Z. apply Qeq_eqR in Z. rewrite q2r_qn, <- INR_IZR_INZ, RMicromega.Q2R_0 in Z. lra. }
  rewrite EQ. assert (M : Rabs (Q2R (fsum l) / N) <= E) by (apply div_abs', A). split.
  - replace E with (IZR 1 * E) in * by ring. apply r_abs; [cbn; lia|exact E0|exact M].
  - replace ((K + 1) * E * U) with (E * U + K * E * U) by ring. apply tri with (b := Q2R (fsum l) / N); [apply r_err; assumption|].
    unfold average. rewrite map_length, L. replace (Q2R (fsum l) / N - total (map Q2R l) / N) with ((Q2R (fsum l) - total (map Q2R l)) / N) by (field; lra).
    apply div_abs', D.
Qed.
Lemma reach_fst l : reach_of E l -> Forall (fun x => Rabs (Q2R x) <= E) (map fst l).
Proof. intro F. apply Forall_map. eapply Forall_impl; [|exact F]. intros p (A & _). exact A. Qed.
Lemma reach_snd l : reach_of E l -> Forall (fun x => Rabs (Q2R x) <= E) (map snd l).
Proof. intro F. apply Forall_map. eapply Forall_impl; [|exact F]. intros p (_ & A). exact A. Qed.

Lemma cov_ok s0 l : 0 <= Q2R s0 <= 1 -> length l = n -> reach_of E l ->
  let sa := total (map Q2R (map fst l)) in let ma := average (map Q2R (map fst l)) in let mb := average (map Q2R (map snd l)) in
  Rabs (Q2R (fcov s0 l) - (((Q2R s0 + total (map rprod l)) - 2 * (sa * mb)) / N + ma * mb) * ((N - 1) / N)) <= 16 * K * (E * E) * U.
Proof using E0 K3 NK NK'.
  intros S L F sa ma mb. pose proof N4 as N4. pose proof K8 as K8. pose proof KN as KN. pose proof E1 as E1. pose proof U_pos as U0.
  pose proof n_small as NS.
  assert (Lf : length (map fst l) = n) by (rewrite map_length; exact L).
  assert (Ls : length (map snd l) = n) by (rewrite map_length; exact L).
  destruct (sum_ok _ Lf (reach_fst l F)) as (SA & SE). destruct (mean_ok _ Lf (reach_fst l F)) as (MA & ME).
  destruct (mean_ok _ Ls (reach_snd l F)) as (MB & MBE). destruct (sum2_ok s0 l S L F) as (TA & TE).
  fold sa in SE. fold ma in ME. fold mb in MBE.
  assert (NZ : ~ (qn (length l) == 0)%Q).
  { rewrite L. intro Z. apply Qeq_eqR in Z. rewrite q2r_qn, <- INR_IZR_INZ, RMicromega.Q2R_0 in Z. lra. }
  assert (EQ : Q2R (fcov s0 l) =
    r (r (r (r (Q2R (fsum2 s0 l) - r (2 * r (Q2R (fsum (map fst l)) * Q2R (fmean (map snd l))))) / N)
          + r (Q2R (fmean (map fst l)) * Q2R (fmean (map snd l)))) * r ((N - 1) / N))).
  { unfold fcov. cbv zeta. rewrite f64_ieee, Q2R_mult, f64_ieee, Q2R_plus, f64_ieee, Q2R_div, f64_ieee, Q2R_minus, f64_ieee, Q2R_mult, f64_ieee, Q2R_mult by exact NZ.
    rewrite (f64_ieee (_ * _)), Q2R_mult, f64_ieee, Q2R_div by exact NZ. rewrite !q2r_qn, <- !INR_IZR_INZ, L.
    replace (Q2R 2) with 2 by (unfold Q2R; cbn; lra). rewrite minus_INR by (apply INR_le; cbn [INR]; lra). reflexivity. }
  rewrite EQ. clear EQ NZ. set (S1 := Q2R (fsum (map fst l))) in *. set (mA := Q2R (fmean (map fst l))) in *. set (mB := Q2R (fmean (map snd l))) in *.
  set (S2 := Q2R (fsum2 s0 l)) in *. set (T := Q2R s0 + total (map rprod l)) in *.
  (* atoms *)
  set (W := E * E) in *. assert (W1 : 1 <= W) by (unfold W; nra). set (w := W * U). assert (w0 : 0 < w) by (unfold w; nra).
  assert (W2 : B (e + e) = W) by apply EE.
  assert (NN : N = IZR (Z.of_nat n)) by apply INR_IZR_INZ.
  assert (B53 : forall c, (0 <= c <= 4)%Z -> (Z.abs (c * Z.of_nat n) < 2 ^ 53)%Z).
  { intros c C. rewrite Z.abs_eq by nia. change (2 ^ 53)%Z with (8 * 2 ^ 50)%Z. nia. }
  assert (rN : forall c v, (0 <= c <= 4)%Z -> Rabs v <= IZR c * N * W -> Rabs (r v) <= IZR c * N * W).
  { intros c v C. rewrite <- W2, NN, <- mult_IZR. apply r_abs; [apply B53, C|lia]. }
  assert (rW : forall c v, (0 <= c <= 8)%Z -> Rabs v <= IZR c * W -> Rabs (r v) <= IZR c * W).
  { intros c v C. rewrite <- W2. apply r_abs; [cbn; lia|lia]. }
  (* exact bounds *)
  assert (SX : Rabs sa <= N * E).
  { unfold sa. clear -F L E0. rewrite <- L. clear L. induction l as [|p t IH]; cbn [map length].
    - unfold total. cbn [fold_right]. rewrite Rabs_R0. change (INR 0) with 0. lra.
    - inversion F as [|y l1 (FA & _) FL]; subst. specialize (IH FL). rewrite S_INR. unfold total in *. cbn [fold_right].
      eapply Rle_trans; [apply Rabs_triang|]. lra. }
  assert (MX : Rabs mb <= E).
  { unfold mb, average. rewrite !map_length, L. apply div_abs'. clear -F L E0. rewrite <- L. clear L. induction l as [|p t IH]; cbn [map length].
    - unfold total. cbn [fold_right]. rewrite Rabs_R0. change (INR 0) with 0. lra.
    - inversion F as [|y l1 (_ & FA) FL]; subst. specialize (IH FL). rewrite S_INR. unfold total in *. cbn [fold_right].
      eapply Rle_trans; [apply Rabs_triang|]. lra. }
  (* S1 * mB *)
  set (p := r (S1 * mB)).
  assert (pv : Rabs (S1 * mB) <= N * W).
  { rewrite Rabs_mult. unfold W. replace (N * (E * E)) with (N * E * E) by ring. apply Rmult_le_compat; auto using Rabs_pos. }
  assert (pA : Rabs p <= N * W).
  { unfold p. pose proof (rN 1%Z (S1 * mB) ltac:(lia)). lra. }
  assert (pE : Rabs (p - sa * mb) <= N * (2 * K + 1) * w + K * w).
  { assert (X : Rabs (p - S1 * mB) <= K * w).
    { unfold p, w. rewrite <- W2, <- Rmult_assoc, <- bpow_plus. apply r_err; [lia|]. rewrite bpow_plus, W2. nra. }
    pose proof (prod_err S1 sa mB mb _ _ _ _ SE MBE SA MX) as Y. pose proof (tri _ _ _ _ _ X Y) as Z.
    replace (N * (2 * K + 1) * w + K * w) with (K * w + (N * E * ((K + 1) * E * U) + N * (K * E * U) * E)) by (unfold w, W; ring). exact Z. }
  set (q := r (2 * p)).
  assert (qv : Rabs (2 * p) <= 2 * N * W) by (rewrite Rabs_mult, (Rabs_pos_eq 2) by lra; lra).
  assert (qA : Rabs q <= 2 * N * W).
  { unfold q. apply (rN 2%Z); [lia|exact qv]. }
  assert (qE : Rabs (q - 2 * (sa * mb)) <= 2 * (N * (2 * K + 1) * w + K * w) + 2 * K * w).
  { assert (X : Rabs (q - 2 * p) <= 2 * K * w).
    { unfold q, w. replace (2 * K * (W * U)) with (B (k + (e + e) + 1) * U).
      - apply r_err; [lia|]. rewrite B_S, bpow_plus, W2. nra.
      - rewrite B_S, bpow_plus, W2. ring. }
    assert (Y : Rabs (2 * p - 2 * (sa * mb)) <= 2 * (N * (2 * K + 1) * w + K * w)).
    { replace (2 * p - 2 * (sa * mb)) with (2 * (p - sa * mb)) by ring. rewrite Rabs_mult, (Rabs_pos_eq 2) by lra. lra. }
    pose proof (tri _ _ _ _ _ X Y). lra. }
  set (d := r (S2 - q)).
  assert (dv : Rabs (S2 - q) <= 4 * N * W).
  { unfold Rminus. eapply Rle_trans; [apply Rabs_triang|]. rewrite Rabs_Ropp. nra. }
  assert (dA : Rabs d <= 4 * N * W).
  { unfold d. apply (rN 4%Z); [lia|exact dv]. }
  assert (dE : Rabs (d - (T - 2 * (sa * mb))) <= N * (5 * K + 3) * w + 8 * K * w).
  { assert (X : Rabs (d - (S2 - q)) <= 4 * K * w).
    { unfold d, w. replace (4 * K * (W * U)) with (B (k + (e + e) + 1 + 1) * U).
      - apply r_err; [lia|]. rewrite !B_S, bpow_plus, W2. nra.
      - rewrite !B_S, bpow_plus, W2. ring. }
    assert (Y : Rabs (S2 - q - (T - 2 * (sa * mb))) <= N * ((K + 1) * W * U) + (2 * (N * (2 * K + 1) * w + K * w) + 2 * K * w)).
    { replace (S2 - q - (T - 2 * (sa * mb))) with ((S2 - T) + - (q - 2 * (sa * mb))) by ring.
      eapply Rle_trans; [apply Rabs_triang|]. rewrite Rabs_Ropp. lra. }
    pose proof (tri _ _ _ _ _ X Y) as Z. replace (N * ((K + 1) * W * U)) with (N * (K + 1) * w) in Z by (unfold w; ring).
    replace (N * (5 * K + 3) * w + 8 * K * w) with (4 * K * w + (N * (K + 1) * w + (2 * (N * (2 * K + 1) * w + K * w) + 2 * K * w))) by ring. exact Z. }
  set (c := r (d / N)).
  assert (cv : Rabs (d / N) <= 4 * W) by (apply div_abs'; lra).
  assert (cA : Rabs c <= 4 * W).
  { unfold c. apply (rW 4%Z); [lia|exact cv]. }
  assert (cE : Rabs (c - (T - 2 * (sa * mb)) / N) <= (5 * K + 23) * w).
  { assert (X : Rabs (c - d / N) <= 4 * w).
    { unfold c, w. replace (4 * (W * U)) with (B (e + e + 1 + 1) * U).
      - apply r_err; [lia|]. rewrite !B_S, W2. lra.
      - rewrite !B_S, W2. ring. }
    assert (Y : Rabs (d / N - (T - 2 * (sa * mb)) / N) <= (5 * K + 3) * w + 16 * w).
    { replace (d / N - (T - 2 * (sa * mb)) / N) with ((d - (T - 2 * (sa * mb))) / N) by (field; lra). apply div_abs'.
      eapply Rle_trans; [exact dE|]. nra. }
    pose proof (tri _ _ _ _ _ X Y). lra. }
  set (m := r (mA * mB)).
  assert (mv : Rabs (mA * mB) <= W) by (rewrite Rabs_mult; unfold W; apply Rmult_le_compat; auto using Rabs_pos).
  assert (mAb : Rabs m <= W).
  { unfold m. pose proof (rW 1%Z (mA * mB) ltac:(lia)). lra. }
  assert (mE : Rabs (m - ma * mb) <= (2 * K + 3) * w).
  { assert (X : Rabs (m - mA * mB) <= w) by (unfold m, w; rewrite <- W2 in *; apply r_err; [lia|exact mv]).
    pose proof (prod_err mA ma mB mb _ _ _ _ ME MBE MA MX) as Y. pose proof (tri _ _ _ _ _ X Y) as Z.
    replace ((2 * K + 3) * w) with (w + (E * ((K + 1) * E * U) + (K + 1) * E * U * E)) by (unfold w, W; ring). exact Z. }
  set (t := r (c + m)).
  assert (tv : Rabs (c + m) <= 8 * W) by (eapply Rle_trans; [apply Rabs_triang|]; lra).
  assert (tA : Rabs t <= 8 * W).
  { unfold t. apply (rW 8%Z); [lia|exact tv]. }
  assert (tE : Rabs (t - ((T - 2 * (sa * mb)) / N + ma * mb)) <= (7 * K + 34) * w).
  { assert (X : Rabs (t - (c + m)) <= 8 * w).
    { unfold t, w. replace (8 * (W * U)) with (B (e + e + 1 + 1 + 1) * U).
      - apply r_err; [lia|]. rewrite !B_S, W2. lra.
      - rewrite !B_S, W2. ring. }
    assert (Y : Rabs (c + m - ((T - 2 * (sa * mb)) / N + ma * mb)) <= (5 * K + 23) * w + (2 * K + 3) * w).
    { replace (c + m - ((T - 2 * (sa * mb)) / N + ma * mb)) with ((c - (T - 2 * (sa * mb)) / N) + (m - ma * mb)) by ring.
      eapply Rle_trans; [apply Rabs_triang|]. lra. }
    pose proof (tri _ _ _ _ _ X Y). lra. }
  set (f := r ((N - 1) / N)).
  assert (fv : 0 <= (N - 1) / N <= 1).
  { split; [apply Rle_mult_inv_pos; lra|]. apply Rmult_le_reg_r with N; [lra|]. unfold Rdiv. rewrite Rmult_assoc, Rinv_l by lra. lra. }
  assert (fv' : Rabs ((N - 1) / N) <= 1) by (rewrite Rabs_pos_eq; lra).
  assert (fA : Rabs f <= 1).
  { unfold f. replace 1 with (IZR 1 * B 0) at 2 by (rewrite B_0; ring). apply r_abs; [cbn; lia|lia|rewrite B_0; lra]. }
  assert (fE : Rabs (f - (N - 1) / N) <= U).
  { unfold f. replace U with (B 0 * U) by (rewrite B_0; ring). apply r_err; [lia|]. rewrite B_0. exact fv'. }
  assert (X : Rabs (r (t * f) - t * f) <= 8 * w).
  { unfold w. replace (8 * (W * U)) with (B (e + e + 1 + 1 + 1) * U).
    - apply r_err; [lia|]. rewrite !B_S, W2. rewrite Rabs_mult. pose proof (Rabs_pos t). pose proof (Rabs_pos f). nra.
    - rewrite !B_S, W2. ring. }
  pose proof (prod_err t _ f _ _ _ _ _ tE fE tA fv') as Y. pose proof (tri _ _ _ _ _ X Y) as Z. eapply Rle_trans; [exact Z|].
  replace (8 * W * U) with (8 * w) by (unfold w; ring). replace (16 * K * W * U) with (16 * K * w) by (unfold w; ring). nra.
Qed.
End Batch.

(** ** with the exact model of the cell *)
Lemma sum_coord i l : total (map Q2R (map (at_ i) l)) = coord i (sumV (map real3 l)).
Proof.
  induction l as [|p t IH]; [destruct i; reflexivity|]. unfold total in *. cbn [map fold_right sumV]. rewrite IH.
  destruct i; reflexivity.
Qed.
Lemma avg_coord i l : average (map Q2R (map (at_ i) l)) = coord i (batch_mean (map real3 l)).
Proof.
  unfold average, batch_mean. rewrite sum_coord, vsum_spec, !map_length. destruct i; cbn; unfold Rdiv; ring.
Qed.
Lemma sum_entry i j l : total (map rprod (map (fun p => (at_ i p, at_ j p)) l)) = entry i j (sumO (map real3 l)).
Proof.
  induction l as [|p t IH]; [destruct i, j; reflexivity|]. unfold total, sumO in *. cbn [map fold_right sumM]. rewrite IH.
  unfold rprod. destruct i, j; reflexivity.
Qed.
Lemma two_B e : 2 ^ e = B (Z.of_nat e).
Proof.
  induction e as [|e IH]; [reflexivity|]. rewrite Nat2Z.inj_succ, <- Z.add_1_r, B_S, <- IH. reflexivity.
Qed.
Lemma choose n : (4 <= n)%nat -> INR n < 2 ^ 49 -> exists k, (3 <= k <= 50)%Z /\ B (k - 1) <= INR n /\ INR n + 1 <= B k.
Proof.
  intros L U. exists (Z.log2 (Z.of_nat n) + 1)%Z. pose proof (Z.log2_spec (Z.of_nat n) ltac:(lia)) as (A & C).
  assert (G : (2 <= Z.log2 (Z.of_nat n))%Z) by (apply Z.log2_le_pow2; cbn; lia).
  assert (G' : (Z.log2 (Z.of_nat n) < 49)%Z).
  { apply Z.log2_lt_pow2; [lia|]. apply lt_IZR. rewrite <- INR_IZR_INZ. eapply Rlt_le_trans; [exact U|].
    rewrite two_B. change 2%Z with (radix_val radix2). rewrite IZR_Zpower by lia. apply Rle_refl. }
  split; [lia|]. rewrite INR_IZR_INZ. split.
  - replace (Z.log2 (Z.of_nat n) + 1 - 1)%Z with (Z.log2 (Z.of_nat n)) by lia. rewrite <- IZR_Zpower by lia. apply IZR_le. exact A.
  - rewrite <- plus_IZR, <- IZR_Zpower by lia. apply IZR_le. change (radix_val radix2) with 2%Z. rewrite Z.add_1_r. lia.
Qed.
Lemma B_U c : B (c - 53) = B c * U. Proof. unfold U. rewrite <- bpow_plus. reflexivity. Qed.
Lemma within_pair b i j l : within b l -> reach_of b (map (fun p => (at_ i p, at_ j p)) l).
Proof. intro F. apply Forall_map. eapply Forall_impl; [|exact F]. intros p H. split; apply H. Qed.

Lemma batch_mean_err l e i : (4 <= length l)%nat -> INR (length l) < 2 ^ 49 -> within (2 ^ e) l ->
  Rabs (Q2R (fbatch_mean l i) - coord i (batch_mean (map real3 l))) <= INR (length l) * 2 ^ e / 2 ^ 51.
Proof.
  intros L H F. destruct (choose _ L H) as (k & K3 & NK & NK'). rewrite two_B in F.
  destruct (mean_ok (Z.of_nat e) k (length l) ltac:(lia) K3 NK NK' (map (at_ i) l) ltac:(apply map_length)) as (_ & D).
  { apply Forall_map. eapply Forall_impl; [|exact F]. intros p P. apply P. }
  rewrite avg_coord in D. eapply Rle_trans; [exact D|]. pose proof (KN k (length l) NK) as KN. pose proof (N4 k (length l) K3 NK) as N4.
  rewrite two_B. pose proof (B_pos (Z.of_nat e)) as P. replace U with (/ 4 * / 2 ^ 51) by (unfold U; cbn; lra).
  unfold Rdiv. assert (0 < / 2 ^ 51) by (apply Rinv_0_lt_compat; apply pow_lt; lra).
  replace ((B k + 1) * B (Z.of_nat e) * (/ 4 * / 2 ^ 51)) with ((B k + 1) / 4 * B (Z.of_nat e) * / 2 ^ 51) by field.
  apply Rmult_le_compat_r; [lra|]. apply Rmult_le_compat_r; lra.
Qed.
Lemma en_scale i j c m : entry i j (mscale c m) = c * entry i j m. Proof. destruct i, j; reflexivity. Qed.
Lemma en_add i j a b : entry i j (madd a b) = entry i j a + entry i j b. Proof. destruct i, j; reflexivity. Qed.
Lemma en_sub i j a b : entry i j (msub a b) = entry i j a - entry i j b. Proof. destruct i, j; cbn; ring. Qed.
Lemma en_outer i j a b : entry i j (outer a b) = coord i a * coord j b. Proof. destruct i, j; reflexivity. Qed.
Lemma en_id i j : entry i j mid = Q2R (unit_ i j). Proof. destruct i, j; unfold Q2R; cbn; lra. Qed.
Lemma batch_cov_err l e i j : (4 <= length l)%nat -> INR (length l) < 2 ^ 49 -> within (2 ^ e) l ->
  Rabs (Q2R (fbatch_cov l i j) - entry i j (batch_cov (map real3 l))) <= INR (length l) * (2 ^ e * 2 ^ e) / 2 ^ 48.
Proof.
  intros L H F. destruct (choose _ L H) as (k & K3 & NK & NK'). rewrite two_B in F.
  pose proof (cov_ok (Z.of_nat e) k (length l) ltac:(lia) K3 NK NK' (unit_ i j) (map (fun p => (at_ i p, at_ j p)) l)
    ltac:(destruct i, j; cbn [unit_]; unfold Q2R; cbn; lra) ltac:(apply map_length) (within_pair _ i j _ F)) as D.
  cbv zeta in D. rewrite !map_map in D. cbn [fst snd] in D.
  rewrite <- (map_map (at_ i) Q2R), <- (map_map (at_ j) Q2R), <- (map_map (fun p => (at_ i p, at_ j p)) rprod) in D.
  rewrite !avg_coord, sum_coord, sum_entry in D. pose proof (N4 k (length l) K3 NK) as N4. pose proof (KN k (length l) NK) as KN.
  replace (entry i j (batch_cov (map real3 l))) with
    (((Q2R (unit_ i j) + entry i j (sumO (map real3 l)) - 2 * (coord i (sumV (map real3 l)) * coord j (batch_mean (map real3 l)))) / INR (length l)
      + coord i (batch_mean (map real3 l)) * coord j (batch_mean (map real3 l))) * ((INR (length l) - 1) / INR (length l))).
  - eapply Rle_trans; [exact D|]. rewrite two_B. set (W := B (Z.of_nat e) * B (Z.of_nat e)).
    assert (P : 0 < W) by (apply Rmult_lt_0_compat; apply B_pos). replace U with (/ 32 * / 2 ^ 48) by (unfold U; cbn; lra).
    assert (0 < / 2 ^ 48) by (apply Rinv_0_lt_compat; apply pow_lt; lra).
    replace (16 * B k * W * (/ 32 * / 2 ^ 48)) with (B k / 2 * W * / 2 ^ 48) by (field; apply pow_nonzero; lra).
    unfold Rdiv at 2. apply Rmult_le_compat_r; [lra|]. apply Rmult_le_compat_r; lra.
  - unfold batch_cov. rewrite cov_sum_spec, vsum_spec, map_length, minus_INR by lia. change (INR 1) with 1.
    generalize (sumO (map real3 l)) (sumV (map real3 l)) (batch_mean (map real3 l)). intros O s m.
    assert (NZ : INR (length l) <> 0) by lra. revert NZ. generalize (INR (length l)). intros N NZ. clear -NZ.
    rewrite en_scale, en_add, en_scale, en_sub, en_add, en_scale, !en_outer, en_id. field. exact NZ.
Qed.
Lemma lower_pd l e : (6 <= length l)%nat -> INR (length l) * 2 ^ e <= 2 ^ 23 -> within (2 ^ e) l -> posdef (lower (fbatch_cov l)).
Proof.
  intros L C F. assert (N6 : 6 <= INR (length l)) by (apply le_INR in L; replace (INR 6) with 6 in L by (cbn; lra); exact L).
  assert (E1 : 1 <= 2 ^ e) by (apply pow_R1_Rle; lra).
  assert (H : INR (length l) < 2 ^ 49).
  { apply Rle_lt_trans with (2 ^ 23); [nra|]. apply Rlt_pow; [lra|lia]. }
  pose proof (fun i j => batch_cov_err l e i j ltac:(lia) H F) as D.
  set (n := INR (length l)) in *. set (dl := n * (2 ^ e * 2 ^ e) / 2 ^ 48) in *.
  assert (DL : dl <= / (4 * n)).
  { unfold dl. apply Rmult_le_reg_r with (4 * n * 2 ^ 48); [apply Rmult_lt_0_compat; [lra|apply pow_lt; lra]|].
    replace (n * (2 ^ e * 2 ^ e) / 2 ^ 48 * (4 * n * 2 ^ 48)) with (4 * ((n * 2 ^ e) * (n * 2 ^ e))) by (field; apply pow_nonzero; lra).
    replace (/ (4 * n) * (4 * n * 2 ^ 48)) with (2 ^ 48) by (field; lra).
    replace (2 ^ 48) with (4 * (2 ^ 23 * 2 ^ 23)) by (cbn; lra). assert (0 <= n * 2 ^ e) by nra.
    apply Rmult_le_compat_l; [lra|]. apply Rmult_le_compat; assumption. }
  split; [unfold sym; reflexivity|]. intros v V.
  assert (Q : (n - 1) / (n * n) * vdot v v <= quad (batch_cov (map real3 l)) v).
  { assert (NE : map real3 l <> []) by (destruct l; [cbn in L; lia|discriminate]).
    rewrite (batch_cov_spec _ NE), map_length. fold n. rewrite quad_scale, quad_add.
    pose proof (scatter_psd (map real3 l) v) as S. replace (quad mid v) with (vdot v v) by (unfold quad; destruct v; mcomp; ring).
    apply Rmult_le_compat_l; [|lra]. apply Rle_mult_inv_pos; nra. }
  assert (X : Rabs (quad (lower (fbatch_cov l)) v - quad (batch_cov (map real3 l)) v) <= 3 * dl * vdot v v).
  { assert (SY : sym (batch_cov (map real3 l))) by (apply batch_cov_pd; rewrite map_length; lia).
    generalize (D AX AX) (D AY AX) (D AY AY) (D AZ AX) (D AZ AY) (D AZ AZ). clear D Q DL. revert SY.
    generalize (batch_cov (map real3 l)) as M. intros M SY. destruct M as [a11 a12 a13 a21 a22 a23 a31 a32 a33].
    unfold sym in SY. cbn in SY. injection SY as S1 S2 S3. subst.
    unfold lower. destruct v as [x y z]. cbn [entry m11 m21 m22 m31 m32 m33].
    generalize (Q2R (fbatch_cov l AX AX)) (Q2R (fbatch_cov l AY AX)) (Q2R (fbatch_cov l AY AY)) (Q2R (fbatch_cov l AZ AX)) (Q2R (fbatch_cov l AZ AY)) (Q2R (fbatch_cov l AZ AZ)).
    intros b11 b21 b22 b31 b32 b33 D1 D2 D3 D4 D5 D6.
    match goal with |- Rabs ?q <= _ =>
      replace q with ((b11 - a11) * (x * x) + (b22 - a22) * (y * y) + (b33 - a33) * (z * z) + 2 * ((b21 - a12) * (x * y)) + 2 * ((b31 - a13) * (x * z)) + 2 * ((b32 - a23) * (y * z)))
        by (unfold quad; mcomp; ring) end.
    assert (T : forall d u, Rabs d <= dl -> Rabs (d * u) <= dl * Rabs u) by (intros d u Hd; rewrite Rabs_mult; apply Rmult_le_compat_r; [apply Rabs_pos|exact Hd]).
    pose proof (T _ (x * x) D1) as T1. pose proof (T _ (x * y) D2) as T2. pose proof (T _ (y * y) D3) as T3.
    pose proof (T _ (x * z) D4) as T4. pose proof (T _ (y * z) D5) as T5. pose proof (T _ (z * z) D6) as T6.
    assert (dl0 : 0 <= dl) by (eapply Rle_trans; [apply Rabs_pos|exact D1]).
    assert (SQ : forall u, Rabs (u * u) = u * u) by (intro u; apply Rabs_pos_eq; nra).
    assert (MX : forall u w, 2 * Rabs (u * w) <= u * u + w * w).
    { clear. intros u w. pose proof (Rle_0_sqr (u + w)) as P1. pose proof (Rle_0_sqr (u - w)) as P2. unfold Rsqr in *. unfold Rabs. destruct (Rcase_abs _); lra. }
    rewrite SQ in T1, T3, T6. pose proof (MX x y) as M1. pose proof (MX x z) as M2. pose proof (MX y z) as M3.
    apply Rmult_le_compat_l with (r := dl) in M1; [|exact dl0]. apply Rmult_le_compat_l with (r := dl) in M2; [|exact dl0].
    apply Rmult_le_compat_l with (r := dl) in M3; [|exact dl0].
    apply Rabs_le_inv in T1, T2, T3, T4, T5, T6.
    replace (3 * dl * vdot (mkV x y z) (mkV x y z)) with (3 * dl * (x * x + y * y + z * z)) by (mcomp; ring).
    apply Rabs_le. lra. }
  assert (V0 : 0 < vdot v v).
  { destruct v as [x y z]. unfold vdot. cbn. destruct (Req_dec x 0) as [->|Nx]; [|nra]. destruct (Req_dec y 0) as [->|Ny]; [|nra].
    destruct (Req_dec z 0) as [->|Nz]; [exfalso; apply V; reflexivity|nra]. }
  apply Rabs_le_inv in X.
  assert (G : 3 * dl < (n - 1) / (n * n)).
  { apply Rle_lt_trans with (3 * / (4 * n)); [lra|]. apply Rmult_lt_reg_r with (4 * (n * n)); [nra|].
    replace (3 * / (4 * n) * (4 * (n * n))) with (3 * n) by (field; lra).
    replace ((n - 1) / (n * n) * (4 * (n * n))) with (4 * (n - 1)) by (field; lra). lra. }
  nra.
Qed.
