(** Proofs for C144. *)
From Coq Require Import Reals Qreals Lra List ZArith QArith Qabs Qminmax Bool Lia Psatz.
From Flocq Require Import Core.
From Verif Require Import Base VoxelModel FloatModel FloatIEEE FloatErr FloatProofs FloatOccModel FloatOccSpec.
Import ListNotations.
Open Scope R_scope.

Notation R32 := (RN 24 (-149)).
Definition clip (y : R) : R := Rmax (-1) (Rmin 1 y).

Lemma Q2R_1 : Q2R 1 = 1. Proof. unfold Q2R. cbn. lra. Qed.
Lemma Q2R_m1 : Q2R (-(1)) = -1. Proof. unfold Q2R. cbn. lra. Qed.
Lemma clip_range y : -1 <= clip y <= 1.
Proof. unfold clip, Rmax, Rmin. repeat destruct (Rle_dec _ _); lra. Qed.
Lemma clip_lip a b : Rabs (clip a - clip b) <= Rabs (a - b).
Proof. unfold clip, Rmax, Rmin. repeat destruct (Rle_dec _ _); unfold Rabs; repeat destruct (Rcase_abs _); lra. Qed.
Lemma clip_mono a b : a <= b -> clip a <= clip b.
Proof. intro H. unfold clip, Rmax, Rmin. repeat destruct (Rle_dec _ _); lra. Qed.
Lemma clip_id y : -1 <= y <= 1 -> clip y = y.
Proof. intro H. unfold clip, Rmax, Rmin. repeat destruct (Rle_dec _ _); lra. Qed.

Lemma add_R x d : Q2R (faddOccup x d) = clip (R32 (Q2R x + Q2R d)).
Proof.
  unfold faddOccup. rewrite <- Q2R_plus, <- f32_ieee. set (y := f32 (x + d)).
  destruct (Qlt_b 1 y) eqn:A.
  - apply Qlt_b_R in A. rewrite Q2R_1 in A. destruct (Qlt_b 1 (-(1))) eqn:B; [discriminate|].
    rewrite Q2R_1. unfold clip, Rmax, Rmin. repeat destruct (Rle_dec _ _); lra.
  - assert (A' : Q2R y <= 1).
    { apply Rnot_lt_le. intro H. rewrite <- Q2R_1 in H. apply Qlt_b_R in H. congruence. }
    destruct (Qlt_b y (-(1))) eqn:B.
    + apply Qlt_b_R in B. rewrite Q2R_m1 in *. unfold clip, Rmax, Rmin. repeat destruct (Rle_dec _ _); lra.
    + assert (B' : -1 <= Q2R y).
      { apply Rnot_lt_le. intro H. rewrite <- Q2R_m1 in H. apply Qlt_b_R in H. congruence. }
      symmetry. apply clip_id. lra.
Qed.

(** ** rounding *)
Lemma P24 : (0 < 24)%Z. Proof. lia. Qed.
Lemma r32_mono a b : a <= b -> R32 a <= R32 b.
Proof. intro H. apply round_le; [apply FLT_exp_valid; exact P24|apply valid_rnd_N|exact H]. Qed.
Lemma r32_Z z : (Z.abs z < 2 ^ 24)%Z -> R32 (IZR z) = IZR z.
Proof. intro H. pose proof (fixed32Z z H). exact H0. Qed.
Lemma r32_half v : Rabs v <= 1 -> Rabs (R32 v - v) <= B (-25).
Proof.
  intro A. destruct (Req_dec (Rabs v) 1) as [E|N].
  - assert (v = IZR 1 \/ v = IZR (-1)) as [->| ->].
    { unfold Rabs in E. destruct (Rcase_abs v); [right|left]; lra. }
    all: rewrite r32_Z by (cbn; lia); rewrite Rminus_diag_eq, Rabs_R0 by reflexivity; left; apply B_pos.
  - eapply Rle_trans; [apply error_le_half_ulp; apply FLT_exp_valid; exact P24|].
    assert (U : ulp radix2 (FLT_exp (-149) 24) v <= B (-24)).
    { destruct (Req_dec v 0) as [->|NZ].
      - rewrite ulp_FLT_0 by exact P24. apply B_le. lia.
      - rewrite ulp_neq_0 by exact NZ. unfold cexp, FLT_exp. apply B_le. apply Z.max_lub; [|lia].
        assert (mag radix2 v <= 0)%Z; [|lia]. apply mag_le_bpow; [exact NZ|]. rewrite B_0. lra. }
    replace (-24)%Z with (-25 + 1)%Z in U by lia. rewrite B_S in U. lra.
Qed.
Lemma in_range x : -1 <= R32 x <= 1 -> clip (R32 x) = R32 x.
Proof. apply clip_id. Qed.
Lemma r32_clip v : Rabs (clip (R32 v) - clip v) <= B (-25).
Proof.
  destruct (Rle_dec (Rabs v) 1) as [A|A].
  - eapply Rle_trans; [apply clip_lip|]. apply r32_half, A.
  - assert (E : clip (R32 v) = clip v).
    { destruct (Rle_dec 0 v) as [P|P].
      - rewrite Rabs_pos_eq in A by exact P. assert (1 <= R32 v) by (rewrite <- (r32_Z 1) by (cbn; lia); apply r32_mono; lra).
        unfold clip, Rmax, Rmin. repeat destruct (Rle_dec _ _); lra.
      - rewrite Rabs_left in A by lra. assert (R32 v <= -1) by (rewrite <- (r32_Z (-1)) by (cbn; lia); apply r32_mono; lra).
        unfold clip, Rmax, Rmin. repeat destruct (Rle_dec _ _); lra. }
    rewrite E, Rminus_diag_eq, Rabs_R0 by reflexivity. left. apply B_pos.
Qed.

(** ** one update *)
Definition near (d g : R) : Prop := Rabs (d - g) <= B (-23) \/ (2 <= d /\ 2 <= g) \/ (d <= -2 /\ g <= -2).
Lemma near_step x y d g : -1 <= x <= 1 -> -1 <= y <= 1 -> near d g ->
  Rabs (clip (R32 (x + d)) - clip (y + g)) <= Rabs (x - y) + (B (-23) + B (-25)).
Proof.
  intros X Y [H|[(D & G)|(D & G)]].
  - pose proof (r32_clip (x + d)) as E. pose proof (clip_lip (x + d) (y + g)) as L.
    pose proof (Rabs_triang (clip (R32 (x + d)) - clip (x + d)) (clip (x + d) - clip (y + g))) as T.
    pose proof (Rabs_triang (x - y) (d - g)) as T2.
    replace (x - y + (d - g)) with (x + d - (y + g)) in T2 by ring.
    replace (clip (R32 (x + d)) - clip (x + d) + (clip (x + d) - clip (y + g))) with (clip (R32 (x + d)) - clip (y + g)) in T by ring. lra.
  - assert (1 <= R32 (x + d)) by (rewrite <- (r32_Z 1) by (cbn; lia); apply r32_mono; lra).
    replace (clip (R32 (x + d))) with 1 by (unfold clip, Rmax, Rmin; repeat destruct (Rle_dec _ _); lra).
    replace (clip (y + g)) with 1 by (unfold clip, Rmax, Rmin; repeat destruct (Rle_dec _ _); lra).
    rewrite Rminus_diag_eq, Rabs_R0 by reflexivity. pose proof (Rabs_pos (x - y)). pose proof (B_pos (-23)). pose proof (B_pos (-25)). lra.
  - assert (R32 (x + d) <= -1) by (rewrite <- (r32_Z (-1)) by (cbn; lia); apply r32_mono; lra).
    replace (clip (R32 (x + d))) with (-1) by (unfold clip, Rmax, Rmin; repeat destruct (Rle_dec _ _); lra).
    replace (clip (y + g)) with (-1) by (unfold clip, Rmax, Rmin; repeat destruct (Rle_dec _ _); lra).
    rewrite Rminus_diag_eq, Rabs_R0 by reflexivity. pose proof (Rabs_pos (x - y)). pose proof (B_pos (-23)). pose proof (B_pos (-25)). lra.
Qed.
Lemma near_round v : near (R32 v) v.
Proof.
  destruct (Rle_dec (Rabs v) 2) as [A|A].
  - left. exact (err 24 (-149) P24 v 1 A ltac:(lia)).
  - right. destruct (Rle_dec 0 v) as [P|P].
    + left. rewrite Rabs_pos_eq in A by exact P. split; [|lra]. rewrite <- (r32_Z 2) by (cbn; lia). apply r32_mono. lra.
    + right. rewrite Rabs_left in A by lra. split; [|lra]. rewrite <- (r32_Z (-2)) by (cbn; lia). apply r32_mono. lra.
Qed.
(** ** what is added *)
Definition added (o : occ_op) : Q :=
  match o with
  | OBeam ev => f32 ev
  | OPass n => f32 (f32 (-(1#5)) * f32 (qn n))
  | OEnd => 1%Q
  | OPoints n => f32 (f32 (qn n) * f32 (405465108#1000000000))
  end.
Lemma foccup_added x o : foccup x o = faddOccup x (added o).
Proof. destruct o; reflexivity. Qed.
Lemma Qabs_R q : Q2R (Qabs q) = Rabs (Q2R q).
Proof.
  apply (Qabs_case q (fun z => Q2R z = Rabs (Q2R q))); intro H; apply Qle_Rle in H; rewrite RMicromega.Q2R_0 in H.
  - rewrite Rabs_pos_eq by exact H. reflexivity.
  - rewrite Rabs_left1 by exact H. apply Q2R_opp.
Qed.
Lemma B23 : B (-23) = Q2R (1 # 8388608).
Proof. unfold Q2R. cbn. lra. Qed.
Lemma B25 : B (-25) = Q2R (1 # 33554432).
Proof. unfold Q2R. cbn. lra. Qed.
Lemma q_near d g : (Qabs (d - g) <= 1 # 8388608)%Q -> near (Q2R d) (Q2R g).
Proof. intro H. left. apply Qle_Rle in H. rewrite Qabs_R, Q2R_minus, <- B23 in H. exact H. Qed.
Lemma qn_R n : Q2R (qn n) = INR n.
Proof. unfold qn, Q2R. cbn. rewrite Rinv_1, Rmult_1_r. symmetry. apply INR_IZR_INZ. Qed.
Lemma float_pass : Q2R (f32 (-(1#5))) <= -19/100.
Proof.
  assert (H : (f32 (-(1#5)) <= -(19#100))%Q) by (vm_compute; discriminate). apply Qle_Rle in H.
  replace (Q2R (-(19#100))) with (-19/100) in H by (unfold Q2R; cbn; lra). exact H.
Qed.
Lemma float_points : 40/100 <= Q2R (f32 (405465108#1000000000)).
Proof.
  assert (H : ((40#100) <= f32 (405465108#1000000000))%Q) by (vm_compute; discriminate). apply Qle_Rle in H.
  replace (Q2R (40#100)) with (40/100) in H by (unfold Q2R; cbn; lra). exact H.
Qed.
Lemma float_count n m : (n <= m)%nat -> (Z.of_nat n < 2 ^ 24)%Z -> INR n <= Q2R (f32 (qn m)).
Proof.
  intros H L. rewrite f32_ieee, qn_R. rewrite INR_IZR_INZ, <- (r32_Z (Z.of_nat n)) by lia. apply r32_mono.
  rewrite <- INR_IZR_INZ. apply le_INR, H.
Qed.
Lemma near_gain o : near (Q2R (added o)) (Q2R (gain o)).
Proof.
  destruct o as [ev|n| |n].
  - cbn [added gain]. rewrite f32_ieee. apply near_round.
  - destruct (le_lt_dec 11 n) as [L|L].
    + right; right. cbn [added gain]. pose proof (float_count 11 n L ltac:(cbn; lia)) as C. pose proof float_pass as P.
      replace (INR 11) with 11 in C by (cbn; lra). split.
      * rewrite f32_ieee, Q2R_mult. rewrite <- (r32_Z (-2)) by (cbn; lia). apply r32_mono. nra.
      * apply le_INR in L. replace (INR 11) with 11 in L by (cbn; lra). rewrite Q2R_opp, Q2R_div by (intro; discriminate).
        change (inject_Z (Z.of_nat n)) with (qn n). rewrite qn_R. replace (Q2R 5) with 5 by (unfold Q2R; cbn; lra). lra.
    + apply q_near. do 11 (destruct n as [|n]; [apply Qle_bool_iff; vm_compute; reflexivity|]). lia.
  - apply q_near. apply Qle_bool_iff. vm_compute. reflexivity.
  - destruct (le_lt_dec 5 n) as [L|L].
    + right; left. cbn [added gain]. pose proof (float_count 5 n L ltac:(cbn; lia)) as C. pose proof float_points as P.
      replace (INR 5) with 5 in C by (cbn; lra). split.
      * rewrite f32_ieee, Q2R_mult. rewrite <- (r32_Z 2) by (cbn; lia). apply r32_mono. nra.
      * apply le_INR in L. replace (INR 5) with 5 in L by (cbn; lra). rewrite Q2R_mult.
        change (inject_Z (Z.of_nat n)) with (qn n). rewrite qn_R.
        replace (Q2R (405465108#1000000000)) with (405465108/1000000000) by (unfold Q2R; cbn; lra). lra.
    + apply q_near. do 5 (destruct n as [|n]; [apply Qle_bool_iff; vm_compute; reflexivity|]). lia.
Qed.

(** ** the history *)
Lemma snoc_f l o : foccups (l ++ [o]) = faddOccup (foccups l) (added o).
Proof. unfold foccups. rewrite fold_left_app. cbn. apply foccup_added. Qed.
Lemma max_R a b : Q2R (Qmax a b) = Rmax (Q2R a) (Q2R b).
Proof.
  apply (Q.max_case_strong a b (fun z => Q2R z = _)); [intros x y E H; rewrite <- (Qeq_eqR _ _ E); exact H| |]; intro H; apply Qle_Rle in H.
  - symmetry. apply Rmax_left, H.
  - symmetry. apply Rmax_right, H.
Qed.
Lemma min_R a b : Q2R (Qmin a b) = Rmin (Q2R a) (Q2R b).
Proof.
  apply (Q.min_case_strong a b (fun z => Q2R z = _)); [intros x y E H; rewrite <- (Qeq_eqR _ _ E); exact H| |]; intro H; apply Qle_Rle in H.
  - symmetry. apply Rmin_left, H.
  - symmetry. apply Rmin_right, H.
Qed.
Lemma snoc_o l o : Q2R (occupancy (l ++ [o])) = clip (Q2R (occupancy l) + Q2R (gain o)).
Proof. unfold occupancy. rewrite fold_left_app. cbn. rewrite max_R, min_R, Q2R_plus, Q2R_1, Q2R_m1. reflexivity. Qed.
Lemma zero_in : -1 <= Q2R 0 <= 1.
Proof. rewrite RMicromega.Q2R_0. lra. Qed.
Lemma range_f l : -1 <= Q2R (foccups l) <= 1.
Proof.
  induction l as [|o l _] using rev_ind; [apply zero_in|]. rewrite snoc_f, add_R. apply clip_range.
Qed.
Lemma range_o l : -1 <= Q2R (occupancy l) <= 1.
Proof. induction l as [|o l _] using rev_ind; [apply zero_in|]. rewrite snoc_o. apply clip_range. Qed.
Lemma float_f l : R32 (Q2R (foccups l)) = Q2R (foccups l).
Proof.
  induction l as [|o l _] using rev_ind.
  - change (foccups []) with 0%Q. rewrite RMicromega.Q2R_0. apply (r32_Z 0). cbn. lia.
  - rewrite snoc_f, add_R. set (v := Q2R (foccups l) + Q2R (added o)). unfold clip, Rmax, Rmin.
    destruct (Rle_dec 1 (R32 v)); destruct (Rle_dec (-1) _).
    + apply (r32_Z 1). cbn. lia.
    + lra.
    + apply round_generic; [apply valid_rnd_N|]. apply generic_format_round; [apply FLT_exp_valid; exact P24|apply valid_rnd_N].
    + apply (r32_Z (-1)). cbn. lia.
Qed.
Lemma error_f l : Rabs (Q2R (foccups l) - Q2R (occupancy l)) <= INR (length l) * (B (-23) + B (-25)).
Proof.
  induction l as [|o l IH] using rev_ind.
  - change (foccups []) with 0%Q. change (occupancy []) with 0%Q. rewrite Rminus_diag_eq, Rabs_R0 by reflexivity. cbn. lra.
  - rewrite snoc_f, snoc_o, add_R, app_length, Nat.add_1_r, S_INR.
    pose proof (near_step _ _ _ _ (range_f l) (range_o l) (near_gain o)). lra.
Qed.
Lemma less_f l o : Q2R (added o) <= 0 -> Q2R (foccups (l ++ [o])) <= Q2R (foccups l).
Proof.
  intro H. rewrite snoc_f, add_R. rewrite <- (clip_id (Q2R (foccups l))) at 2 by apply range_f.
  apply clip_mono. rewrite <- (float_f l) at 2. apply r32_mono. lra.
Qed.
Lemma more_f l o : 0 <= Q2R (added o) -> Q2R (foccups l) <= Q2R (foccups (l ++ [o])).
Proof.
  intro H. rewrite snoc_f, add_R. rewrite <- (clip_id (Q2R (foccups l))) at 1 by apply range_f.
  apply clip_mono. rewrite <- (float_f l) at 1. apply r32_mono. lra.
Qed.
Lemma added_sign o : (Q2R (gain o) <= 0 -> Q2R (added o) <= 0) /\ (0 <= Q2R (gain o) -> 0 <= Q2R (added o)).
Proof.
  assert (Z0 : R32 0 = 0) by (apply (r32_Z 0); cbn; lia).
  assert (C : forall n, 0 <= Q2R (f32 (qn n))).
  { intro n. exact (float_count 0 n ltac:(lia) ltac:(cbn; lia)). }
  destruct o as [ev|n| |n]; cbn [added gain].
  - rewrite f32_ieee. split; intro H; rewrite <- Z0; apply r32_mono; exact H.
  - pose proof float_pass as P. split; intro H.
    + rewrite f32_ieee, Q2R_mult, <- Z0. apply r32_mono. specialize (C n). nra.
    + destruct n as [|n]; [replace (Q2R _) with (Q2R 0); [rewrite RMicromega.Q2R_0; lra|]; apply Qeq_eqR; vm_compute; reflexivity|].
      exfalso. rewrite Q2R_opp, Q2R_div in H by (intro; discriminate). change (inject_Z (Z.of_nat (S n))) with (qn (S n)) in H.
      rewrite qn_R in H. replace (Q2R 5) with 5 in H by (unfold Q2R; cbn; lra). rewrite S_INR in H. pose proof (pos_INR n). lra.
  - rewrite Q2R_1. lra.
  - pose proof float_points as P. split; intro H.
    + destruct n as [|n]; [replace (Q2R _) with (Q2R 0); [rewrite RMicromega.Q2R_0; lra|]; apply Qeq_eqR; vm_compute; reflexivity|].
      exfalso. rewrite Q2R_mult in H. change (inject_Z (Z.of_nat (S n))) with (qn (S n)) in H.
      rewrite qn_R, S_INR in H. pose proof (pos_INR n).
      replace (Q2R (405465108#1000000000)) with (405465108/1000000000) in H by (unfold Q2R; cbn; lra). lra.
    + rewrite f32_ieee, Q2R_mult, <- Z0. apply r32_mono. specialize (C n). nra.
Qed.

(** a step down of at least [s], but for the rounding *)
Lemma down l o s : Q2R (added o) <= - s -> B (-25) <= s ->
  Q2R (foccups (l ++ [o])) <= Rmax (-1) (Q2R (foccups l) - (s - B (-25))).
Proof.
  intros H S. rewrite snoc_f, add_R. set (x := Q2R (foccups l)). pose proof (range_f l) as R. fold x in R.
  pose proof (r32_clip (x + Q2R (added o))) as E. apply Rabs_le_inv in E.
  pose proof (B_pos (-25)).
  set (y := clip (R32 (x + Q2R (added o)))) in *.
  destruct (Rle_dec (x + Q2R (added o)) (-1)) as [L|L].
  - assert (y = -1). { unfold y. assert (R32 (x + Q2R (added o)) <= -1) by (rewrite <- (r32_Z (-1)) by (cbn; lia); apply r32_mono; lra).
      unfold clip, Rmax, Rmin. repeat destruct (Rle_dec _ _); lra. }
    unfold Rmax. destruct (Rle_dec _ _); lra.
  - assert (clip (x + Q2R (added o)) <= x + Q2R (added o)) by (unfold clip, Rmax, Rmin; repeat destruct (Rle_dec _ _); lra).
    eapply Rle_trans; [|apply Rmax_r]. lra.
Qed.
Lemma up_ l o s : s <= Q2R (added o) -> B (-25) <= s ->
  Rmin 1 (Q2R (foccups l) + (s - B (-25))) <= Q2R (foccups (l ++ [o])).
Proof.
  intros H S. rewrite snoc_f, add_R. set (x := Q2R (foccups l)). pose proof (range_f l) as R. fold x in R.
  pose proof (r32_clip (x + Q2R (added o))) as E. apply Rabs_le_inv in E.
  pose proof (B_pos (-25)).
  set (y := clip (R32 (x + Q2R (added o)))) in *.
  destruct (Rle_dec 1 (x + Q2R (added o))) as [L|L].
  - assert (y = 1). { unfold y. assert (1 <= R32 (x + Q2R (added o))) by (rewrite <- (r32_Z 1) by (cbn; lia); apply r32_mono; lra).
      unfold clip, Rmax, Rmin. repeat destruct (Rle_dec _ _); lra. }
    unfold Rmin. destruct (Rle_dec _ _); lra.
  - assert (x + Q2R (added o) <= clip (x + Q2R (added o))) by (unfold clip, Rmax, Rmin; repeat destruct (Rle_dec _ _); lra).
    eapply Rle_trans; [apply Rmin_r|]. lra.
Qed.
Lemma downs l t s : B (-25) <= s -> Forall (fun o => Q2R (added o) <= - s) t ->
  Q2R (foccups (l ++ t)) <= Rmax (-1) (Q2R (foccups l) - INR (length t) * (s - B (-25))).
Proof.
  intros S F. induction t as [|o t IH] using rev_ind.
  - rewrite app_nil_r. cbn. pose proof (range_f l). unfold Rmax. destruct (Rle_dec _ _); lra.
  - apply Forall_app in F as [F G]. specialize (IH F). inversion G; subst. rewrite app_assoc, app_length, Nat.add_1_r, S_INR.
    pose proof (down (l ++ t) o s H1 S) as D. unfold Rmax in *. repeat destruct (Rle_dec _ _); lra.
Qed.
Lemma ups l t s : B (-25) <= s -> Forall (fun o => s <= Q2R (added o)) t ->
  Rmin 1 (Q2R (foccups l) + INR (length t) * (s - B (-25))) <= Q2R (foccups (l ++ t)).
Proof.
  intros S F. induction t as [|o t IH] using rev_ind.
  - rewrite app_nil_r. cbn. pose proof (range_f l). unfold Rmin. destruct (Rle_dec _ _); lra.
  - apply Forall_app in F as [F G]. specialize (IH F). inversion G; subst. rewrite app_assoc, app_length, Nat.add_1_r, S_INR.
    pose proof (up_ (l ++ t) o s H1 S) as D. unfold Rmin in *. repeat destruct (Rle_dec _ _); lra.
Qed.
