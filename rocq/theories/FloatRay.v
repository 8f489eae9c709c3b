(** Proofs: ray tracing with rounding. *)
From Coq Require Import Reals Qreals Lra List ZArith QArith Qabs Qround Qminmax Bool Lia Psatz Arith NArith.
From Flocq Require Import Core.
From Verif Require Import Base QLemmas VoxelModel VoxelSpec VoxelProofs VoxelRay FloatModel FloatSpec FloatIEEE FloatErr FloatProofs FloatRayModel.
Import ListNotations.
Open Scope R_scope.
Set Default Proof Using "Type".

Notation RD := (RN 53 (-1074)).

Lemma q2r_max a b : Q2R (Qmax a b) = Rmax (Q2R a) (Q2R b).
Proof.
  destruct (Q.max_spec a b) as [[L ->]|[L ->]].
  - symmetry. apply Rmax_right. apply Rlt_le, Qlt_Rlt, L.
  - symmetry. apply Rmax_left. apply Qle_Rle, L.
Qed.
Lemma max_err a b a' b' E : Rabs (a' - a) <= E -> Rabs (b' - b) <= E -> Rabs (Rmax a' b' - Rmax a b) <= E.
Proof.
  intros A D. apply Rabs_le_inv in A, D. apply Rabs_le. unfold Rmax.
  destruct (Rle_dec a' b'), (Rle_dec a b); lra.
Qed.

Section Err.
Variables (e n : Z).
Hypothesis EE : (-90 <= e <= 90)%Z.
Hypothesis NN : (0 <= n <= 17)%Z.
Notation u := (B (n + e - 52)).

Lemma diff_err d : Rabs d <= B (n + 1 + e) -> Rabs (RD d - d) <= u.
Proof using EE NN.
  intro A. pose proof (err 53 (-1074) eq_refl d (n + 1 + e) A ltac:(lia)) as H.
  replace (n + 1 + e - 53)%Z with (n + e - 52)%Z in H by lia. exact H.
Qed.
Lemma axis_err d : Rabs d <= B (n + 1 + e) -> Rabs (RD (Rabs (RD d) / B e) - Rabs d / B e) <= B (n - 50).
Proof using EE NN.
  intro A. pose proof (diff_err d A) as D1. pose proof (B_pos e) as BP.
  assert (U : u = B (n - 52) * B e) by (rewrite <- bpow_plus; f_equal; lia).
  assert (A1 : Rabs (Rabs (RD d) - Rabs d) <= u) by (eapply Rle_trans; [apply Rabs_triang_inv2|exact D1]).
  assert (A2 : Rabs (Rabs (RD d) / B e - Rabs d / B e) <= B (n - 52)).
  { replace (Rabs (RD d) / B e - Rabs d / B e) with ((Rabs (RD d) - Rabs d) / B e) by (field; lra).
    unfold Rdiv. rewrite Rabs_mult, (Rabs_right (/ B e)) by (apply Rle_ge, Rlt_le, Rinv_0_lt_compat, BP).
    apply (Rmult_le_reg_r (B e)); [exact BP|]. rewrite Rmult_assoc, Rinv_l, Rmult_1_r by lra. rewrite <- U. exact A1. }
  assert (A3 : Rabs (Rabs (RD d) / B e) <= B (n + 2)).
  { apply div_abs. rewrite Rabs_Rabsolu. assert (L : u <= B (n + 1 + e)) by (apply B_le; lia).
    replace (n + 2 + e)%Z with ((n + 1 + e) + 1)%Z by lia. rewrite B_S.
    pose proof (Rabs_triang (RD d - d) d) as T. replace (RD d - d + d) with (RD d) in T by ring. lra. }
  pose proof (err 53 (-1074) eq_refl _ (n + 2) A3 ltac:(lia)) as A4.
  replace (n + 2 - 53)%Z with ((n - 52) + 1)%Z in A4 by lia. rewrite B_S in A4.
  replace (n - 50)%Z with ((n - 52) + 1 + 1)%Z by lia. rewrite !B_S. pose proof (B_pos (n - 52)).
  apply Rabs_le_inv in A2, A4. apply Rabs_le. lra.
Qed.
Lemma delta_err d len flen : Rabs d <= B (n + 1 + e) -> 1 <= len -> Rabs d <= len * B e ->
  Rabs (flen - len) <= B (n - 50) -> 1 <= flen ->
  Rabs (RD (RD (RD d / flen) * / 2) - d / len * / 2) <= B (n + e - 49).
Proof using EE NN.
  intros A L1 DL LE F1. pose proof (diff_err d A) as D1. pose proof (B_pos e) as BP.
  set (q := RD d / flen).
  assert (P1 : Rabs (q - d / len) <= 5 * u).
  { replace (q - d / len) with (((RD d - d) + d / len * (len - flen)) * / flen) by (unfold q; field; lra).
    rewrite Rabs_mult. rewrite (Rabs_right (/ flen)) by (apply Rle_ge, Rlt_le, Rinv_0_lt_compat; lra).
    assert (I1 : / flen <= 1) by (rewrite <- Rinv_1; apply Rinv_le_contravar; lra).
    assert (I0 : 0 <= / flen) by (apply Rlt_le, Rinv_0_lt_compat; lra).
    assert (S1 : Rabs (d / len) <= B e).
    { unfold Rdiv. rewrite Rabs_mult, (Rabs_right (/ len)) by (apply Rle_ge, Rlt_le, Rinv_0_lt_compat; lra).
      apply (Rmult_le_reg_r len); [lra|]. rewrite Rmult_assoc, Rinv_l, Rmult_1_r by lra. lra. }
    assert (S2 : Rabs (d / len * (len - flen)) <= 4 * u).
    { rewrite Rabs_mult. rewrite (Rabs_minus_sym len flen).
      replace (4 * u) with (B e * B (n - 50)).
      - apply Rmult_le_compat; try apply Rabs_pos; assumption.
      - rewrite <- bpow_plus. replace (e + (n - 50))%Z with ((n + e - 52) + 1 + 1)%Z by lia. rewrite !B_S. ring. }
    pose proof (Rabs_triang (RD d - d) (d / len * (len - flen))) as T.
    assert (X : Rabs (RD d - d + d / len * (len - flen)) <= 5 * u) by lra.
    assert (Y : 0 <= Rabs (RD d - d + d / len * (len - flen))) by apply Rabs_pos. nra. }
  assert (S1 : Rabs (d / len) <= B e).
  { unfold Rdiv. rewrite Rabs_mult, (Rabs_right (/ len)) by (apply Rle_ge, Rlt_le, Rinv_0_lt_compat; lra).
    apply (Rmult_le_reg_r len); [lra|]. rewrite Rmult_assoc, Rinv_l, Rmult_1_r by lra. lra. }
  assert (US : 8 * u <= B e).
  { replace (8 * u) with (B (n + e - 49)); [apply B_le; lia|].
    replace (n + e - 49)%Z with ((n + e - 52) + 1 + 1 + 1)%Z by lia. rewrite !B_S. ring. }
  assert (UE : B (e - 52) <= u) by (apply B_le; lia).
  pose proof (B_pos (n + e - 52)) as UP.
  assert (P2 : Rabs q <= B (e + 1)).
  { rewrite B_S. apply Rabs_le_inv in P1, S1. apply Rabs_le. lra. }
  pose proof (err 53 (-1074) eq_refl q (e + 1) P2 ltac:(lia)) as P3.
  replace (e + 1 - 53)%Z with (e - 52)%Z in P3 by lia.
  assert (P4 : Rabs (RD q * / 2) <= B (e + 1)).
  { rewrite B_S in *. apply Rabs_le_inv in P2, P3. apply Rabs_le. lra. }
  pose proof (err 53 (-1074) eq_refl _ (e + 1) P4 ltac:(lia)) as P5.
  replace (e + 1 - 53)%Z with (e - 52)%Z in P5 by lia.
  replace (n + e - 49)%Z with ((n + e - 52) + 1 + 1 + 1)%Z by lia. rewrite !B_S.
  apply Rabs_le_inv in P1, P3, P5. apply Rabs_le. lra.
Qed.
Lemma sum_err x fx d fd E : Rabs (x + d) <= B (n + e) -> Rabs (fx - x) <= E -> E <= B (n + e - 2) ->
  Rabs (fd - d) <= B (n + e - 49) -> Rabs (RD (fx + fd) - (x + d)) <= E + B (n + e - 48).
Proof using EE NN.
  intros A X EB D. assert (L : B (n + e - 49) <= B (n + e - 2)) by (apply B_le; lia).
  assert (F : Rabs (fx + fd) <= B (n + e + 1)).
  { rewrite B_S. replace (n + e)%Z with ((n + e - 2) + 1 + 1)%Z in A |- * by lia. rewrite !B_S in *.
    pose proof (B_pos (n + e - 2)). apply Rabs_le_inv in A, X, D. apply Rabs_le. lra. }
  pose proof (err 53 (-1074) eq_refl _ (n + e + 1) F ltac:(lia)) as R.
  replace (n + e + 1 - 53)%Z with (n + e - 52)%Z in R by lia.
  assert (L2 : u <= B (n + e - 49)) by (apply B_le; lia).
  replace (n + e - 48)%Z with ((n + e - 49) + 1)%Z by lia. rewrite B_S.
  apply Rabs_le_inv in X, D, R. apply Rabs_le. lra.
Qed.
End Err.

Section Ray.
Context {C : Type}.
Variable dflt : C.
Notation grid := (vgrid C).
Variables (e n : Z).
Hypothesis EE : (-90 <= e <= 90)%Z.
Hypothesis NN : (0 <= n <= 17)%Z.
Variable g : grid.
Hypothesis CS : (cell_size g == two e)%Q.
Notation D := (B (2 * n + e - 46)).

(** A position and what it is after rounding. *)
Definition near1 (E : R) (x fx : Q) : Prop := Rabs (Q2R fx - Q2R x) <= E.
Definition off1 (x : Q) : Prop :=
  forall z : Z, (two (2 * n - 45) * cell_size g < Qabs (x - (inject_Z z + (1#2)) * cell_size g))%Q.
Definition ok1 (x : Q) : Prop := Rabs (Q2R x) <= B (n + e).

Lemma off1_R x z : off1 x -> 2 * D < Rabs ((IZR z + / 2) * B e - Q2R x).
Proof using CS.
  intro O. pose proof (off_line e g (two (2 * n - 45)) x z CS O) as H. rewrite q2r_two, <- bpow_plus in H.
  replace (2 * n - 45 + e)%Z with ((2 * n + e - 46) + 1)%Z in H by lia. rewrite B_S in H. exact H.
Qed.
Lemma le_same x fx l l' z : off1 x -> near1 D x fx -> (l' == l)%Q -> Q2R l = (IZR z + / 2) * B e ->
  Qle_bool l' fx = Qle_bool l x /\ Qle_bool fx l' = Qle_bool x l.
Proof using CS.
  intros O N LL LR. pose proof (off1_R x z O) as OL. rewrite <- LR in OL. apply Rabs_le_inv in N. pose proof (B_pos (2 * n + e - 46)) as DP.
  apply Qeq_eqR in LL. destruct (Rle_or_lt 0 (Q2R l - Q2R x)) as [P|P].
  - rewrite Rabs_right in OL by lra. split; apply eq_true_iff_eq; rewrite !Qle_bool_iff; split; intro H; apply Qle_Rle in H; try (apply Rle_Qle); lra.
  - rewrite Rabs_left in OL by lra. split; apply eq_true_iff_eq; rewrite !Qle_bool_iff; split; intro H; apply Qle_Rle in H; try (apply Rle_Qle); lra.
Qed.
Lemma DB : D <= B (n + e - 2).
Proof using NN. apply B_le. lia. Qed.
Lemma coord_same x fx k : off1 x -> near1 D x fx -> ok1 x -> (Z.of_nat k <= 2 ^ n)%Z ->
  fcoord g fx k = coord g x k.
Proof using EE NN CS.
  intros O N K KB. rewrite (coord_exact e (n + 1) EE ltac:(lia) g fx k CS).
  - rewrite !(coord_R e g) by exact CS. apply (floor_same (B (2 * n - 45))).
    + rewrite <- q2r_two. apply (off_coord e g); [exact CS|exact O].
    + unfold esq. pose proof (B_pos e) as BP.
      replace (_ - _) with ((Q2R fx - Q2R x) / B e) by (field; lra).
      unfold near1 in N. unfold Rdiv. rewrite Rabs_mult, (Rabs_right (/ B e)) by (apply Rle_ge, Rlt_le, Rinv_0_lt_compat, BP).
      apply (Rmult_le_reg_r (B e)); [exact BP|]. rewrite Rmult_assoc, Rinv_l, Rmult_1_r, <- bpow_plus by lra.
      eapply Rle_trans; [exact N|]. apply B_le. lia.
  - rewrite Z.pow_add_r by lia. change (2 ^ 1)%Z with 2%Z. lia.
  - apply Rle_Qle. rewrite q2r_abs, Q2R_mult, q2r_two, (Qeq_eqR _ _ CS), q2r_two, <- bpow_plus.
    replace (n + 1 + e)%Z with (n + e + 1)%Z by lia. rewrite B_S. unfold ok1, near1 in *. pose proof DB.
    assert (B (n + e - 2) <= B (n + e)) by (apply B_le; lia). apply Rabs_le_inv in N, K. apply Rabs_le. lra.
  - intro z. apply Rlt_Qlt. rewrite Q2R_mult, q2r_abs, Q2R_minus, Q2R_mult, Q2R_plus, q2r_Z, (Qeq_eqR _ _ CS), !q2r_two, <- bpow_plus.
    assert (H : Q2R (1#2) = / 2) by (unfold Q2R; cbn; lra). rewrite H. pose proof (off1_R x z O) as OL.
    assert (L : B (n + 1 - 48 + e) <= D) by (apply B_le; lia). unfold near1 in N. rewrite Rabs_minus_sym.
    set (l := (IZR z + / 2) * B e) in *. apply Rabs_le_inv in N. destruct (Rle_or_lt 0 (l - Q2R x)) as [P|P].
    + rewrite Rabs_right in OL by lra. rewrite Rabs_right by lra. lra.
    + rewrite Rabs_left in OL by lra. rewrite Rabs_left by lra. lra.
Qed.

Lemma off1_opp x : off1 x -> off1 (- x).
Proof. intro O. unfold off1. apply off_opp. exact O. Qed.
Lemma near1_opp E x fx : near1 E x fx -> near1 E (- x) (- fx).
Proof. unfold near1. rewrite !Q2R_opp. replace (- Q2R fx - - Q2R x) with (- (Q2R fx - Q2R x)) by ring. rewrite Rabs_Ropp. auto. Qed.
Lemma ok1_opp x : ok1 x -> ok1 (- x).
Proof. unfold ok1. rewrite Q2R_opp, Rabs_Ropp. auto. Qed.

Definition window_ok : Prop := (Z.of_nat (w_left g) <= 2 ^ n /\ Z.of_nat (w_right g) <= 2 ^ n)%Z /\
   (Z.of_nat (h_up g) <= 2 ^ n /\ Z.of_nat (h_down g) <= 2 ^ n)%Z.
Hypothesis WB : window_ok.

Lemma index_same p fp : off1 (fst p) -> off1 (snd p) -> near1 D (fst p) (fst fp) -> near1 D (snd p) (snd fp) ->
  ok1 (fst p) -> ok1 (snd p) -> fcalcIndex g fp = calcIndex g p.
Proof using EE NN CS WB.
  intros OX OY NX NY KX KY. destruct WB as ((L & R) & (U & DD)). unfold fcalcIndex, calcIndex. rewrite fcalc_eq, calc_eq.
  rewrite (coord_same (fst p) (fst fp)) by assumption.
  rewrite (coord_same (- snd p) (- snd fp)); auto using off1_opp, near1_opp, ok1_opp.
Qed.
Lemma leaves_same p fp : off1 (fst p) -> off1 (snd p) -> near1 D (fst p) (fst fp) -> near1 D (snd p) (snd fp) ->
  Qle_bool (fmaxx g) (fst fp) || Qle_bool (fst fp) (fminx g) || (Qle_bool (fmaxy g) (snd fp) || Qle_bool (snd fp) (fminy g)) =
  (Qle_bool (maxx g) (fst p) || Qle_bool (fst p) (minx g) || (Qle_bool (maxy g) (snd p) || Qle_bool (snd p) (miny g))).
Proof using EE NN CS WB.
  intros OX OY NX NY. destruct WB as ((L & R) & (U & DD)).
  assert (N18 : (0 <= n <= 18)%Z) by lia.
  f_equal; f_equal.
  - apply (le_same _ _ _ _ (Z.of_nat (w_right g)) OX NX); [apply (high32 e n EE N18); assumption|apply hi_R; exact CS].
  - apply (le_same _ _ _ _ (- Z.of_nat (w_left g) - 1) OX NX); [apply (low64 e n EE N18); assumption|apply lo_R; exact CS].
  - apply (le_same _ _ _ _ (Z.of_nat (h_up g)) OY NY); [apply (high32 e n EE N18); assumption|apply hi_R; exact CS].
  - apply (le_same _ _ _ _ (- Z.of_nat (h_down g) - 1) OY NY); [apply (low64 e n EE N18); assumption|apply lo_R; exact CS].
Qed.

(** *** the loop *)
Variables s ed : point.
Variable fdelta : point.
Notation delta := (ray_delta g s ed).
Variable N : nat.
Hypothesis ND : INR N <= B (n + 2).
Hypothesis DX : near1 (B (n + e - 49)) (fst delta) (fst fdelta).
Hypothesis DY : near1 (B (n + e - 49)) (snd delta) (snd fdelta).
Hypothesis SB : forall k, (k <= N)%nat -> ok1 (fst (samp delta s k)) /\ ok1 (snd (samp delta s k)).
Hypothesis SO : forall k, (k <= N)%nat -> (forall i, (0 < i < k)%nat -> in_strict g (samp delta s i) = true) ->
  off1 (fst (samp delta s k)) /\ off1 (snd (samp delta s k)).

Definition rel (k : nat) (st fs : ray_state (C:=C)) : Prop :=
  r_cells fs = r_cells st /\ r_res fs = r_res st /\ r_old fs = r_old st /\ r_cur fs = r_cur st /\
  r_p st = samp delta s k /\
  near1 (INR k * B (n + e - 48)) (fst (r_p st)) (fst (r_p fs)) /\ near1 (INR k * B (n + e - 48)) (snd (r_p st)) (snd (r_p fs)) /\
  forall i, (0 < i <= k)%nat -> in_strict g (samp delta s i) = true.
Definition alike_flow (a b : flow (ray_state (C:=C))) : Prop :=
  match a, b with
  | Next x, Next y | Break x, Break y => r_cells y = r_cells x /\ r_res y = r_res x
  | Fail, Fail => True
  | _, _ => False
  end.
Lemma within_D k : (k <= N)%nat -> INR k * B (n + e - 48) <= D.
Proof using ND.
  clear SB SO. intro K. apply le_INR in K. replace (2 * n + e - 46)%Z with ((n + 2) + (n + e - 48))%Z by lia. rewrite (bpow_plus radix2 (n + 2)).
  apply Rmult_le_compat_r; [apply bpow_ge_0|]. lra.
Qed.
Lemma near_weak E E' x fx : E <= E' -> near1 E x fx -> near1 E' x fx.
Proof. unfold near1. intros. lra. Qed.

Lemma step_same k st fs : (S k <= N)%nat -> rel k st fs ->
  match rayStep dflt g delta st, frayStep dflt g fdelta fs with
  | Next a, Next b => rel (S k) a b
  | Break a, Break b => r_cells b = r_cells a /\ r_res b = r_res a
  | Fail, Fail => True
  | _, _ => False
  end.
Proof using EE NN CS WB ND DX DY SB SO.
  intros K (E1 & E2 & E3 & E4 & EP & NX & NY & IN). unfold rayStep, frayStep. rewrite E1, E2, E3, E4.
  match goal with |- match (match ?x with _ => _ end) with _ => _ end => destruct x as [[l out]| |] end; [|exact I|exact I].
  set (p := (fst (r_p st) + fst delta, snd (r_p st) + snd delta)%Q).
  set (fp := (f64 (fst (r_p fs) + fst fdelta), f64 (snd (r_p fs) + snd fdelta))).
  assert (PS : p = samp delta s (S k)) by (unfold p; rewrite EP; reflexivity).
  destruct (SB (S k) K) as [KX KY]. rewrite <- PS in KX, KY.
  destruct (SO (S k) K) as [OX OY]. { intros i I. apply IN. lia. }
  rewrite <- PS in OX, OY.
  assert (EB : INR k * B (n + e - 48) <= B (n + e - 2)) by (eapply Rle_trans; [apply within_D; lia|apply DB]).
  assert (N1 : near1 (INR (S k) * B (n + e - 48)) (fst p) (fst fp)).
  { unfold near1, p, fp. cbn [fst]. rewrite f64_ieee, !Q2R_plus, S_INR. rewrite Rmult_plus_distr_r, Rmult_1_l.
    unfold ok1, p in KX. cbn [fst] in KX. rewrite Q2R_plus in KX. apply (sum_err e n EE NN); assumption. }
  assert (N2 : near1 (INR (S k) * B (n + e - 48)) (snd p) (snd fp)).
  { unfold near1, p, fp. cbn [snd]. rewrite f64_ieee, !Q2R_plus, S_INR. rewrite Rmult_plus_distr_r, Rmult_1_l.
    unfold ok1, p in KY. cbn [snd] in KY. rewrite Q2R_plus in KY. apply (sum_err e n EE NN); assumption. }
  assert (M1 := near_weak _ _ _ _ (within_D (S k) K) N1). assert (M2 := near_weak _ _ _ _ (within_D (S k) K) N2).
  rewrite (leaves_same p fp OX OY M1 M2).
  destruct (Qle_bool (maxx g) (fst p) || Qle_bool (fst p) (minx g) || (Qle_bool (maxy g) (snd p) || Qle_bool (snd p) (miny g))) eqn:LV.
  { split; reflexivity. }
  rewrite (index_same p fp OX OY M1 M2 KX KY). destruct (calcIndex g p) as [i| |]; [|exact I|exact I].
  unfold rel. cbn [r_cells r_res r_old r_cur r_p]. repeat (split; [first [reflexivity|exact PS|exact N1|exact N2]|]).
  intros j J. destruct (Nat.eq_dec j (S k)) as [->|NE]; [|apply IN; lia].
  rewrite <- PS. unfold in_strict. rewrite LV. reflexivity.
Qed.
Lemma loop_same m : forall k st fs, (k + m <= N)%nat -> rel k st fs ->
  alike_flow (iter_nat m (rayStep dflt g delta) st) (iter_nat m (frayStep dflt g fdelta) fs).
Proof using EE NN CS WB ND DX DY SB SO.
  induction m as [|m IH]; intros k st fs K RL; cbn [iter_nat].
  - destruct RL as (A & B1 & _). split; assumption.
  - pose proof (step_same k st fs ltac:(lia) RL) as H.
    destruct (rayStep dflt g delta st), (frayStep dflt g fdelta fs); try contradiction; [|exact H|exact I].
    apply (IH (S k)); [lia|exact H].
Qed.
Lemma loop_exit m : 0 < INR N -> in_strict g (samp delta s N) = false -> forall k st fs, (k < N)%nat -> rel k st fs ->
  alike_flow (iter_nat m (rayStep dflt g delta) st) (iter_nat m (frayStep dflt g fdelta) fs).
Proof using EE NN CS WB ND DX DY SB SO.
  intros _ X. induction m as [|m IH]; intros k st fs K RL; cbn [iter_nat].
  - destruct RL as (A & B1 & _). split; assumption.
  - pose proof (step_same k st fs ltac:(lia) RL) as H.
    destruct (rayStep dflt g delta st), (frayStep dflt g fdelta fs); try contradiction; [|exact H|exact I].
    apply (IH (S k)); [|exact H]. destruct (Nat.eq_dec (S k) N) as [E|E]; [|lia].
    destruct H as (_ & _ & _ & _ & _ & _ & _ & IN). rewrite E in IN. rewrite IN in X by lia. discriminate.
Qed.
End Ray.

Section Whole.
Set Default Proof Using "All".
Context {C : Type}.
Variable dflt : C.
Variables (e n : Z).
Hypothesis EE : (-90 <= e <= 90)%Z.
Hypothesis NN : (0 <= n <= 17)%Z.
Variable g : vgrid C.
Hypothesis CS : (cell_size g == two e)%Q.
Variables s ed : point.
Hypothesis RS : reaches n g s.
Hypothesis RE : reaches n g ed.
Hypothesis LO : forall k : Z, (two (n - 50) < Qabs (ray_len g s ed - inject_Z k))%Q.

Lemma cs_R : Q2R (cell_size g) = B e.
Proof. rewrite (Qeq_eqR _ _ CS). apply q2r_two. Qed.
Lemma diff_R a b : Rabs (Q2R a) <= B (n + e) -> Rabs (Q2R b) <= B (n + e) -> Rabs (Q2R (b - a)) <= B (n + 1 + e).
Proof. clear.
  intros A D. rewrite Q2R_minus. replace (n + 1 + e)%Z with (n + e + 1)%Z by lia. rewrite B_S.
  apply Rabs_le_inv in A, D. apply Rabs_le. lra.
Qed.
Lemma ends : (Rabs (Q2R (fst s)) <= B (n + e) /\ Rabs (Q2R (snd s)) <= B (n + e)) /\
  (Rabs (Q2R (fst ed)) <= B (n + e) /\ Rabs (Q2R (snd ed)) <= B (n + e)).
Proof. destruct RS as (_ & A & D), RE as (_ & E & F). repeat split; apply (R_bound e n g); assumption. Qed.
Lemma axis_R a b : Q2R (fray_axis g a b) = RD (Rabs (RD (Q2R (b - a))) / B e).
Proof.
  unfold fray_axis. rewrite f64_ieee, Q2R_div by (apply (cell_nz e g), CS). rewrite q2r_abs, f64_ieee, cs_R. reflexivity.
Qed.
Lemma len_R : Q2R (ray_len g s ed) = Rmax (Rabs (Q2R (fst ed - fst s)) / B e) (Rabs (Q2R (snd ed - snd s)) / B e).
Proof.
  unfold ray_len. rewrite q2r_max, !Q2R_div, !q2r_abs, cs_R by (apply (cell_nz e g), CS). reflexivity.
Qed.
Lemma flen_err : Rabs (Q2R (fray_len g s ed) - Q2R (ray_len g s ed)) <= B (n - 50).
Proof.
  rewrite len_R. unfold fray_len. rewrite q2r_max, !axis_R. destruct ends as [[A1 A2] [A3 A4]].
  apply max_err; apply (axis_err e n EE NN); apply diff_R; assumption.
Qed.
Lemma flen_floor : Qfloor (fray_len g s ed) = Qfloor (ray_len g s ed).
Proof.
  rewrite <- !q2r_floor. apply (floor_same (B (n - 50))); [|exact flen_err].
  intro k. specialize (LO k). apply Qlt_Rlt in LO. rewrite q2r_two, q2r_abs, Q2R_minus, q2r_Z in LO. exact LO.
Qed.
Lemma le_len a b : a <= b * B e -> a / B e <= b.
Proof. clear.
  intro H. pose proof (B_pos e). apply (Rmult_le_reg_r (B e)); [lra|]. unfold Rdiv. rewrite Rmult_assoc, Rinv_l, Rmult_1_r by lra. exact H.
Qed.
Lemma len_le a b : a / B e <= b -> a <= b * B e.
Proof. clear.
  intro H. pose proof (B_pos e). apply (Rmult_le_compat_r (B e)) in H; [|lra]. unfold Rdiv in H. rewrite Rmult_assoc, Rinv_l, Rmult_1_r in H by lra. exact H.
Qed.
Lemma len_max : Q2R (ray_len g s ed) <= B (n + 1).
Proof.
  destruct ends as [[A1 A2] [A3 A4]]. rewrite len_R. apply Rmax_lub; apply le_len; rewrite <- bpow_plus; apply diff_R; assumption.
Qed.
Hypothesis L1 : (1 <= ray_len g s ed)%Q.
Lemma len_R1 : 1 <= Q2R (ray_len g s ed).
Proof. apply Qle_Rle in L1. rewrite RMicromega.Q2R_1 in L1. exact L1. Qed.
Lemma flen_1 : 1 <= Q2R (fray_len g s ed).
Proof.
  pose proof flen_floor as F. rewrite <- !q2r_floor in F. pose proof (Zfloor_lb (Q2R (fray_len g s ed))) as H.
  assert (G : (1 <= Zfloor (Q2R (ray_len g s ed)))%Z) by (apply Zfloor_lub; exact len_R1).
  rewrite F in H. apply IZR_le in G. lra.
Qed.
Lemma half_R : Q2R (1#2) = / 2. Proof. clear. unfold Q2R. cbn. lra. Qed.
Lemma deltas : near1 (B (n + e - 49)) (fst (ray_delta g s ed)) (fst (fray_delta g s ed)) /\
  near1 (B (n + e - 49)) (snd (ray_delta g s ed)) (snd (fray_delta g s ed)).
Proof.
  destruct ends as [[A1 A2] [A3 A4]]. pose proof len_R1 as LL. pose proof flen_1 as FL.
  assert (Z1 : ~ (ray_len g s ed == 0)%Q). { intro H. apply Qeq_eqR in H. rewrite H, RMicromega.Q2R_0 in LL. lra. }
  assert (Z2 : ~ (fray_len g s ed == 0)%Q). { intro H. apply Qeq_eqR in H. rewrite H, RMicromega.Q2R_0 in FL. lra. }
  unfold near1, ray_delta, fray_delta. cbn [fst snd].
  rewrite !f64_ieee, !Q2R_mult, !f64_ieee, !Q2R_div, !f64_ieee, !half_R by assumption. pose proof len_R as LR.
  split; apply (delta_err e n EE NN); try assumption; try (apply flen_err); try (apply diff_R; assumption).
  - apply len_le. rewrite LR. apply Rmax_l.
  - apply len_le. rewrite LR. apply Rmax_r.
Qed.
Definition Nsteps : nat := Z.to_nat (2 * Qfloor (ray_len g s ed) - 1).
Lemma floor_R : 1 <= IZR (Qfloor (ray_len g s ed)) <= Q2R (ray_len g s ed).
Proof.
  rewrite <- q2r_floor. split; [|apply Zfloor_lb].
  assert (G : (1 <= Zfloor (Q2R (ray_len g s ed)))%Z) by (apply Zfloor_lub; exact len_R1). apply IZR_le in G. exact G.
Qed.
Lemma floor_1 : (1 <= Qfloor (ray_len g s ed))%Z.
Proof. apply le_IZR. apply floor_R. Qed.
Lemma N_R k : (k <= Nsteps)%nat -> INR k <= 2 * Q2R (ray_len g s ed).
Proof.
  intro K. rewrite INR_IZR_INZ. pose proof floor_1 as F. pose proof floor_R as [_ G].
  assert (H : (Z.of_nat k <= 2 * Qfloor (ray_len g s ed))%Z) by (unfold Nsteps in K; lia).
  apply IZR_le in H. rewrite mult_IZR in H. lra.
Qed.
Lemma convex a b t : Rabs a <= B (n + e) -> Rabs b <= B (n + e) -> 0 <= t <= 1 -> Rabs (a + t * (b - a)) <= B (n + e).
Proof. clear. intros A D T. apply Rabs_le_inv in A, D. apply Rabs_le. nra. Qed.
Lemma len_pos : (0 < ray_len g s ed)%Q.
Proof. apply Qlt_le_trans with 1%Q; [reflexivity|exact L1]. Qed.
Lemma samples_R k : (k <= Nsteps)%nat -> ok1 e n (fst (samp (ray_delta g s ed) s k)) /\ ok1 e n (snd (samp (ray_delta g s ed) s k)).
Proof.
  intro K. destruct ends as [[A1 A2] [A3 A4]]. pose proof (N_R k K) as KR. pose proof len_R1 as LL.
  assert (Z1 : ~ (ray_len g s ed == 0)%Q). { intro H. apply Qeq_eqR in H. rewrite H, RMicromega.Q2R_0 in LL. lra. }
  destruct (samp_closed (ray_delta g s ed) s k) as [X Y]. unfold ok1. rewrite (Qeq_eqR _ _ X), (Qeq_eqR _ _ Y).
  unfold ray_delta. cbn [fst snd]. rewrite !Q2R_plus, !Q2R_mult, !Q2R_div, !Q2R_minus, !half_R, q2r_Z, <- INR_IZR_INZ by assumption.
  set (len := Q2R (ray_len g s ed)) in *.
  assert (T : 0 <= INR k / (2 * len) <= 1).
  { pose proof (pos_INR k). split; [apply Rmult_le_pos; [lra|apply Rlt_le, Rinv_0_lt_compat; lra]|].
    apply (Rmult_le_reg_r (2 * len)); [lra|]. unfold Rdiv. rewrite Rmult_assoc, Rinv_l by lra. lra. }
  split.
  - replace (_ + _) with (Q2R (fst s) + INR k / (2 * len) * (Q2R (fst ed) - Q2R (fst s))) by (field; lra). apply convex; assumption.
  - replace (_ + _) with (Q2R (snd s) + INR k / (2 * len) * (Q2R (snd ed) - Q2R (snd s))) by (field; lra). apply convex; assumption.
Qed.

Hypothesis SO : forall j, (Z.of_nat j < 2 * Qfloor (ray_len g s ed))%Z ->
  (forall i, (0 < i < j)%nat -> strictly_inside g (ray_sample (cell_size g) s ed i)) ->
  off_lines (two (2 * n - 45)) g (ray_sample (cell_size g) s ed j).
Lemma cs_pos : (0 < cell_size g)%Q.
Proof. exact (cell_pos e g CS). Qed.
Lemma samples_off k : (k <= Nsteps)%nat -> (forall i, (0 < i < k)%nat -> in_strict g (samp (ray_delta g s ed) s i) = true) ->
  off1 n g (fst (samp (ray_delta g s ed) s k)) /\ off1 n g (snd (samp (ray_delta g s ed) s k)).
Proof.
  intros K I. destruct (samp_sample g s ed k cs_pos len_pos) as [X Y]. unfold off1.
  assert (O : off_lines (two (2 * n - 45)) g (ray_sample (cell_size g) s ed k)).
  { apply SO; [unfold Nsteps in K; pose proof floor_1; lia|]. intros i H. specialize (I i H).
    rewrite in_strict_iff in I by exact cs_pos. destruct (samp_sample g s ed i cs_pos len_pos) as [X' Y'].
    revert I. apply strictly_inside_ext; assumption. }
  split; intro z; [rewrite X|rewrite Y]; apply O.
Qed.
Lemma window : window_ok n g.
Proof. destruct RS as (W & _). exact W. Qed.
Lemma start_off : off_lines (two (2 * n - 45)) g s.
Proof.
  destruct (samples_off 0) as [X Y]; [lia|intros i H; lia|]. intro k. split; [apply X|apply Y].
Qed.
Theorem ray_rounded : frayTrace dflt g s ed = rayTrace dflt g s ed.
Proof.
  unfold frayTrace, rayTrace. rewrite (inside_exact e n EE ltac:(lia) g s CS RS).
  destruct (isInside g s); cbn [negb]; [|reflexivity].
  assert (I0 : fcalcIndex g s = calcIndex g s).
  { unfold fcalcIndex, calcIndex. rewrite (square_exact e n EE ltac:(lia) g s CS RS); [reflexivity|].
    apply (off_weaker e g s (n - 48) (2 * n - 45) CS); [lia|exact start_off]. }
  rewrite I0. destruct (calcIndex g s) as [i0| |]; cbn [bind]; try reflexivity.
  destruct (touch dflt (cells g) i0) as [l0| |]; cbn [bind]; try reflexivity.
  assert (Z1 : Qeq_bool (ray_len g s ed) 0 = false).
  { apply not_true_is_false. intro H. apply Qeq_bool_iff in H. pose proof len_pos as P. rewrite H in P. discriminate. }
  assert (Z2 : Qeq_bool (fray_len g s ed) 0 = false).
  { apply not_true_is_false. intro H. apply Qeq_bool_iff in H. apply Qeq_eqR in H. pose proof flen_1 as P. rewrite H, RMicromega.Q2R_0 in P. lra. }
  rewrite Z1, Z2. unfold fray_count, ray_count. rewrite flen_floor, !iter_N_nat.
  assert (CN : N.to_nat (Z.to_N (u64 (2 * Qfloor (ray_len g s ed) - 1))) = Nsteps).
  { pose proof floor_1 as F1. pose proof floor_R as [_ F2]. pose proof len_max as LM.
    assert (F3 : (Qfloor (ray_len g s ed) <= 2 ^ 18)%Z).
    { apply le_IZR. rewrite (IZR_Zpower radix2) by lia. assert (B (n + 1) <= B 18) by (apply B_le; lia). lra. }
    unfold u64, Nsteps. rewrite Z.mod_small by (split; [lia|]; eapply Z.le_lt_trans with (2 * 2 ^ 18)%Z; [lia|reflexivity]).
    apply Z_N_nat. }
  rewrite CN.
  pose proof (loop_same dflt e n EE NN g CS window s ed (fray_delta g s ed) Nsteps) as LS.
  assert (ND : INR Nsteps <= B (n + 2)).
  { pose proof (N_R Nsteps (le_n _)) as H. pose proof len_max as LM. replace (n + 2)%Z with (n + 1 + 1)%Z by lia. rewrite B_S. lra. }
  specialize (LS ND (proj1 deltas) (proj2 deltas) samples_R samples_off Nsteps 0%nat (mkRay l0 [i0] s i0 i0) (mkRay l0 [i0] s i0 i0) (le_n _)).
  assert (R0 : rel e n g s ed 0 (mkRay l0 [i0] s i0 i0) (mkRay l0 [i0] s i0 i0)).
  { unfold rel, near1. cbn [r_cells r_res r_old r_cur r_p samp]. repeat (split; [reflexivity|]).
    cbn [INR]. unfold Rminus. rewrite Rmult_0_l, !Rplus_opp_r, Rabs_R0.
    split; [lra|]. split; [lra|]. intros i H. lia. }
  specialize (LS R0). unfold alike_flow in LS.
  destruct (iter_nat Nsteps (rayStep dflt g (ray_delta g s ed)) _), (iter_nat Nsteps (frayStep dflt g (fray_delta g s ed)) _);
    try contradiction; try reflexivity; destruct LS as [-> ->]; reflexivity.
Qed.
End Whole.
