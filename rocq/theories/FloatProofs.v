(** Proofs: rounding in the voxel grid. *)
From Coq Require Import Reals Qreals Lra List ZArith QArith Qabs Qround Bool Lia Psatz Arith.
From Flocq Require Import Core.
From Verif Require Import Base VoxelModel VoxelSpec VoxelProofs VoxelFinal FloatModel FloatSpec FloatIEEE FloatErr.
Import ListNotations.
Open Scope R_scope.
Set Default Proof Using "Type".

Lemma f64_ieee q : Q2R (f64 q) = RN 53 (-1074) (Q2R q).
Proof. apply rounded_ieee. Qed.
Lemma f32_ieee q : Q2R (f32 q) = RN 24 (-149) (Q2R q).
Proof. apply rounded_ieee. Qed.
Lemma q2r_qn n : Q2R (qn n) = IZR (Z.of_nat n).
Proof. apply q2r_Z. Qed.
Lemma fixed64 m e : (Z.abs m < 2 ^ 53)%Z -> (-1074 <= e)%Z -> RN 53 (-1074) (IZR m * B e) = IZR m * B e.
Proof. apply fixed. reflexivity. Qed.
Lemma fixed32 m e : (Z.abs m < 2 ^ 24)%Z -> (-149 <= e)%Z -> RN 24 (-149) (IZR m * B e) = IZR m * B e.
Proof. apply fixed. reflexivity. Qed.
Lemma fixed64Z m : (Z.abs m < 2 ^ 53)%Z -> RN 53 (-1074) (IZR m) = IZR m.
Proof. intro M. pose proof (fixed64 m 0 M ltac:(lia)) as F. rewrite B_0, Rmult_1_r in F. exact F. Qed.
Lemma fixed32Z m : (Z.abs m < 2 ^ 24)%Z -> RN 24 (-149) (IZR m) = IZR m.
Proof. intro M. pose proof (fixed32 m 0 M ltac:(lia)) as F. rewrite B_0, Rmult_1_r in F. exact F. Qed.
Lemma half_of e : B e / 2 = B (e - 1).
Proof. replace (B e) with (B ((e - 1) + 1)) by (f_equal; lia). rewrite B_S. lra. Qed.
Lemma two_half e : B e = 2 * B (e - 1).
Proof. rewrite <- half_of. lra. Qed.

Section Grid.
Context {C : Type}.
Variable merge : C -> C -> C.
Notation grid := (vgrid C).
Variables (e n : Z).
Hypothesis EE : (-90 <= e <= 90)%Z.
Hypothesis NN : (0 <= n <= 18)%Z.

Lemma small_n k : (Z.of_nat k <= 2 ^ n)%Z -> (0 <= Z.of_nat k <= 2 ^ 18)%Z.
Proof using NN. intro H. assert (2 ^ n <= 2 ^ 18)%Z by (apply Z.pow_le_mono_r; lia). lia. Qed.

Lemma R_half (g : grid) : (cell_size g == two e)%Q -> Q2R (fhalf g) = B e / 2.
Proof using EE.
  intro CS. unfold fhalf. rewrite f32_ieee. assert (E : Q2R (cell_size g / 2) = 1 * B (e - 1)).
  { unfold Qdiv. rewrite Q2R_mult, (Qeq_eqR _ _ CS), q2r_two, <- half_of. unfold Q2R at 1. cbn. lra. }
  rewrite E, (fixed32 1) by lia. rewrite half_of. ring.
Qed.
Lemma R_half_exact (g : grid) : (cell_size g == two e)%Q -> Q2R (half g) = B e / 2.
Proof using Type. intro CS. unfold half, Qdiv. rewrite Q2R_mult, (Qeq_eqR _ _ CS), q2r_two. unfold Q2R at 1. cbn. lra. Qed.
(** the borders are exact *)
Lemma low64 (g : grid) k : (cell_size g == two e)%Q -> (Z.of_nat k <= 2 ^ n)%Z ->
  (f64 (f64 (- f64 (qn k) * cell_size g) - fhalf g) == - qn k * cell_size g - half g)%Q.
Proof using EE NN.
  intros CS K. apply small_n in K. apply eqR_Qeq. rewrite f64_ieee, !Q2R_minus, R_half, R_half_exact, f64_ieee, !Q2R_mult, !Q2R_opp, f64_ieee, q2r_qn by exact CS.
  rewrite (Qeq_eqR _ _ CS), q2r_two, fixed64Z, <- opp_IZR, fixed64, half_of, (two_half e) by lia.
  replace (IZR (- Z.of_nat k) * (2 * B (e - 1)) - B (e - 1)) with (IZR (-2 * Z.of_nat k - 1) * B (e - 1))
    by (rewrite minus_IZR, mult_IZR, opp_IZR; ring). apply fixed64; lia.
Qed.
Lemma low32 (g : grid) k : (cell_size g == two e)%Q -> (Z.of_nat k <= 2 ^ n)%Z ->
  (f32 (f32 (- f32 (qn k) * cell_size g) - fhalf g) == - qn k * cell_size g - half g)%Q.
Proof using EE NN.
  intros CS K. apply small_n in K. apply eqR_Qeq. rewrite f32_ieee, !Q2R_minus, R_half, R_half_exact, f32_ieee, !Q2R_mult, !Q2R_opp, f32_ieee, q2r_qn by exact CS.
  rewrite (Qeq_eqR _ _ CS), q2r_two, fixed32Z, <- opp_IZR, fixed32, half_of, (two_half e) by lia.
  replace (IZR (- Z.of_nat k) * (2 * B (e - 1)) - B (e - 1)) with (IZR (-2 * Z.of_nat k - 1) * B (e - 1))
    by (rewrite minus_IZR, mult_IZR, opp_IZR; ring). apply fixed32; lia.
Qed.
Lemma high32 (g : grid) k : (cell_size g == two e)%Q -> (Z.of_nat k <= 2 ^ n)%Z ->
  (f32 (f32 (f32 (qn k) * cell_size g) + fhalf g) == qn k * cell_size g + half g)%Q.
Proof using EE NN.
  intros CS K. apply small_n in K. apply eqR_Qeq. rewrite f32_ieee, !Q2R_plus, R_half, R_half_exact, f32_ieee, !Q2R_mult, f32_ieee, q2r_qn by exact CS.
  rewrite (Qeq_eqR _ _ CS), q2r_two, fixed32Z, fixed32, half_of, (two_half e) by lia.
  replace (IZR (Z.of_nat k) * (2 * B (e - 1)) + B (e - 1)) with (IZR (2 * Z.of_nat k + 1) * B (e - 1))
    by (rewrite plus_IZR, mult_IZR; ring). apply fixed32; lia.
Qed.
Lemma Qle_bool_eq a b c d : (a == c)%Q -> (b == d)%Q -> Qle_bool a b = Qle_bool c d.
Proof using Type. intros E F. apply eq_true_iff_eq. rewrite !Qle_bool_iff, E, F. reflexivity. Qed.
Theorem inside_exact (g : grid) p : (cell_size g == two e)%Q -> reaches n g p -> fisInside g p = isInside g p.
Proof using EE NN.
  intros CS (((L & R) & (U & D)) & _). unfold fisInside, isInside, fminx, fmaxx, fminy, fmaxy, minx, maxx, miny, maxy.
  f_equal; f_equal; apply Qle_bool_eq; try reflexivity; first [apply low64 | apply high32]; assumption.
Qed.

(** columns and rows *)
Definition coord (g : grid) (x : Q) (k : nat) : Z := Qfloor ((x + cell_size g * qn k + half g) / cell_size g).
Definition fcoord (g : grid) (x : Q) (k : nat) : Z :=
  Qfloor (f64 (f64 (f64 (x + f32 (cell_size g * f32 (qn k))) + fhalf g) / cell_size g)).
Lemma cell_nz (g : grid) : (cell_size g == two e)%Q -> ~ (cell_size g == 0)%Q.
Proof using Type. intros CS H. rewrite CS in H. apply Qeq_eqR in H. rewrite q2r_two, RMicromega.Q2R_0 in H. pose proof (B_pos e). lra. Qed.
Lemma R_off (g : grid) k : (cell_size g == two e)%Q -> (Z.of_nat k <= 2 ^ n)%Z ->
  Q2R (f32 (cell_size g * f32 (qn k))) = IZR (Z.of_nat k) * B e.
Proof using EE NN.
  intros CS K. apply small_n in K. rewrite f32_ieee, Q2R_mult, f32_ieee, q2r_qn, (Qeq_eqR _ _ CS), q2r_two, fixed32Z, Rmult_comm by lia.
  apply fixed32; lia.
Qed.
Lemma coord_R (g : grid) x k : (cell_size g == two e)%Q ->
  coord g x k = Zfloor (esq e (Q2R x) (IZR (Z.of_nat k) * B e)).
Proof using Type.
  intro CS. unfold coord, esq. rewrite <- q2r_floor, Q2R_div by (apply cell_nz, CS).
  rewrite !Q2R_plus, Q2R_mult, q2r_qn, (R_half_exact g CS), (Qeq_eqR _ _ CS), q2r_two, (Rmult_comm (B e)). reflexivity.
Qed.
Lemma fcoord_R (g : grid) x k : (cell_size g == two e)%Q -> (Z.of_nat k <= 2 ^ n)%Z ->
  fcoord g x k = Zfloor (fsq 53 (-1074) e (Q2R x) (IZR (Z.of_nat k) * B e)).
Proof using EE NN.
  intros CS K. unfold fcoord, fsq. rewrite <- q2r_floor, f64_ieee, Q2R_div by (apply cell_nz, CS).
  rewrite f64_ieee, Q2R_plus, f64_ieee, Q2R_plus, (R_off g k CS K), (R_half g CS), (Qeq_eqR _ _ CS), q2r_two. reflexivity.
Qed.
Lemma R_bound (g : grid) x : (cell_size g == two e)%Q -> (Qabs x <= two n * cell_size g)%Q -> Rabs (Q2R x) <= B (n + e).
Proof using Type.
  intros CS A. apply Qle_Rle in A. rewrite q2r_abs, Q2R_mult, q2r_two, (Qeq_eqR _ _ CS), q2r_two, <- bpow_plus in A. exact A.
Qed.
Lemma reach_sum x k : Rabs x <= B (n + e) -> (Z.of_nat k <= 2 ^ n)%Z -> Rabs (x + IZR (Z.of_nat k) * B e) <= B (n + 1 + e).
Proof using NN.
  intros A K. apply IZR_le in K. rewrite (IZR_Zpower radix2) in K by lia. eapply Rle_trans; [apply Rabs_triang|].
  rewrite (Rabs_right (_ * _)) by (apply Rle_ge, Rmult_le_pos; [apply IZR_le; lia|apply bpow_ge_0]).
  replace (n + 1 + e)%Z with ((n + e) + 1)%Z by lia. rewrite B_S. pose proof (B_pos e).
  assert (IZR (Z.of_nat k) * B e <= B n * B e) by (apply Rmult_le_compat_r; lra). rewrite (bpow_plus radix2 n e) in *. lra.
Qed.
Theorem coord_near (g : grid) x k : (cell_size g == two e)%Q -> (Z.of_nat k <= 2 ^ n)%Z -> (Qabs x <= two n * cell_size g)%Q ->
  (coord g x k <= fcoord g x k <= coord g x k + 1)%Z.
Proof using EE NN.
  intros CS K A. pose proof (reach_sum _ k (R_bound g x CS A) K) as RS. rewrite (coord_R g x k CS), (fcoord_R g x k CS K).
  set (z := Zfloor (esq e (Q2R x) (IZR (Z.of_nat k) * B e))).
  assert (NR : IZR z <= fsq 53 (-1074) e (Q2R x) (IZR (Z.of_nat k) * B e) <= IZR (z + 1)).
  { apply (fsq_near 53 (-1074) eq_refl e n); try lia; try exact RS. split; [apply Zfloor_lb|]. apply Zfloor_ub. }
  destruct NR as [L U]. split; [apply Zfloor_lub, L|]. apply Zfloor_le in U. rewrite Zfloor_IZR in U. exact U.
Qed.
Lemma off_coord (g : grid) d x k : (cell_size g == two e)%Q ->
  (forall z : Z, (d * cell_size g < Qabs (x - (inject_Z z + (1#2)) * cell_size g))%Q) -> off (Q2R d) (esq e (Q2R x) (IZR (Z.of_nat k) * B e)).
Proof using Type.
  intros CS O z. specialize (O (z - Z.of_nat k - 1)%Z). apply Qlt_Rlt in O.
  rewrite Q2R_mult, q2r_abs, Q2R_minus, Q2R_mult, Q2R_plus, q2r_Z, (Qeq_eqR _ _ CS), q2r_two, !minus_IZR in O.
  assert (H : Q2R (1#2) = / 2) by (unfold Q2R; cbn; lra). rewrite H in O. pose proof (B_pos e) as BP. unfold esq.
  apply (Rmult_lt_reg_r (B e)); [exact BP|]. eapply Rlt_le_trans; [exact O|]. apply Req_le.
  match goal with |- _ = Rabs ?u * _ => transitivity (Rabs (u * B e)); [f_equal; field; lra|rewrite Rabs_mult, (Rabs_right (B e)) by lra; reflexivity] end.
Qed.
Theorem coord_exact (g : grid) x k : (cell_size g == two e)%Q -> (Z.of_nat k <= 2 ^ n)%Z -> (Qabs x <= two n * cell_size g)%Q ->
  (forall z : Z, (two (n - 48) * cell_size g < Qabs (x - (inject_Z z + (1#2)) * cell_size g))%Q) ->
  fcoord g x k = coord g x k.
Proof using EE NN.
  intros CS K A O. pose proof (reach_sum _ k (R_bound g x CS A) K) as RS. rewrite (coord_R g x k CS), (fcoord_R g x k CS K).
  apply (floor_same (B (n - 48))).
  - rewrite <- q2r_two. apply (off_coord g); assumption.
  - replace (n - 48)%Z with (n + 5 - 53)%Z by lia. apply (fsq_err 53 (-1074) eq_refl e n); try lia. exact RS.
Qed.
Lemma calc_eq (g : grid) p : calcCoordinates g p =
  (do c <- to_size_t (coord g (fst p) (w_left g)); do r <- to_size_t (coord g (- snd p) (h_up g)); Ok (c, r)).
Proof using Type. reflexivity. Qed.
Lemma fcalc_eq (g : grid) p : fcalcCoordinates g p =
  (do c <- to_size_t (fcoord g (fst p) (w_left g)); do r <- to_size_t (fcoord g (- snd p) (h_up g)); Ok (c, r)).
Proof using Type. reflexivity. Qed.
Lemma abs_opp (x y : Q) : (Qabs x <= y)%Q -> (Qabs (- x) <= y)%Q.
Proof using Type. rewrite Qabs_opp. auto. Qed.
Lemma off_opp d (g : grid) x : (forall z : Z, (d * cell_size g < Qabs (x - (inject_Z z + (1#2)) * cell_size g))%Q) ->
  forall z : Z, (d * cell_size g < Qabs (- x - (inject_Z z + (1#2)) * cell_size g))%Q.
Proof using Type.
  intros O z. specialize (O (- z - 1)%Z).
  assert (E : (- x - (inject_Z z + (1#2)) * cell_size g == - (x - (inject_Z (- z - 1) + (1#2)) * cell_size g))%Q).
  { unfold Z.sub. rewrite inject_Z_plus, inject_Z_opp. change (inject_Z (- (1))) with (- (1))%Q. ring. }
  rewrite E, Qabs_opp. exact O.
Qed.
Lemma size_near z z' c : to_size_t z = Ok c -> (z <= z' <= z + 1)%Z -> exists c', to_size_t z' = Ok c' /\ (c <= c' <= c + 1)%nat.
Proof using Type.
  unfold to_size_t. destruct (Z.ltb_spec z 0); [discriminate|]. intros E L. injection E as <-.
  destruct (Z.ltb_spec z' 0); [lia|]. exists (Z.to_nat z'). split; [reflexivity|lia].
Qed.
Theorem square_near (g : grid) p c r : (cell_size g == two e)%Q -> reaches n g p -> calcCoordinates g p = Ok (c, r) ->
  exists c' r', fcalcCoordinates g p = Ok (c', r') /\ (c <= c' <= c + 1)%nat /\ (r <= r' <= r + 1)%nat.
Proof using EE NN.
  intros CS (((L & R) & (U & D)) & AX & AY) E. rewrite calc_eq in E. apply bind_ok_inv in E. destruct E as (c0 & E1 & E).
  apply bind_ok_inv in E. destruct E as (r0 & E2 & E). injection E as -> ->.
  destruct (size_near _ _ c E1 (coord_near g (fst p) (w_left g) CS L AX)) as (c' & F1 & LC).
  destruct (size_near _ _ r E2 (coord_near g (- snd p) (h_up g) CS U (abs_opp _ _ AY))) as (r' & F2 & LR).
  exists c', r'. rewrite fcalc_eq, F1. cbn [bind]. rewrite F2. auto.
Qed.
Theorem square_exact (g : grid) p : (cell_size g == two e)%Q -> reaches n g p -> off_lines (two (n - 48)) g p ->
  fcalcCoordinates g p = calcCoordinates g p.
Proof using EE NN.
  intros CS (((L & R) & (U & D)) & AX & AY) O. rewrite calc_eq, fcalc_eq.
  rewrite (coord_exact g (fst p) (w_left g) CS L AX) by apply O.
  rewrite (coord_exact g (- snd p) (h_up g) CS U (abs_opp _ _ AY)); [reflexivity|].
  apply off_opp. apply O.
Qed.

(** growing *)
Lemma x32_err (g : grid) x : (cell_size g == two e)%Q -> (Qabs x <= two n * cell_size g)%Q -> Rabs (Q2R (f32 x) - Q2R x) <= B (n + e - 24).
Proof using EE NN. intros CS A. rewrite f32_ieee. apply err; [reflexivity|apply (R_bound g), A; exact CS|lia]. Qed.
Lemma line_bound z : (- 2 ^ n - 1 <= z <= 2 ^ n)%Z -> Rabs ((IZR z + / 2) * B e) <= B (n + e) + B e / 2.
Proof using NN.
  intros [L U]. apply IZR_le in L, U. rewrite minus_IZR, opp_IZR in L. rewrite (IZR_Zpower radix2) in L, U by lia.
  rewrite Rabs_mult, (Rabs_right (B e)) by (apply Rle_ge, bpow_ge_0). pose proof (B_pos e). rewrite bpow_plus.
  assert (Rabs (IZR z + / 2) <= B n + / 2) by (apply Rabs_le; lra).
  assert (Rabs (IZR z + / 2) * B e <= (B n + / 2) * B e) by (apply Rmult_le_compat_r; lra). lra.
Qed.
Lemma diff_bound (g : grid) x z : (cell_size g == two e)%Q -> (Qabs x <= two n * cell_size g)%Q -> (- 2 ^ n - 1 <= z <= 2 ^ n)%Z ->
  Rabs ((IZR z + / 2) * B e - Q2R (f32 x)) <= B (n + 2 + e).
Proof using EE NN.
  intros CS A Z1. pose proof (line_bound z Z1) as LB. pose proof (x32_err g x CS A) as XE. apply (R_bound g) in A; [|exact CS].
  assert (L : B (n + e - 24) <= B (n + e - 1)) by (apply B_le; lia). assert (L1 : B (e - 1) <= B (n + e - 1)) by (apply B_le; lia).
  rewrite half_of in LB. rewrite (two_half (n + e)) in *. replace (n + 2 + e)%Z with ((n + e - 1) + 1 + 1 + 1)%Z by lia. rewrite !B_S.
  pose proof (B_pos (n + e - 1)). apply Rabs_le_inv in LB, XE, A. apply Rabs_le. lra.
Qed.
Lemma off_line (g : grid) d x z : (cell_size g == two e)%Q ->
  (forall z : Z, (d * cell_size g < Qabs (x - (inject_Z z + (1#2)) * cell_size g))%Q) ->
  Q2R d * B e < Rabs ((IZR z + / 2) * B e - Q2R x).
Proof using Type.
  intros CS O. specialize (O z). apply Qlt_Rlt in O.
  rewrite Q2R_mult, q2r_abs, Q2R_minus, Q2R_mult, Q2R_plus, q2r_Z, (Qeq_eqR _ _ CS), q2r_two in O.
  assert (H : Q2R (1#2) = / 2) by (unfold Q2R; cbn; lra). rewrite H in O. rewrite Rabs_minus_sym. exact O.
Qed.
Lemma off_diff (g : grid) d x z : (cell_size g == two e)%Q ->
  (forall z : Z, (d * cell_size g < Qabs (x - (inject_Z z + (1#2)) * cell_size g))%Q) ->
  off (Q2R d) (((IZR z + / 2) * B e - Q2R x) / B e).
Proof using Type.
  intros CS O k. pose proof (off_line g d x (z - k) CS O) as H. rewrite minus_IZR in H. pose proof (B_pos e) as BP.
  apply (Rmult_lt_reg_r (B e)); [exact BP|]. eapply Rlt_le_trans; [exact H|]. apply Req_le.
  match goal with |- _ = Rabs ?u * _ => transitivity (Rabs (u * B e)); [f_equal; field; lra|rewrite Rabs_mult, (Rabs_right (B e)) by lra; reflexivity] end.
Qed.
Lemma Qlt_b_R a b : Qlt_b a b = true <-> Q2R a < Q2R b.
Proof using Type.
  unfold Qlt_b. rewrite negb_true_iff. split.
  - intro H. apply Qlt_Rlt, Qnot_le_lt. intro L. apply Qle_bool_iff in L. rewrite L in H. discriminate.
  - intro H. apply Rlt_Qlt in H. destruct (Qle_bool b a) eqn:E; [|reflexivity]. apply Qle_bool_iff in E. exfalso. apply (Qlt_not_le _ _ H E).
Qed.
Section Line.
Variables (g : grid) (x : Q) (z : Z) (l l' : Q).
Hypothesis CS : (cell_size g == two e)%Q.
Hypothesis A : (Qabs x <= two n * cell_size g)%Q.
Hypothesis ZB : (- 2 ^ n - 1 <= z <= 2 ^ n)%Z.
Hypothesis O : forall z : Z, (two (n - 20) * cell_size g < Qabs (x - (inject_Z z + (1#2)) * cell_size g))%Q.
Hypothesis LR : Q2R l = (IZR z + / 2) * B e.
Hypothesis LL : (l' == l)%Q.
Lemma sides : (Q2R (f32 x) < Q2R l' <-> Q2R x < Q2R l) /\ (Q2R l' < Q2R (f32 x) <-> Q2R l < Q2R x).
Proof using EE NN CS A O LR LL.
  rewrite (Qeq_eqR _ _ LL), LR. pose proof (x32_err g x CS A) as XE. pose proof (off_line g (two (n - 20)) x z CS O) as OL.
  rewrite q2r_two, <- bpow_plus in OL. assert (L : B (n + e - 24) <= B (n - 20 + e)) by (apply B_le; lia).
  apply Rabs_le_inv in XE. destruct (Rle_or_lt 0 ((IZR z + / 2) * B e - Q2R x)) as [P|P].
  - rewrite Rabs_right in OL by lra. split; split; intro; lra.
  - rewrite Rabs_left in OL by lra. split; split; intro; lra.
Qed.
Lemma inc_lo : (if Qlt_b (f32 x) l' then Z.to_nat (Qceiling (f32 (f32 (l' - f32 x) / cell_size g))) else 0%nat) =
  (if Qlt_b x l then Z.to_nat (Qceiling ((l - x) / cell_size g)) else 0%nat).
Proof using EE NN CS A O LR LL ZB.
  assert (S : Qlt_b (f32 x) l' = Qlt_b x l) by (apply eq_true_iff_eq; rewrite !Qlt_b_R; apply sides).
  rewrite S. destruct (Qlt_b x l); [|reflexivity]. f_equal. rewrite <- !q2r_ceil, f32_ieee, !Q2R_div by (apply cell_nz, CS).
  rewrite f32_ieee, !Q2R_minus, (Qeq_eqR _ _ LL), LR, (Qeq_eqR _ _ CS), q2r_two.
  apply (ceil_same (B (n - 20))).
  - rewrite <- q2r_two. apply (off_diff g); assumption.
  - replace (n - 20)%Z with (n + 4 - 24)%Z by lia. apply (finc_err 24 (-149) eq_refl e n); try lia.
    + apply (diff_bound g); assumption.
    + apply (x32_err g); assumption.
Qed.
Lemma inc_hi : (if Qlt_b l' (f32 x) then Z.to_nat (Qceiling (f32 (f32 (f32 x - l') / cell_size g))) else 0%nat) =
  (if Qlt_b l x then Z.to_nat (Qceiling ((x - l) / cell_size g)) else 0%nat).
Proof using EE NN CS A O LR LL ZB.
  assert (S : Qlt_b l' (f32 x) = Qlt_b l x) by (apply eq_true_iff_eq; rewrite !Qlt_b_R; apply sides).
  rewrite S. destruct (Qlt_b l x); [|reflexivity]. f_equal. rewrite <- !q2r_ceil, f32_ieee, !Q2R_div by (apply cell_nz, CS).
  rewrite f32_ieee, !Q2R_minus, (Qeq_eqR _ _ LL), LR, (Qeq_eqR _ _ CS), q2r_two.
  set (L := (IZR z + / 2) * B e) in *.
  replace (Q2R (f32 x) - L) with (- (L - Q2R (f32 x))) by ring. replace (Q2R x - L) with (- (L - Q2R x)) by ring.
  rewrite round_NE_opp. unfold Rdiv. rewrite !Ropp_mult_distr_l_reverse, round_NE_opp.
  assert (F : Rabs (RN 24 (-149) (RN 24 (-149) (L - Q2R (f32 x)) / B e) - (L - Q2R x) / B e) <= B (n - 20)).
  { replace (n - 20)%Z with (n + 4 - 24)%Z by lia. apply (finc_err 24 (-149) eq_refl e n); try lia.
    - apply (diff_bound g); assumption.
    - apply (x32_err g); assumption. }
  pose proof (off_diff g (two (n - 20)) x z CS O) as OD. rewrite q2r_two in OD. fold L in OD.
  unfold Zceil. rewrite !Ropp_involutive. f_equal. apply (floor_same (B (n - 20))); assumption.
Qed.
End Line.
End Grid.

Section Whole.
Context {C : Type}.
Variable merge : C -> C -> C.
Notation grid := (vgrid C).
Variables (e n : Z).
Hypothesis EE : (-90 <= e <= 90)%Z.
Hypothesis NN : (0 <= n <= 17)%Z.
Lemma N18 : (0 <= n <= 18)%Z. Proof using NN. lia. Qed.
Lemma N18' : (0 <= n + 1 <= 18)%Z. Proof using NN. lia. Qed.

Lemma Q2R_half : Q2R (1#2) = / 2. Proof using Type. unfold Q2R. cbn. lra. Qed.
Lemma lo_R (g : grid) k : (cell_size g == two e)%Q -> Q2R (- qn k * cell_size g - half g) = (IZR (- Z.of_nat k - 1) + / 2) * B e.
Proof using Type.
  intro CS. rewrite Q2R_minus, Q2R_mult, Q2R_opp, q2r_qn, (R_half_exact e g CS), (Qeq_eqR _ _ CS), q2r_two, minus_IZR, opp_IZR. field.
Qed.
Lemma hi_R (g : grid) k : (cell_size g == two e)%Q -> Q2R (qn k * cell_size g + half g) = (IZR (Z.of_nat k) + / 2) * B e.
Proof using Type.
  intro CS. rewrite Q2R_plus, Q2R_mult, q2r_qn, (R_half_exact e g CS), (Qeq_eqR _ _ CS), q2r_two. field.
Qed.
Lemma incs_exact (g : grid) p : (cell_size g == two e)%Q -> reaches n g p -> off_lines (two (n - 20)) g p ->
  fcalcIncLeft g (fst p) = calcIncLeft g (fst p) /\ fcalcIncRight g (fst p) = calcIncRight g (fst p) /\
  fcalcIncUp g (snd p) = calcIncUp g (snd p) /\ fcalcIncDown g (snd p) = calcIncDown g (snd p).
Proof using EE NN.
  intros CS (((L & R) & (U & D)) & AX & AY) O.
  assert (OX : forall z : Z, (two (n - 20) * cell_size g < Qabs (fst p - (inject_Z z + (1#2)) * cell_size g))%Q) by (intro z; apply O).
  assert (OY : forall z : Z, (two (n - 20) * cell_size g < Qabs (snd p - (inject_Z z + (1#2)) * cell_size g))%Q) by (intro z; apply O).
  unfold fcalcIncLeft, fcalcIncRight, fcalcIncUp, fcalcIncDown, calcIncLeft, calcIncRight, calcIncUp, calcIncDown, minx, maxx, miny, maxy. cbv zeta.
  split; [|split; [|split]].
  - apply (inc_lo e n EE N18) with (z := (- Z.of_nat (w_left g) - 1)%Z); auto; [lia|apply lo_R, CS|apply (low32 e n EE N18); assumption].
  - apply (inc_hi e n EE N18) with (z := Z.of_nat (w_right g)); auto; [lia|apply hi_R, CS|apply (high32 e n EE N18); assumption].
  - apply (inc_hi e n EE N18) with (z := Z.of_nat (h_up g)); auto; [lia|apply hi_R, CS|apply (high32 e n EE N18); assumption].
  - apply (inc_lo e n EE N18) with (z := (- Z.of_nat (h_down g) - 1)%Z); auto; [lia|apply lo_R, CS|apply (low32 e n EE N18); assumption].
Qed.
Theorem fit_exact (g : grid) p : (cell_size g == two e)%Q -> reaches n g p -> off_lines (two (n - 20)) g p ->
  fenlargeToFit g p = enlargeToFit g p.
Proof using EE NN.
  intros CS RE O. unfold fenlargeToFit, enlargeToFit. rewrite (inside_exact e n EE N18 g p CS RE).
  destruct (incs_exact g p CS RE O) as (-> & -> & -> & ->). reflexivity.
Qed.
Lemma two_mono a b : (a <= b)%Z -> (two a <= two b)%Q.
Proof using Type. intro L. apply Rle_Qle. rewrite !q2r_two. apply B_le, L. Qed.
Lemma cell_pos (g : grid) : (cell_size g == two e)%Q -> (0 < cell_size g)%Q.
Proof using Type. intro CS. rewrite CS. apply Rlt_Qlt. rewrite q2r_two, RMicromega.Q2R_0. apply B_pos. Qed.
Lemma off_weaker (g : grid) p a b : (cell_size g == two e)%Q -> (a <= b)%Z -> off_lines (two b) g p -> off_lines (two a) g p.
Proof using Type.
  intros CS L O k. assert (H : (two a * cell_size g <= two b * cell_size g)%Q).
  { apply Qmult_le_compat_r; [apply two_mono, L|apply Qlt_le_weak, cell_pos, CS]. }
  split; (eapply Qle_lt_trans; [exact H|apply O]).
Qed.
Lemma grow_bound (g : grid) (k : nat) (x l y : Q) (z : Z) : (cell_size g == two e)%Q -> (Z.of_nat k <= 2 ^ n)%Z -> (Qabs x <= two n * cell_size g)%Q ->
  ((y == l - x)%Q /\ Q2R l = - (IZR (Z.of_nat k) + / 2) * B e \/ (y == x - l)%Q /\ Q2R l = (IZR (Z.of_nat k) + / 2) * B e) ->
  (Z.of_nat k + Z.of_nat (Z.to_nat (Qceiling (y / cell_size g))) <= 2 ^ (n + 1))%Z.
Proof using NN.
  intros CS K A Y. apply (R_bound e n g x CS) in A. apply Rabs_le_inv in A. pose proof (B_pos e) as BP.
  assert (YB : Q2R y <= (B n - IZR (Z.of_nat k) - / 2) * B e).
  { rewrite bpow_plus in A. destruct Y as [[Y LR]|[Y LR]]; rewrite (Qeq_eqR _ _ Y), Q2R_minus, LR; lra. }
  assert (CB : (Qceiling (y / cell_size g) <= 2 ^ n - Z.of_nat k + 1)%Z).
  { rewrite <- q2r_ceil, Q2R_div by (apply (cell_nz e), CS). rewrite (Qeq_eqR _ _ CS), q2r_two. apply Zceil_glb.
    rewrite plus_IZR, minus_IZR, (IZR_Zpower radix2) by lia. apply (Rmult_le_reg_r (B e)); [exact BP|].
    unfold Rdiv. rewrite Rmult_assoc, Rinv_l, Rmult_1_r by lra. eapply Rle_trans; [exact YB|]. apply Rmult_le_compat_r; lra. }
  rewrite Z.pow_add_r by lia. change (2 ^ 1)%Z with 2%Z. assert (1 <= 2 ^ n)%Z by (apply Z.lt_pred_le, Z.pow_pos_nonneg; lia). lia.
Qed.
Lemma enlargeGrid_dims (g g' : grid) l r u d : enlargeGrid g l r u d = Ok g' ->
  cell_size g' = cell_size g /\ w_left g' = (w_left g + l)%nat /\ w_right g' = (w_right g + r)%nat /\ h_up g' = (h_up g + u)%nat /\ h_down g' = (h_down g + d)%nat.
Proof using Type.
  unfold enlargeGrid. destruct (Nat.eqb_spec (l + r + u + d) 0) as [H|H].
  - intro E. injection E as <-. repeat split; lia.
  - intro E. apply bind_ok_inv in E. destruct E as ([[lg wu] ox] & _ & E). injection E as <-. repeat split.
Qed.
Lemma fit_reach (g g' : grid) p : (cell_size g == two e)%Q -> reaches n g p -> enlargeToFit g p = Ok g' ->
  cell_size g' = cell_size g /\ reaches (n + 1) g' p.
Proof using NN.
  intros CS (((L & R) & (U & D)) & AX & AY) E. unfold enlargeToFit in E.
  assert (P1 : (2 ^ n <= 2 ^ (n + 1))%Z) by (apply Z.pow_le_mono_r; lia).
  assert (T1 : (two n * cell_size g <= two (n + 1) * cell_size g)%Q) by (apply Qmult_le_compat_r; [apply two_mono; lia|apply Qlt_le_weak, cell_pos, CS]).
  assert (W : exists l r u d, enlargeGrid g l r u d = Ok g' /\ (Z.of_nat (w_left g) + Z.of_nat l <= 2 ^ (n + 1))%Z /\
    (Z.of_nat (w_right g) + Z.of_nat r <= 2 ^ (n + 1))%Z /\ (Z.of_nat (h_up g) + Z.of_nat u <= 2 ^ (n + 1))%Z /\ (Z.of_nat (h_down g) + Z.of_nat d <= 2 ^ (n + 1))%Z).
  { destruct (isInside g p).
    - exists 0%nat, 0%nat, 0%nat, 0%nat. split; [exact E|]. lia.
    - do 4 eexists. split; [exact E|]. unfold calcIncLeft, calcIncRight, calcIncUp, calcIncDown.
      split; [|split; [|split]].
      + destruct (Qlt_b _ _); [|lia]. apply (grow_bound g _ (fst p) (minx g) _ 0%Z CS L AX). left. split; [reflexivity|].
        unfold minx. rewrite lo_R, minus_IZR, opp_IZR by exact CS. field.
      + destruct (Qlt_b _ _); [|lia]. apply (grow_bound g _ (fst p) (maxx g) _ 0%Z CS R AX). right. split; [reflexivity|]. unfold maxx. apply hi_R, CS.
      + destruct (Qlt_b _ _); [|lia]. apply (grow_bound g _ (snd p) (maxy g) _ 0%Z CS U AY). right. split; [reflexivity|]. unfold maxy. apply hi_R, CS.
      + destruct (Qlt_b _ _); [|lia]. apply (grow_bound g _ (snd p) (miny g) _ 0%Z CS D AY). left. split; [reflexivity|].
        unfold miny. rewrite lo_R, minus_IZR, opp_IZR by exact CS. field. }
  destruct W as (l & r & u & d & EG & WL & WR & WU & WD). destruct (enlargeGrid_dims _ _ _ _ _ _ EG) as (C1 & C2 & C3 & C4 & C5).
  split; [exact C1|]. unfold reaches. rewrite C1, C2, C3, C4, C5.
  split; [lia|]. split; (eapply Qle_trans; [eassumption|exact T1]).
Qed.
Theorem operations_exact (g : grid) p : (cell_size g == two e)%Q -> reaches n g p -> off_lines (two (n - 20)) g p ->
  (forall c m, faddCell merge g p c m = addCell merge g p c m) /\
  fremoveCell g p = removeCell g p /\ fcellExists g p = cellExists g p /\ fgetCellPtr g p = getCellPtr g p.
Proof using EE NN.
  intros CS RE O.
  assert (IX : forall g' : grid, cell_size g' = cell_size g -> reaches (n + 1) g' p -> fcalcIndex g' p = calcIndex g' p).
  { intros g' C1 R1. unfold fcalcIndex, calcIndex. rewrite (square_exact e (n + 1) EE N18' g' p).
    - reflexivity.
    - rewrite C1. exact CS.
    - exact R1.
    - intro k. rewrite C1. apply (off_weaker g p _ (n - 20) CS); [lia|exact O]. }
  assert (R1 : reaches (n + 1) g p).
  { assert (P1 : (2 ^ n <= 2 ^ (n + 1))%Z) by (apply Z.pow_le_mono_r; lia).
    assert (T1 : (two n * cell_size g <= two (n + 1) * cell_size g)%Q) by (apply Qmult_le_compat_r; [apply two_mono; lia|apply Qlt_le_weak, cell_pos, CS]).
    destruct RE as (((L & R) & (U & D)) & AX & AY). split; [lia|]. split; (eapply Qle_trans; [eassumption|exact T1]). }
  pose proof (IX g eq_refl R1) as IG. pose proof (inside_exact e n EE N18 g p CS RE) as IN.
  split; [|split; [|split]].
  - intros c m. unfold faddCell, addCell. rewrite (fit_exact g p CS RE O).
    destruct (enlargeToFit g p) as [g'| |] eqn:EF; cbn [bind]; try reflexivity.
    destruct (fit_reach g g' p CS RE EF) as [C1 R2]. rewrite (IX g' C1 R2). reflexivity.
  - unfold fremoveCell, removeCell. rewrite IN, IG. reflexivity.
  - unfold fcellExists, cellExists. rewrite IN, IG. reflexivity.
  - unfold fgetCellPtr, getCellPtr. rewrite IG. reflexivity.
Qed.
End Whole.

(** together with the exact grid *)
Lemma off_edge {C} (g : vgrid C) d p c : (0 <= d)%Q -> (0 < cell_size g)%Q -> off_lines d g p -> ~ on_outer_edge g c p.
Proof.
  intros D CP O. assert (Z0 : (0 <= d * cell_size g)%Q) by (apply Qmult_le_0_compat; [exact D|apply Qlt_le_weak, CP]).
  intros [[_ E]|[_ E]].
  - destruct (O (fst c - 1)%Z) as [H _]. rewrite E in H.
    assert (EQ : ((inject_Z (fst c) - (1#2)) * cell_size g - (inject_Z (fst c - 1) + (1#2)) * cell_size g == 0)%Q).
    { unfold Z.sub. rewrite inject_Z_plus. change (inject_Z (- (1))) with (- (1))%Q. ring. }
    rewrite EQ in H. change (Qabs 0) with 0%Q in H. apply (Qlt_not_le _ _ H Z0).
  - destruct (O (snd c)) as [_ H]. rewrite E in H.
    assert (EQ : ((inject_Z (snd c) + (1#2)) * cell_size g - (inject_Z (snd c) + (1#2)) * cell_size g == 0)%Q) by ring.
    rewrite EQ in H. change (Qabs 0) with 0%Q in H. apply (Qlt_not_le _ _ H Z0).
Qed.
Lemma two_pos k : (0 <= two k)%Q.
Proof. apply Rle_Qle. rewrite q2r_two, RMicromega.Q2R_0. apply bpow_ge_0. Qed.
Theorem added_found {C} (merge : C -> C -> C) n (g : vgrid C) p c v merging : (0 <= n <= 17)%Z ->
  wf g -> binary_cells g -> reaches n g p -> off_lines (two (n - 20)) g p -> in_cell (cell_size g) c p ->
  exists g', faddCell merge g p v merging = Ok g' /\ fcellExists g' p = Ok true /\
    fgetCellPtr g' p = Ok (Some (match content g c with
                                 | Some old => if merging then merge old v else v
                                 | None => v end)).
Proof.
  intros NN W (e & EE & CS) RE O IC.
  destruct (operations_exact merge e n EE NN g p CS RE O) as (AD & _).
  destruct (added_cell_is_found merge g p c v merging W IC (off_edge g _ p c (two_pos _) (proj1 W) O)) as (g' & A & EX & GC).
  exists g'. rewrite AD. split; [exact A|].
  assert (K : exists g1, enlargeToFit g p = Ok g1 /\ cell_size g' = cell_size g1 /\ w_left g' = w_left g1 /\ w_right g' = w_right g1 /\
    h_up g' = h_up g1 /\ h_down g' = h_down g1).
  { unfold addCell in A. apply bind_ok_inv in A. destruct A as (g1 & E1 & A). exists g1. split; [exact E1|].
    apply bind_ok_inv in A. destruct A as (i & _ & A). apply bind_ok_inv in A. destruct A as (o & _ & A).
    destruct o; injection A as <-; repeat split. }
  destruct K as (g1 & E1 & K1 & K2 & K3 & K4 & K5). destruct (fit_reach e n NN g g1 p CS RE E1) as [C1 R1].
  assert (CS' : (cell_size g' == two e)%Q) by (rewrite K1, C1; exact CS).
  assert (R' : reaches (n + 1) g' p) by (unfold reaches; rewrite K1, K2, K3, K4, K5; exact R1).
  assert (O' : off_lines (two (n + 1 - 48)) g' p).
  { intro k. rewrite K1, C1. apply (off_weaker e g p _ (n - 20) CS); [lia|exact O]. }
  pose proof (square_exact e (n + 1) EE (N18' n NN) g' p CS' R' O') as SQ.
  pose proof (inside_exact e (n + 1) EE (N18' n NN) g' p CS' R') as IN.
  split.
  - unfold fcellExists, fcalcIndex. rewrite IN, SQ. exact EX.
  - unfold fgetCellPtr, fcalcIndex. rewrite SQ. change (do cr <- calcCoordinates g' p; Ok (calcIndexC g' cr)) with (calcIndex g' p).
    unfold getCell, getCellPtr in GC. destruct (calcIndex g' p) as [i| |]; cbn [bind] in GC |- *; try discriminate.
    destruct (vget (cells g') i) as [[o|]| |]; cbn [bind] in GC; try discriminate. injection GC as <-. reflexivity.
Qed.
