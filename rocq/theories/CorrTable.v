(** Proofs about the kernel and the lookup table. *)
From Coq Require Import Reals ZArith List Bool Lia Lra Psatz.
From Verif Require Import Base LinAlg3 GeoModel OptModel RegModel CorrModel CorrSpec.
Import ListNotations.
Open Scope R_scope.

(** ** Integers *)
Lemma floorR_spec : forall x, IZR (floorR x) <= x < IZR (floorR x) + 1.
Proof. intros x. unfold floorR. pose proof (base_Int_part x). lra. Qed.
Lemma floorR_unique : forall x z, IZR z <= x < IZR z + 1 -> floorR x = z.
Proof.
  intros x z H. pose proof (floorR_spec x) as F.
  assert (A : IZR (floorR x) < IZR (z + 1)) by (rewrite plus_IZR; lra).
  assert (B : IZR z < IZR (floorR x + 1)) by (rewrite plus_IZR; lra).
  apply lt_IZR in A. apply lt_IZR in B. lia.
Qed.
Lemma ceilR_spec : forall x, IZR (ceilR x) - 1 < x <= IZR (ceilR x).
Proof. intros x. unfold ceilR. rewrite opp_IZR. pose proof (base_Int_part (- x)). lra. Qed.
Lemma ceilR_nonneg : forall x, 0 <= x -> (0 <= ceilR x)%Z.
Proof.
  intros x H. pose proof (ceilR_spec x).
  assert (A : IZR (-1) < IZR (ceilR x)) by (simpl; lra).
  apply lt_IZR in A. lia.
Qed.
Lemma lround_nearest : forall x, 0 <= x -> nearest x (lroundR x).
Proof.
  intros x H. unfold lroundR, nearest. destruct (Rle_dec 0 x); [|lra].
  pose proof (base_Int_part (x + 1 / 2)). lra.
Qed.
(** halves are rounded away from zero on both sides *)
Lemma lround_odd : forall x, lroundR (- x) = (- lroundR x)%Z.
Proof.
  intros x. unfold lroundR. destruct (Rle_dec 0 (- x)), (Rle_dec 0 x); rewrite ?Ropp_involutive; try lia; try lra.
  assert (x = 0) by lra. subst x. rewrite Ropp_0, Rplus_0_l.
  pose proof (floorR_unique (1 / 2) 0 ltac:(lra)) as Z. unfold floorR in Z. rewrite Z. reflexivity.
Qed.
Lemma nearest_unique : forall x a b, nearest x a -> nearest x b -> a = b.
Proof.
  unfold nearest. intros x a b A B.
  assert (IZR a < IZR (b + 1)) by (rewrite plus_IZR; lra).
  assert (IZR b < IZR (a + 1)) by (rewrite plus_IZR; lra).
  apply lt_IZR in H. apply lt_IZR in H0. lia.
Qed.
Lemma nearest_mono : forall x y a b, x <= y -> nearest x a -> nearest y b -> (a <= b)%Z.
Proof.
  unfold nearest. intros x y a b L A B.
  assert (IZR a < IZR (b + 1)) by (rewrite plus_IZR; lra).
  apply lt_IZR in H. lia.
Qed.

Lemma zrange_in : forall a b x, In x (zrange a b) <-> (a <= x <= b)%Z.
Proof.
  intros a b x. unfold zrange. rewrite in_map_iff. split.
  - intros (i & <- & H). apply in_seq in H. lia.
  - intros H. exists (Z.to_nat (x - a)). split; [lia|]. apply in_seq. lia.
Qed.
Lemma zrange_len : forall a b, length (zrange a b) = Z.to_nat (b - a + 1).
Proof. intros. unfold zrange. now rewrite map_length, seq_length. Qed.
Lemma zrange_nth : forall a b x, (a <= x <= b)%Z -> nth_error (zrange a b) (Z.to_nat (x - a)) = Some x.
Proof.
  intros a b x H. unfold zrange. rewrite nth_error_map.
  rewrite (nth_error_nth' _ 0%nat) by (rewrite seq_length; lia).
  rewrite seq_nth by lia. cbn. f_equal. lia.
Qed.

Lemma nth_flat_map : forall A B C (f : A -> B -> C) l2 l1 i j a b,
  nth_error l1 i = Some a -> nth_error l2 j = Some b ->
  nth_error (flat_map (fun x => map (f x) l2) l1) (i * length l2 + j) = Some (f a b).
Proof.
  intros A B C f l2. induction l1 as [|x l1 IH]; intros i j a b Ha Hb; [destruct i; discriminate|].
  cbn [flat_map]. assert (J : (j < length l2)%nat) by (apply nth_error_Some; rewrite Hb; discriminate).
  destruct i as [|i].
  - cbn in Ha. injection Ha as ->. cbn [Nat.mul Nat.add].
    rewrite nth_error_app1 by (now rewrite map_length). now rewrite nth_error_map, Hb.
  - cbn in Ha. rewrite nth_error_app2 by (rewrite map_length; cbn; lia).
    rewrite map_length. replace (S i * length l2 + j - length l2)%nat with (i * length l2 + j)%nat by (cbn; lia).
    now apply IH.
Qed.

Lemma zget_ok : forall A (l : list A) i a, (0 <= i)%Z -> nth_error l (Z.to_nat i) = Some a -> zget l i = Ok a.
Proof.
  intros A l i a H E. unfold zget. destruct (Z.ltb_spec i 0); [lia|]. unfold vget. now rewrite E.
Qed.

(** ** The kernel *)
Definition wt (s : R) (r c : Z) : Z := lroundR (100 * exp (- ((IZR r ^ 2 + IZR c ^ 2) / (2 * s ^ 2)))).
Definition hf (s : R) : Z := lroundR (2 * s).

Lemma sigma_half : forall step std, 1 / 2 <= sigma step std.
Proof. intros. unfold sigma. apply Rmax_l. Qed.
Lemma sigma_ten : forall step std, sigma step std <= 10.
Proof. intros. unfold sigma. apply Rmax_lub; [lra|apply Rmin_r]. Qed.

Lemma kernel_half : forall step std, 0 < step ->
  k_half (initKernel (1 / step) OCCUPIED std) = hf (sigma step std).
Proof.
  intros step std Hs. unfold initKernel, k_half, hf. f_equal. unfold sigma.
  assert (Hi : 0 < / step) by now apply Rinv_0_lt_compat.
  assert (SI : step * / step = 1) by (field; lra).
  replace (1 / step) with (/ step) by (field; lra).
  destruct (Rlt_dec std (1 / 2 * / step)) as [A|A].
  - assert (std * step < 1 / 2) by nra.
    destruct (Rlt_dec (10 * / step) std) as [B|B]; [nra|].
    rewrite Rmax_left by (rewrite Rmin_left; lra). field. lra.
  - assert (1 / 2 <= std * step) by nra.
    destruct (Rlt_dec (10 * / step) std) as [B|B].
    + assert (10 < std * step) by nra. rewrite Rmin_right by lra. rewrite Rmax_right by lra. field. lra.
    + assert (std * step <= 10) by nra. rewrite Rmin_left by lra. rewrite Rmax_right by lra. field. lra.
Qed.

Lemma kernel_at : forall step std r c, 0 < step ->
  let h := hf (sigma step std) in
  (- h <= r <= h)%Z -> (- h <= c <= h)%Z ->
  kAt (initKernel (1 / step) OCCUPIED std) r c = Ok (wt (sigma step std) r c).
Proof.
  intros step std r c Hs h Hr Hc.
  pose proof (kernel_half step std Hs) as K. fold h in K.
  unfold kAt, k_size. rewrite K.
  assert (Hi : 0 < / step) by now apply Rinv_0_lt_compat.
  assert (SI : step * / step = 1) by (field; lra).
  apply zget_ok; [nia|].
  replace (Z.to_nat ((r + h) * (2 * h + 1) + c + h))
    with (Z.to_nat (r - - h) * length (zrange (- h) h) + Z.to_nat (c - - h))%nat
    by (rewrite zrange_len; nia).
  unfold initKernel, k_vals.
  unfold initKernel, k_half in K. rewrite K.
  rewrite (nth_flat_map _ _ _ (fun row col =>
     lroundR (exp (- (1 / 2) * (sqrt ((IZR col * (1 / step)) ^ 2 + (IZR row * (1 / step)) ^ 2) /
       (if Rlt_dec (10 * (1 / step)) std then 10 * (1 / step)
        else if Rlt_dec std (1 / 2 * (1 / step)) then 1 / 2 * (1 / step) else std)) ^ 2) * IZR OCCUPIED))
     _ _ _ _ r c) by now apply zrange_nth.
  f_equal. unfold wt. f_equal. rewrite Rmult_comm. unfold OCCUPIED. f_equal. f_equal.
  rewrite <- Rsqr_pow2. unfold Rdiv at 2. rewrite Rsqr_mult, Rsqr_sqrt by nra. unfold Rsqr.
  replace (1 / step) with (/ step) by (field; lra). unfold sigma.
  destruct (Rlt_dec std (1 / 2 * / step)) as [A|A].
  - assert (std * step < 1 / 2) by nra.
    destruct (Rlt_dec (10 * / step) std) as [B|B]; [nra|].
    rewrite Rmax_left by (rewrite Rmin_left; lra). field. lra.
  - assert (1 / 2 <= std * step) by nra. assert (0 < std) by nra.
    destruct (Rlt_dec (10 * / step) std) as [B|B].
    + assert (10 < std * step) by nra. rewrite Rmin_right by lra. rewrite Rmax_right by lra. field. lra.
    + assert (std * step <= 10) by nra. rewrite Rmin_left by lra. rewrite Rmax_right by lra. field. lra.
Qed.

Lemma hf_pos : forall s, 1 / 2 <= s -> (1 <= hf s)%Z.
Proof.
  intros s H. pose proof (lround_nearest (2 * s) ltac:(lra)) as N. unfold hf. unfold nearest in N.
  assert (A : IZR 0 < IZR (lroundR (2 * s))) by lra. apply lt_IZR in A. lia.
Qed.
Lemma wt_arg : forall s r c, 1 / 2 <= s -> 0 <= (IZR r ^ 2 + IZR c ^ 2) / (2 * s ^ 2).
Proof.
  intros. apply Rmult_le_pos; [nra|]. left. apply Rinv_0_lt_compat. nra.
Qed.
Lemma wt_weight : forall step std r c, weight step std r c (wt (sigma step std) r c).
Proof.
  intros. unfold weight, wt. apply lround_nearest.
  pose proof (exp_pos (- ((IZR r ^ 2 + IZR c ^ 2) / (2 * sigma step std ^ 2)))). lra.
Qed.
Lemma exp_neg_le : forall x, 0 <= x -> exp (- x) <= / (1 + x).
Proof.
  intros x H. rewrite exp_Ropp. apply Rinv_le_contravar; [lra|].
  destruct (Req_dec x 0) as [-> |N]; [rewrite exp_0; lra|]. left. apply exp_ineq1. lra.
Qed.
Lemma wt_range : forall s r c, 1 / 2 <= s -> (0 <= wt s r c <= 100)%Z.
Proof.
  intros s r c H. pose proof (wt_arg s r c H) as A. unfold wt.
  set (x := (IZR r ^ 2 + IZR c ^ 2) / (2 * s ^ 2)) in *.
  pose proof (exp_pos (- x)). pose proof (exp_neg_le x A).
  assert (/ (1 + x) <= 1) by (rewrite <- Rinv_1; apply Rinv_le_contravar; lra).
  pose proof (lround_nearest (100 * exp (- x)) ltac:(lra)) as N. unfold nearest in N. split.
  - assert (IZR (-1) < IZR (lroundR (100 * exp (- x)))) by (simpl; lra). apply lt_IZR in H3. lia.
  - assert (IZR (lroundR (100 * exp (- x))) < IZR 101) by lra. apply lt_IZR in H3. lia.
Qed.
Lemma wt_centre : forall s, wt s 0 0 = 100%Z.
Proof.
  intros s. unfold wt. apply (nearest_unique (100 * exp (- ((0 ^ 2 + 0 ^ 2) / (2 * s ^ 2))))).
  - apply lround_nearest. pose proof (exp_pos (- ((0 ^ 2 + 0 ^ 2) / (2 * s ^ 2)))). lra.
  - replace (- ((0 ^ 2 + 0 ^ 2) / (2 * s ^ 2))) with 0 by (unfold Rdiv; ring). rewrite exp_0. unfold nearest. lra.
Qed.
Lemma wt_side : forall s r c, 1 / 2 <= s -> s <= 997 / 100 -> (r, c) <> (0, 0)%Z -> (wt s r c < 100)%Z.
Proof.
  intros s r c H1 H2 N. pose proof (wt_arg s r c H1) as A. unfold wt.
  assert (B : 1 <= IZR r ^ 2 + IZR c ^ 2).
  { assert (1 <= r * r + c * c)%Z.
    { destruct (Z.eq_dec r 0) as [-> |]; [destruct (Z.eq_dec c 0) as [-> |]; [now elim N|]|]; nia. }
    apply IZR_le in H. rewrite plus_IZR, !mult_IZR in H. simpl. lra. }
  assert (C : 1 / 200 + 1 / 39600 <= (IZR r ^ 2 + IZR c ^ 2) / (2 * s ^ 2)).
  { apply (Rmult_le_reg_r (2 * s ^ 2)); [nra|]. unfold Rdiv at 3. rewrite Rmult_assoc, Rinv_l by nra. nra. }
  set (x := (IZR r ^ 2 + IZR c ^ 2) / (2 * s ^ 2)) in *.
  pose proof (exp_pos (- x)). pose proof (exp_neg_le x A).
  assert (/ (1 + x) < 199 / 200).
  { apply (Rmult_lt_reg_l (1 + x)); [lra|]. rewrite Rinv_r by lra. lra. }
  pose proof (lround_nearest (100 * exp (- x)) ltac:(lra)) as M. unfold nearest in M.
  assert (IZR (lroundR (100 * exp (- x))) < IZR 100) by lra. now apply lt_IZR in H4.
Qed.
(** ten cells of deviation: the direct neighbours round to the full weight *)
Lemma wt_wide : forall r c, (r * r + c * c = 1)%Z -> wt 10 r c = 100%Z.
Proof.
  intros r c E. unfold wt.
  assert (B : IZR r ^ 2 + IZR c ^ 2 = 1).
  { apply (f_equal IZR) in E. rewrite plus_IZR, !mult_IZR in E. simpl. lra. }
  rewrite B. set (x := 1 / (2 * 10 ^ 2)). assert (X : x = 1 / 200) by (unfold x; field).
  pose proof (exp_ineq1 (- x) ltac:(lra)) as L. pose proof (exp_neg_le x ltac:(lra)) as U.
  assert (/ (1 + x) < 1) by (apply (Rmult_lt_reg_l (1 + x)); [lra|]; rewrite Rinv_r; lra).
  apply (nearest_unique (100 * exp (- x))); [apply lround_nearest; lra|]. unfold nearest. lra.
Qed.
