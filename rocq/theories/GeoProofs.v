(** Proofs about the geometry helpers. *)
From Coq Require Import Reals ZArith Lra Lia List.
From Verif Require Import Base LinAlg3 GeoModel GeoSpec.
Import ListNotations.
Open Scope R_scope.

Lemma T2_eq s t : ta s = ta t -> tb s = tb t -> tc s = tc t -> td s = td t ->
  tx s = tx t -> ty s = ty t -> s = t.
Proof. destruct s, t; cbn; intros; subst; reflexivity. Qed.
Lemma pose_eq p q : px p = px q -> py p = py q -> pth p = pth q -> p = q.
Proof. destruct p, q; cbn; intros; subst; reflexivity. Qed.

(** ** Angles *)
Lemma sc2 a : cos a * cos a + sin a * sin a = 1.
Proof. pose proof (sin2_cos2 a). unfold Rsqr in *. lra. Qed.

Lemma period_Z a k : sin (a + IZR k * (2 * PI)) = sin a /\ cos (a + IZR k * (2 * PI)) = cos a.
Proof.
  destruct (Z_le_gt_dec 0 k) as [H|H].
  - pose proof (sin_period a (Z.to_nat k)). pose proof (cos_period a (Z.to_nat k)).
    rewrite INR_IZR_INZ, Z2Nat.id in * by lia.
    replace (a + IZR k * (2 * PI)) with (a + 2 * IZR k * PI) by ring. auto.
  - pose proof (sin_period (a + IZR k * (2 * PI)) (Z.to_nat (- k))) as S.
    pose proof (cos_period (a + IZR k * (2 * PI)) (Z.to_nat (- k))) as C.
    rewrite INR_IZR_INZ, Z2Nat.id in * by lia. rewrite opp_IZR in *.
    replace (a + IZR k * (2 * PI) + 2 * - IZR k * PI) with a in * by ring. auto.
Qed.

Lemma atan2_polar th : - PI < th <= PI -> atan2 (sin th) (cos th) = th.
Proof.
  intros [L U]. pose proof PI_RGT_0 as P. unfold atan2.
  destruct (Rlt_dec 0 (cos th)) as [C|C].
  - assert (B : - (PI / 2) < th < PI / 2).
    { split.
      - destruct (Rlt_le_dec (- (PI / 2)) th); [assumption|exfalso].
        assert (cos (- th) <= 0) by (apply cos_le_0; lra). rewrite cos_neg in *. lra.
      - destruct (Rlt_le_dec th (PI / 2)); [assumption|exfalso].
        assert (cos th <= 0) by (apply cos_le_0; lra). lra. }
    change (sin th / cos th) with (tan th). apply atan_tan. exact B.
  - destruct (Rlt_dec (cos th) 0) as [C'|C'].
    + assert (B : th < - (PI / 2) \/ PI / 2 < th).
      { destruct (Rlt_le_dec th (- (PI / 2))); [left; assumption|].
        destruct (Rlt_le_dec (PI / 2) th); [right; assumption|exfalso].
        assert (0 <= cos th) by (apply cos_ge_0; lra). lra. }
      destruct (Rle_dec 0 (sin th)) as [Si|Si].
      * destruct B as [B|B].
        { exfalso. assert (0 < sin (- th)) by (apply sin_gt_0; lra). rewrite sin_neg in *. lra. }
        assert (E : sin th / cos th = tan (th - PI)).
        { unfold tan. rewrite sin_minus, cos_minus, sin_PI, cos_PI. field. lra. }
        rewrite E, atan_tan; lra.
      * destruct B as [B|B].
        2:{ exfalso. assert (0 <= sin th) by (apply sin_ge_0; lra). lra. }
        assert (E : sin th / cos th = tan (th + PI)).
        { unfold tan. rewrite sin_plus, cos_plus, sin_PI, cos_PI. field. lra. }
        rewrite E, atan_tan; lra.
    + assert (C0 : cos th = 0) by lra. pose proof (sc2 th) as Q. rewrite C0 in Q.
      destruct (Rlt_dec 0 (sin th)) as [Si|Si].
      * destruct (Rtotal_order th (PI / 2)) as [H|[H|H]]; [exfalso|symmetry; exact H|exfalso].
        -- destruct (Rle_lt_dec th 0).
           ++ assert (0 <= sin (- th)) by (apply sin_ge_0; lra). rewrite sin_neg in *. lra.
           ++ assert (0 < cos th) by (apply cos_gt_0; lra). lra.
        -- assert (cos th < 0) by (apply cos_lt_0; lra). lra.
      * destruct (Rlt_dec (sin th) 0) as [Sn|Sn]; [|exfalso].
        -- destruct (Rtotal_order th (- (PI / 2))) as [H|[H|H]]; [exfalso|symmetry; exact H|exfalso].
           ++ assert (cos (- th) < 0) by (apply cos_lt_0; lra). rewrite cos_neg in *. lra.
           ++ destruct (Rle_lt_dec 0 th).
              ** assert (0 <= sin th) by (apply sin_ge_0; lra). lra.
              ** assert (0 < cos th) by (apply cos_gt_0; lra). lra.
        -- assert (sin th = 0) by lra. rewrite H in Q. lra.
Qed.

Lemma wrap_exists a : exists b, wrapped a b.
Proof.
  pose proof PI_RGT_0 as P.
  destruct (archimed ((a - PI) / (2 * PI))) as [A1 A2].
  set (m := up ((a - PI) / (2 * PI))) in *.
  (* m - 1 <= q < m *)
  destruct (Req_EM_T ((a - PI) / (2 * PI)) (IZR m - 1)) as [E|E].
  - exists (a + IZR (- (m - 1)) * (2 * PI)).
    assert (Q : (a - PI) = (IZR m - 1) * (2 * PI)) by (rewrite <- E; field; lra).
    split; [|exists (- (m - 1))%Z; reflexivity].
    rewrite opp_IZR, minus_IZR. split; lra.
  - exists (a + IZR (- m) * (2 * PI)).
    split; [|exists (- m)%Z; reflexivity]. rewrite opp_IZR.
    assert (Q : (a - PI) = (a - PI) / (2 * PI) * (2 * PI)) by (field; lra).
    set (q := (a - PI) / (2 * PI)) in *.
    assert (q * (2 * PI) < IZR m * (2 * PI)) by (apply Rmult_lt_compat_r; lra).
    assert ((IZR m - 1) * (2 * PI) < q * (2 * PI)) by (apply Rmult_lt_compat_r; lra).
    split; lra.
Qed.
Lemma wrapped_unique a b c : wrapped a b -> wrapped a c -> b = c.
Proof.
  intros [[B1 B2] [k Hk]] [[C1 C2] [l Hl]]. pose proof PI_RGT_0 as P.
  assert (E : b - c = IZR (k - l) * (2 * PI)) by (rewrite Hk, Hl, minus_IZR; ring).
  assert (k - l = 0)%Z as Z0.
  { destruct (Z.eq_dec (k - l) 0) as [|N]; [assumption|exfalso].
    destruct (Z_le_gt_dec 1 (k - l)) as [H|H].
    - apply IZR_le in H.
      assert (1 * (2 * PI) <= IZR (k - l) * (2 * PI)) by (apply Rmult_le_compat_r; lra). lra.
    - assert (H' : (k - l <= -1)%Z) by lia. apply IZR_le in H'.
      assert (IZR (k - l) * (2 * PI) <= -1 * (2 * PI)) by (apply Rmult_le_compat_r; lra). lra. }
  rewrite Z0 in E. lra.
Qed.
Lemma normalize_wrapped a : wrapped a (normalizeAngle a).
Proof.
  destruct (wrap_exists a) as [b W]. destruct W as [B [k Hk]].
  destruct (period_Z a k) as [S C]. rewrite <- Hk in *.
  unfold normalizeAngle. rewrite <- S, <- C, atan2_polar by exact B.
  split; [exact B|exists k; exact Hk].
Qed.
Lemma normalize_id a : - PI < a <= PI -> normalizeAngle a = a.
Proof. apply atan2_polar. Qed.
Lemma normalize_period a k : normalizeAngle (a + IZR k * (2 * PI)) = normalizeAngle a.
Proof. unfold normalizeAngle. destruct (period_Z a k) as [-> ->]. reflexivity. Qed.
Lemma sin_normalize a : sin (normalizeAngle a) = sin a.
Proof. destruct (normalize_wrapped a) as [_ [k ->]]. apply period_Z. Qed.
Lemma cos_normalize a : cos (normalizeAngle a) = cos a.
Proof. destruct (normalize_wrapped a) as [_ [k ->]]. apply period_Z. Qed.

Theorem normalize_spec a : wrapped a (normalizeAngle a) /\
  (forall b, wrapped a b -> b = normalizeAngle a) /\
  normalizeAngle (normalizeAngle a) = normalizeAngle a.
Proof.
  pose proof (normalize_wrapped a) as W. split; [exact W|]. split.
  - intros b B. exact (wrapped_unique a b _ B W).
  - apply normalize_id. apply W.
Qed.
Theorem angle_difference_spec p q :
  getAngleDiffrence p q = normalizeAngle (pth q - pth p).
Proof. reflexivity. Qed.

(** ** Unit vectors *)
Lemma unit_angle x y : x * x + y * y = 1 -> cos (atan2 y x) = x /\ sin (atan2 y x) = y.
Proof.
  intro H. unfold atan2.
  assert (K : x <> 0 -> cos (atan (y / x)) = Rabs x /\ sin (atan (y / x)) = y / x * Rabs x).
  { intro N. rewrite cos_atan, sin_atan.
    assert (E : 1 + (y / x)² = (/ Rabs x)²).
    { unfold Rsqr. replace (/ Rabs x * / Rabs x) with (/ (x * x)).
      2:{ rewrite <- Rinv_mult by (try apply Rabs_no_R0; assumption).
          f_equal. change (x * x) with (Rsqr x). change (Rabs x * Rabs x) with (Rsqr (Rabs x)).
          apply Rsqr_abs. }
      apply (Rmult_eq_reg_r (x * x)); [|apply Rmult_integral_contrapositive; auto].
      rewrite Rinv_l by (apply Rmult_integral_contrapositive; auto).
      transitivity (x * x + y * y); [field; auto|exact H]. }
    pose proof (Rabs_pos_lt x N) as A.
    rewrite E, sqrt_Rsqr by (left; apply Rinv_0_lt_compat; exact A).
    split; field; repeat split; auto; lra. }
  destruct (Rlt_dec 0 x) as [X|X].
  - destruct K as [K1 K2]; [lra|]. rewrite Rabs_right in * by lra. split; [exact K1|].
    rewrite K2. field. lra.
  - destruct (Rlt_dec x 0) as [X'|X'].
    + destruct K as [K1 K2]; [lra|]. rewrite Rabs_left in * by lra.
      destruct (Rle_dec 0 y).
      * rewrite cos_plus, sin_plus, cos_PI, sin_PI, K1, K2. split; field; lra.
      * rewrite cos_minus, sin_minus, cos_PI, sin_PI, K1, K2. split; field; lra.
    + assert (x = 0) by lra. subst x.
      assert (Y : (y - 1) * (y + 1) = 0) by lra.
      apply Rmult_integral in Y.
      destruct (Rlt_dec 0 y); [|destruct (Rlt_dec y 0)].
      * rewrite cos_PI2, sin_PI2. split; lra.
      * rewrite cos_neg, sin_neg, cos_PI2, sin_PI2. split; lra.
      * exfalso. lra.
Qed.
Lemma atan2_bound y x : - PI < atan2 y x <= PI.
Proof.
  pose proof PI_RGT_0. unfold atan2. pose proof (atan_bound (y / x)).
  destruct (Rlt_dec 0 x); [lra|]. destruct (Rlt_dec x 0) as [X|X].
  - destruct (Rle_dec 0 y) as [Y|Y].
    + assert (y / x <= 0).
      { unfold Rdiv. pose proof (Rinv_lt_0_compat x X).
        replace 0 with (0 * / x) by ring. 
        apply Ropp_le_cancel. replace (- (0 * / x)) with (0 * - / x) by ring.
        replace (- (y * / x)) with (y * - / x) by ring. apply Rmult_le_compat_r; lra. }
      assert (atan (y / x) <= 0).
      { rewrite <- atan_0. destruct (Rle_lt_or_eq_dec _ _ H1) as [L|E].
        - left. apply atan_increasing. exact L.
        - rewrite E. lra. }
      lra.
    + assert (0 < y / x).
      { unfold Rdiv. pose proof (Rinv_lt_0_compat x X).
        replace (y * / x) with (- y * - / x) by ring. apply Rmult_lt_0_compat; lra. }
      assert (0 < atan (y / x)) by (rewrite <- atan_0; apply atan_increasing; assumption).
      lra.
  - destruct (Rlt_dec 0 y); [lra|]. destruct (Rlt_dec y 0); lra.
Qed.

(** ** Rigid motions *)
Lemma rigid_det t : rigid t -> t2det t = 1.
Proof. intros (A & B & C). unfold t2det. rewrite <- A. rewrite B in C. nra. Qed.
Lemma rigid_pose p : rigid (getTransFromPose p).
Proof. unfold rigid. cbn. split; [ring|]. split; [ring|]. apply sc2. Qed.
Lemma rigid_id : rigid t2id.
Proof. unfold rigid. cbn. repeat split; ring. Qed.
Lemma rigid_mul s t : rigid s -> rigid t -> rigid (t2mul s t).
Proof.
  intros (A & B & C) (D & E & F). unfold rigid. cbn [t2mul ta tb tc td].
  rewrite <- A, <- D. rewrite B, E in *.
  split; [ring|]. split; [ring|].
  replace ((ta s * ta t + tb s * - tb t) * (ta s * ta t + tb s * - tb t) +
           (- tb s * ta t + ta s * - tb t) * (- tb s * ta t + ta s * - tb t))
    with ((ta s * ta s + - tb s * - tb s) * (ta t * ta t + - tb t * - tb t)) by ring.
  rewrite C, F. ring.
Qed.
Lemma rigid_inv t : rigid t -> rigid (t2inv t).
Proof.
  intro R. pose proof (rigid_det t R) as D. destruct R as (A & B & C).
  unfold rigid, t2inv. cbn [ta tb tc td]. rewrite D, Rinv_1, <- A, B in *.
  split; [ring|]. split; [ring|]. lra.
Qed.
Lemma t2mul_assoc a b c : t2mul (t2mul a b) c = t2mul a (t2mul b c).
Proof. apply T2_eq; cbn; ring. Qed.
Lemma t2mul_id_l a : t2mul t2id a = a.
Proof. apply T2_eq; cbn; ring. Qed.
Lemma t2mul_id_r a : t2mul a t2id = a.
Proof. apply T2_eq; cbn; ring. Qed.
Lemma t2inv_l t : t2det t <> 0 -> t2mul (t2inv t) t = t2id.
Proof. intro D. unfold t2det in D. apply T2_eq; cbn; unfold t2det; field; exact D. Qed.
Lemma t2inv_r t : t2det t <> 0 -> t2mul t (t2inv t) = t2id.
Proof. intro D. unfold t2det in D. apply T2_eq; cbn; unfold t2det; field; exact D. Qed.
Lemma rigid_nz t : rigid t -> t2det t <> 0.
Proof. intro R. rewrite (rigid_det t R). lra. Qed.
Lemma t2inv_unique s t : t2det t <> 0 -> t2mul s t = t2id -> s = t2inv t.
Proof.
  intros D E. rewrite <- (t2mul_id_r s), <- (t2inv_r t D), <- t2mul_assoc, E. apply t2mul_id_l.
Qed.
Lemma t2apply_mul s t p : t2apply (t2mul s t) p = t2apply s (t2apply t p).
Proof. unfold t2apply. cbn [fst snd t2mul ta tb tc td tx ty]. f_equal; ring. Qed.

Lemma rigid_rotation t : rigid t -> t2rotation t = (ta t, tc t).
Proof.
  intros (A & B & C). unfold t2rotation. rewrite <- A.
  replace (tc t - tb t) with (2 * tc t) by (rewrite B; ring).
  replace ((ta t + ta t) * (ta t + ta t) + 2 * tc t * (2 * tc t)) with (2²)
    by (unfold Rsqr; nra).
  rewrite sqrt_Rsqr by lra.
  destruct (Req_EM_T 2 0) as [E|_]; [lra|]. f_equal; field.
Qed.
Lemma rigid_angle t : rigid t -> cos (getAngle t) = ta t /\ sin (getAngle t) = tc t.
Proof.
  intro R. unfold getAngle. rewrite (rigid_rotation t R). cbn [fst snd].
  apply unit_angle. apply R.
Qed.

Theorem pose_of_trans p : getPoseFromTransform (getTransFromPose p) =
  mkP (px p) (py p) (normalizeAngle (pth p)).
Proof.
  unfold getPoseFromTransform, getAngle. rewrite (rigid_rotation _ (rigid_pose p)). reflexivity.
Qed.
Theorem trans_of_pose t : rigid t -> getTransFromPose (getPoseFromTransform t) = t.
Proof.
  intro R. destruct (rigid_angle t R) as [C S]. destruct R as (A & B & _).
  apply T2_eq; cbn; rewrite ?C, ?S; lra.
Qed.
Lemma trans_normal x y a : getTransFromPose (mkP x y (normalizeAngle a)) = getTransFromPose (mkP x y a).
Proof. unfold getTransFromPose. cbn. rewrite sin_normalize, cos_normalize. reflexivity. Qed.
Lemma pose_of_trans_range t : - PI < pth (getPoseFromTransform t) <= PI.
Proof. apply atan2_bound. Qed.

Lemma orth_rotz a : rotation (rotz a).
Proof.
  pose proof (sc2 a). split.
  - apply M3_eq; unfold rotz; mcomp; lra.
  - unfold rotz. mcomp. lra.
Qed.
Theorem conversions p t polar : (forall m, rotation m -> polar m = m) -> rigid t ->
  matToVec2d (vecToMat2d p) = mkP (px p) (py p) (normalizeAngle (pth p)) /\
  vecToMat2d (matToVec2d t) = t /\
  matToVec2d4 polar (vecToMat3d p) = mkP (px p) (py p) (normalizeAngle (pth p)) /\
  convertToTransform (vecToMat3d p) = getTransFromPose p /\
  convertToTransform (convertFromTransform t) = t /\
  matToVec2d4 polar (convertFromTransform t) = getPoseFromTransform t.
Proof.
  intros P R. split; [exact (pose_of_trans p)|]. split; [exact (trans_of_pose t R)|].
  split.
  { unfold matToVec2d4, vecToMat3d. cbn [q_lin q_tr]. rewrite P by apply orth_rotz. reflexivity. }
  split; [reflexivity|]. split; [exact (trans_of_pose t R)|].
  unfold matToVec2d4, convertFromTransform. cbn [q_lin q_tr]. rewrite P by apply orth_rotz.
  apply pose_eq; try reflexivity.
  cbn [pth rotz m21 m11]. apply atan2_polar. apply pose_of_trans_range.
Qed.

Lemma getAngle_mul_pose p t : rigid t ->
  getAngle (t2mul (getTransFromPose p) t) = normalizeAngle (pth p + getAngle t).
Proof.
  intro R. unfold getAngle at 1.
  rewrite (rigid_rotation _ (rigid_mul _ _ (rigid_pose p) R)). cbn [fst snd t2mul ta tb tc td getTransFromPose].
  destruct (rigid_angle t R) as [C S]. unfold normalizeAngle.
  rewrite cos_plus, sin_plus, C, S. f_equal; ring.
Qed.

(** ** Frames *)
Lemma inv_pose_apply p w : t2apply (t2inv (getTransFromPose p)) w = seen_from p w.
Proof.
  unfold t2apply, t2inv, seen_from. rewrite (rigid_det _ (rigid_pose p)), Rinv_1.
  destruct w. cbn. f_equal; ring.
Qed.
Lemma frames_eq p q : transBtwFrames p q =
  t2mul (t2inv (getTransFromPose q)) (getTransFromPose p).
Proof.
  unfold transBtwFrames. cbv zeta.
  pose proof (sc2 (pth q)) as Q.
  apply T2_eq; cbn; unfold t2det; cbn;
    replace (cos (pth q) * cos (pth q) - - sin (pth q) * sin (pth q)) with 1 by lra;
    replace ((cos (pth q) * 1 + - sin (pth q) * 0) * (sin (pth q) * 0 + cos (pth q) * 1) -
             (cos (pth q) * 0 + - sin (pth q) * 1) * (sin (pth q) * 1 + cos (pth q) * 0)) with 1 by lra;
    rewrite ?Rinv_1; ring.
Qed.
Theorem frames_spec p q w : t2apply (transBtwFrames p q) (seen_from p w) = seen_from q w.
Proof.
  rewrite frames_eq, t2apply_mul, <- (inv_pose_apply p w).
  rewrite <- (t2apply_mul (getTransFromPose p)), t2inv_r by apply rigid_nz, rigid_pose.
  rewrite inv_pose_apply. f_equal. destruct w. unfold t2apply. cbn. f_equal; ring.
Qed.
Theorem frames_group p q r :
  transBtwFrames p p = t2id /\
  t2mul (transBtwFrames q p) (transBtwFrames p q) = t2id /\
  t2mul (transBtwFrames q r) (transBtwFrames p q) = transBtwFrames p r /\
  rigid (transBtwFrames p q).
Proof.
  rewrite !frames_eq.
  split; [apply t2inv_l, rigid_nz, rigid_pose|].
  assert (K : forall a b c, t2mul (t2mul (t2inv (getTransFromPose c)) (getTransFromPose b))
                (t2mul (t2inv (getTransFromPose b)) (getTransFromPose a)) =
              t2mul (t2inv (getTransFromPose c)) (getTransFromPose a)).
  { intros a b c. rewrite t2mul_assoc, <- (t2mul_assoc (getTransFromPose b)).
    rewrite t2inv_r by apply rigid_nz, rigid_pose. rewrite t2mul_id_l. reflexivity. }
  split.
  { rewrite K. apply t2inv_l, rigid_nz, rigid_pose. }
  split; [apply K|]. apply rigid_mul; [apply rigid_inv|]; apply rigid_pose.
Qed.
Lemma transBtwPoses_pose p q : getPoseFromTransform (transBtwPoses p q) =
  mkP (px q - px p) (py q - py p) (normalizeAngle (pth q - pth p)).
Proof.
  unfold transBtwPoses. rewrite pose_of_trans. cbn [px py pth]. f_equal.
  apply normalize_id. apply normalize_wrapped.
Qed.
Theorem transform_between p q :
  transformPose p (transBtwPoses p q) = mkP (px q) (py q) (normalizeAngle (pth q)).
Proof.
  unfold transformPose. rewrite transBtwPoses_pose. cbn [px py pth].
  apply pose_eq; cbn [px py pth]; try ring.
  destruct (normalize_wrapped (pth q - pth p)) as [_ [k ->]].
  replace (pth p + (pth q - pth p + IZR k * (2 * PI))) with (pth q + IZR k * (2 * PI)) by ring.
  apply normalize_period.
Qed.
Theorem concat_spec p t : rigid t ->
  same_pose (transformConcat p t) (compose p (getPoseFromTransform t)) /\
  - PI < pth (transformConcat p t) <= PI /\
  getTransFromPose (transformConcat p t) = t2mul (getTransFromPose p) t.
Proof.
  intro R. unfold transformConcat. split; [|split].
  - unfold same_pose, getPoseFromTransform. cbn [px py pth].
    rewrite (getAngle_mul_pose p t R). cbn.
    split; [ring|]. split; [ring|].
    destruct (normalize_wrapped (pth p + getAngle t)) as [_ [k ->]]. exists k. reflexivity.
  - apply pose_of_trans_range.
  - apply trans_of_pose. apply rigid_mul; [apply rigid_pose|exact R].
Qed.

(** ** Constraint error *)
Lemma rel_pose x y z : calcError x y z =
  mkP (cos (pth z) * (cos (pth x) * (px y - px x) + sin (pth x) * (py y - py x) - px z) +
       sin (pth z) * (- sin (pth x) * (px y - px x) + cos (pth x) * (py y - py x) - py z))
      (- sin (pth z) * (cos (pth x) * (px y - px x) + sin (pth x) * (py y - py x) - px z) +
       cos (pth z) * (- sin (pth x) * (px y - px x) + cos (pth x) * (py y - py x) - py z))
      (normalizeAngle (pth y - pth x - pth z)).
Proof.
  unfold calcError.
  assert (R : rigid (t2mul (t2inv (getTransFromPose z))
    (t2mul (t2inv (getTransFromPose x)) (getTransFromPose y)))).
  { apply rigid_mul; [apply rigid_inv, rigid_pose|].
    apply rigid_mul; [apply rigid_inv|]; apply rigid_pose. }
  unfold getPoseFromTransform, getAngle. rewrite (rigid_rotation _ R). cbn [fst snd].
  unfold t2inv. rewrite (rigid_det _ (rigid_pose z)), (rigid_det _ (rigid_pose x)), Rinv_1.
  apply pose_eq; cbn; [ring|ring|].
  unfold normalizeAngle. replace (pth y - pth x - pth z) with (pth y + - (pth x + pth z)) by ring.
  rewrite (sin_plus (pth y)), (cos_plus (pth y)), sin_neg, cos_neg, (sin_plus (pth x)), (cos_plus (pth x)).
  f_equal; ring.
Qed.
Lemma normalize_zero a : normalizeAngle a = 0 <-> exists k : Z, a = IZR k * (2 * PI).
Proof.
  split.
  - intro H. destruct (normalize_wrapped a) as [_ [k E]]. exists (- k)%Z.
    rewrite opp_IZR. lra.
  - intros [k ->]. replace (IZR k * (2 * PI)) with (0 + IZR k * (2 * PI)) by ring.
    rewrite normalize_period. apply normalize_id. pose proof PI_RGT_0. lra.
Qed.
Theorem error_zero x y z : calcError x y z = mkP 0 0 0 <-> same_pose y (compose x z).
Proof.
  rewrite rel_pose. pose proof (sc2 (pth z)) as Z. pose proof (sc2 (pth x)) as X.
  set (u := cos (pth x) * (px y - px x) + sin (pth x) * (py y - py x) - px z).
  set (v := - sin (pth x) * (px y - px x) + cos (pth x) * (py y - py x) - py z).
  unfold same_pose, compose. cbn [px py pth]. split.
  - intro H. injection H as H1 H2 H3.
    assert (U : u = 0).
    { replace u with ((cos (pth z) * cos (pth z) + sin (pth z) * sin (pth z)) * u) by (rewrite Z; ring).
      replace 0 with (cos (pth z) * (cos (pth z) * u + sin (pth z) * v) -
        sin (pth z) * (- sin (pth z) * u + cos (pth z) * v)) by (rewrite H1, H2; ring). ring. }
    assert (V : v = 0).
    { replace v with ((cos (pth z) * cos (pth z) + sin (pth z) * sin (pth z)) * v) by (rewrite Z; ring).
      replace 0 with (sin (pth z) * (cos (pth z) * u + sin (pth z) * v) +
        cos (pth z) * (- sin (pth z) * u + cos (pth z) * v)) by (rewrite H1, H2; ring). ring. }
    unfold u, v in U, V.
    assert (Eu : px z = cos (pth x) * (px y - px x) + sin (pth x) * (py y - py x)) by lra.
    assert (Ev : py z = - sin (pth x) * (px y - px x) + cos (pth x) * (py y - py x)) by lra.
    rewrite Eu, Ev.
    split; [|split].
    + replace (px x + cos (pth x) * (cos (pth x) * (px y - px x) + sin (pth x) * (py y - py x)) -
        sin (pth x) * (- sin (pth x) * (px y - px x) + cos (pth x) * (py y - py x)))
      with (px x + (cos (pth x) * cos (pth x) + sin (pth x) * sin (pth x)) * (px y - px x)) by ring.
      rewrite X. ring.
    + replace (py x + sin (pth x) * (cos (pth x) * (px y - px x) + sin (pth x) * (py y - py x)) +
        cos (pth x) * (- sin (pth x) * (px y - px x) + cos (pth x) * (py y - py x)))
      with (py x + (cos (pth x) * cos (pth x) + sin (pth x) * sin (pth x)) * (py y - py x)) by ring.
      rewrite X. ring.
    + apply normalize_zero in H3. destruct H3 as [k Hk]. exists k. lra.
  - intros (H1 & H2 & k & H3).
    assert (U : u = 0).
    { unfold u. rewrite H1, H2.
      replace (cos (pth x) * (px x + cos (pth x) * px z - sin (pth x) * py z - px x) +
        sin (pth x) * (py x + sin (pth x) * px z + cos (pth x) * py z - py x) - px z)
      with ((cos (pth x) * cos (pth x) + sin (pth x) * sin (pth x)) * px z - px z) by ring.
      rewrite X. ring. }
    assert (V : v = 0).
    { unfold v. rewrite H1, H2.
      replace (- sin (pth x) * (px x + cos (pth x) * px z - sin (pth x) * py z - px x) +
        cos (pth x) * (py x + sin (pth x) * px z + cos (pth x) * py z - py x) - py z)
      with ((cos (pth x) * cos (pth x) + sin (pth x) * sin (pth x)) * py z - py z) by ring.
      rewrite X. ring. }
    rewrite U, V. f_equal; try ring.
    apply normalize_zero. exists k. lra.
Qed.
