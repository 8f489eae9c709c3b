(** Proofs about the Jacobians, the covariance helpers and the node's conversions. *)
From Coq Require Import Reals ZArith Lra Lia List Bool.
From Verif Require Import Base LinAlg3 Deriv GeoModel GeoSpec GeoProofs.
Import ListNotations.
Open Scope R_scope.

(** ** Jacobians of the constraint error *)
Lemma normalize_shift a h : - PI < normalizeAngle a + h <= PI ->
  normalizeAngle (a + h) = normalizeAngle a + h.
Proof.
  intro B. apply (wrapped_unique (a + h)); [apply normalize_wrapped|].
  split; [exact B|]. destruct (normalize_wrapped a) as [_ [k E]]. exists k. rewrite E. ring.
Qed.
Lemma D_normalize f a l : normalizeAngle (f a) <> PI -> derivable_pt_lim f a l ->
  derivable_pt_lim (fun x => normalizeAngle (f x)) a l.
Proof.
  intros N H. apply (D_eq _ _ (1 * l)); [ring|].
  apply (derivable_pt_lim_comp f normalizeAngle a l 1 H).
  destruct (normalize_wrapped (f a)) as [[L U] _].
  intros eps E.
  assert (P : 0 < Rmin (normalizeAngle (f a) + PI) (PI - normalizeAngle (f a))).
  { apply Rmin_pos; lra. }
  exists (mkposreal _ P). intros h H0 HB. cbn [pos] in HB.
  pose proof (Rmin_l (normalizeAngle (f a) + PI) (PI - normalizeAngle (f a))).
  pose proof (Rmin_r (normalizeAngle (f a) + PI) (PI - normalizeAngle (f a))).
  apply Rabs_def2 in HB. rewrite normalize_shift by lra.
  replace ((normalizeAngle (f a) + h - normalizeAngle (f a)) / h - 1) with 0 by (field; exact H0).
  rewrite Rabs_R0. exact E.
Qed.

Lemma jac_ext f g p j : (forall q, f q = g q) -> is_jacobian g p j -> is_jacobian f p j.
Proof.
  intros E (H1 & H2 & H3 & H4 & H5 & H6 & H7 & H8 & H9). unfold is_jacobian.
  repeat split; (eapply derivable_pt_lim_ext; [|eassumption]); intro z; cbn beta; rewrite E; reflexivity.
Qed.

Theorem jacobian_first xi xj z : normalizeAngle (pth xj - pth xi - pth z) <> PI ->
  is_jacobian (fun x => calcError x xj z) xi (fst (calcJacobianBlocks xi xj z)).
Proof.
  intro N. eapply jac_ext; [intro q; exact (rel_pose q xj z)|].
  unfold is_jacobian. cbn [px py pth].
  split; [|split; [|split; [|split; [|split; [|split; [|split; [|split]]]]]]].
  1-6: eapply D_eq; [|der];
       cbn [px py pth fst snd m11 m12 m13 m21 m22 m23 m31 m32 m33 calcJacobianBlocks];
       rewrite ?cos_plus, ?sin_plus; ring.
  - apply D_const.
  - apply D_const.
  - apply (D_normalize (fun x => pth xj - x - pth z)); [exact N|].
    eapply D_eq; [|der]. cbn. ring.
Qed.
Theorem jacobian_second xi xj z : normalizeAngle (pth xj - pth xi - pth z) <> PI ->
  is_jacobian (fun x => calcError xi x z) xj (snd (calcJacobianBlocks xi xj z)).
Proof.
  intro N. eapply jac_ext; [intro q; exact (rel_pose xi q z)|].
  unfold is_jacobian. cbn [px py pth].
  split; [|split; [|split; [|split; [|split; [|split; [|split; [|split]]]]]]].
  1-6: eapply D_eq; [|der];
       cbn [px py pth fst snd m11 m12 m13 m21 m22 m23 m31 m32 m33 calcJacobianBlocks];
       rewrite ?cos_plus, ?sin_plus; ring.
  - apply D_const.
  - apply D_const.
  - apply (D_normalize (fun x => x - pth xi - pth z)); [exact N|].
    eapply D_eq; [|der]. cbn. ring.
Qed.
(** At the cut the angle error jumps by a whole turn, so no matrix is right. *)
Theorem jacobian_at_cut xi xj z j : normalizeAngle (pth xj - pth xi - pth z) = PI ->
  ~ is_jacobian (fun x => calcError xi x z) xj j.
Proof.
  intros N (_ & _ & _ & _ & _ & _ & _ & _ & H).
  assert (D : derivable_pt_lim (fun x => normalizeAngle (x - pth xi - pth z)) (pth xj) (m33 j)).
  { eapply derivable_pt_lim_ext; [|exact H]. intro x. cbn beta. rewrite rel_pose. reflexivity. }
  assert (C : continuity_pt (fun x => normalizeAngle (x - pth xi - pth z)) (pth xj)).
  { apply derivable_continuous_pt. exists (m33 j). exact D. }
  pose proof PI_RGT_0 as P.
  destruct (C PI P) as (d & Dp & K).
  set (h := Rmin (d / 2) PI).
  assert (Hh : 0 < h) by (apply Rmin_pos; lra).
  pose proof (Rmin_l (d / 2) PI). pose proof (Rmin_r (d / 2) PI). fold h in H0, H1.
  specialize (K (pth xj + h)).
  assert (Q : normalizeAngle (pth xj + h - pth xi - pth z) = - PI + h).
  { apply (wrapped_unique (pth xj + h - pth xi - pth z)); [apply normalize_wrapped|].
    split; [lra|].
    destruct (normalize_wrapped (pth xj - pth xi - pth z)) as [_ [k E]].
    exists (k - 1)%Z. rewrite minus_IZR. lra. }
  unfold dist in K. cbn in K. unfold R_dist, D_x, no_cond in K.
  rewrite Q, N in K.
  assert (X : Rabs (- PI + h - PI) < PI).
  { apply K. split; [split; [exact I|lra]|].
    replace (pth xj + h - pth xj) with h by ring. rewrite Rabs_right by lra. lra. }
  apply Rabs_def2 in X. lra.
Qed.

(** ** Covariance propagation *)
Lemma psd_conj j c : psd c -> psd (mmul (mmul j c) (mtr j)).
Proof.
  intros [S P]. split; [apply sym_conj; exact S|]. intro v. rewrite quad_conj. apply P.
Qed.
Lemma psd_add a b : psd a -> psd b -> psd (madd a b).
Proof.
  intros [S P] [S' P']. split; [apply sym_add; assumption|]. intro v. rewrite quad_add.
  specialize (P v). specialize (P' v). lra.
Qed.
Theorem addToCovar_psd c1 c2 t : psd c1 -> psd c2 -> psd (addToCovar c1 c2 t).
Proof. intros A B. apply psd_add; apply psd_conj; assumption. Qed.
Theorem covar_new_psd : psd covar_new.
Proof. split; [apply sym_id|]. intro v. rewrite quad_id. apply vdot_nonneg. Qed.

Theorem compose_jacobian1 p d :
  is_jacobian (fun q => compose q d) p (jacc1 (cos (pth p)) (sin (pth p)) (px d, py d)).
Proof.
  unfold is_jacobian, compose. cbn [px py pth].
  split; [|split; [|split; [|split; [|split; [|split; [|split; [|split]]]]]]].
  all: eapply D_eq; [|der]; cbn; ring.
Qed.
Theorem compose_jacobian2 p d :
  is_jacobian (fun e => compose p e) d (jacc2 (cos (pth p)) (sin (pth p))).
Proof.
  unfold is_jacobian, compose. cbn [px py pth].
  split; [|split; [|split; [|split; [|split; [|split; [|split; [|split]]]]]]].
  all: eapply D_eq; [|der]; cbn; ring.
Qed.
(** Uniqueness: a Jacobian is determined by the function. *)
Lemma jacobian_unique f p j k : is_jacobian f p j -> is_jacobian f p k -> j = k.
Proof.
  intros (A1 & A2 & A3 & A4 & A5 & A6 & A7 & A8 & A9) (B1 & B2 & B3 & B4 & B5 & B6 & B7 & B8 & B9).
  apply M3_eq; eapply uniqueness_limite; eassumption.
Qed.
Lemma addToCovar_pose c1 c2 d : addToCovar c1 c2 (getTransFromPose d) =
  propagate (jacc1 (cos (pth d)) (sin (pth d)) (px d, py d)) (jacc2 (cos (pth d)) (sin (pth d))) c1 c2.
Proof.
  unfold addToCovar. rewrite (rigid_rotation _ (rigid_pose d)). cbn [fst snd ta tc getTransFromPose tx ty].
  change (atan2 (sin (pth d)) (cos (pth d))) with (normalizeAngle (pth d)).
  rewrite cos_normalize, sin_normalize. reflexivity.
Qed.
(** First-order propagation at [p], provided that the increment turns by the
    same angle as the accumulated pose. *)
Theorem addToCovar_propagates p d c1 c2 j1 j2 (k : Z) :
  pth p = pth d + IZR k * (2 * PI) ->
  is_jacobian (fun q => compose q d) p j1 -> is_jacobian (fun e => compose p e) d j2 ->
  addToCovar c1 c2 (getTransFromPose d) = propagate j1 j2 c1 c2.
Proof.
  intros E J1 J2. destruct (period_Z (pth d) k) as [S C]. rewrite <- E in *.
  rewrite (jacobian_unique _ _ _ _ J1 (compose_jacobian1 p d)).
  rewrite (jacobian_unique _ _ _ _ J2 (compose_jacobian2 p d)).
  rewrite addToCovar_pose, S, C. reflexivity.
Qed.
Theorem addToCovar_wrong : exists p d c1 c2 j1 j2, psd c1 /\ psd c2 /\
  is_jacobian (fun q => compose q d) p j1 /\ is_jacobian (fun e => compose p e) d j2 /\
  addToCovar c1 c2 (getTransFromPose d) <> propagate j1 j2 c1 c2.
Proof.
  exists (mkP 0 0 0), (mkP 1 0 (PI / 2)), mid, mid.
  exists (jacc1 (cos 0) (sin 0) (1, 0)), (jacc2 (cos 0) (sin 0)).
  split; [apply covar_new_psd|]. split; [apply covar_new_psd|].
  split; [exact (compose_jacobian1 (mkP 0 0 0) (mkP 1 0 (PI / 2)))|].
  split; [exact (compose_jacobian2 (mkP 0 0 0) (mkP 1 0 (PI / 2)))|].
  rewrite addToCovar_pose. cbn [px py pth]. rewrite cos_PI2, sin_PI2, cos_0, sin_0.
  intro H. apply (f_equal m13) in H. unfold propagate, jacc1, jacc2 in H. cbn in H. lra.
Qed.
Definition shift (x y : R) : T2 := getTransFromPose (mkP x y 0).
Theorem addToCovar_assoc_translations c0 c1 c2 x1 y1 x2 y2 :
  addToCovar (addToCovar c0 c1 (shift x1 y1)) c2 (shift x2 y2) =
  addToCovar c0 (addToCovar c1 c2 (shift x2 y2)) (t2mul (shift x1 y1) (shift x2 y2)).
Proof.
  assert (E : t2mul (shift x1 y1) (shift x2 y2) = shift (x1 + x2) (y1 + y2)).
  { unfold shift. apply T2_eq; cbn; rewrite ?cos_0, ?sin_0; ring. }
  rewrite E. unfold shift. rewrite !addToCovar_pose. cbn [px py pth]. rewrite cos_0, sin_0.
  unfold propagate, jacc1, jacc2. cbn [fst snd].
  destruct c0, c1, c2. apply M3_eq; cbn; ring.
Qed.
Theorem addToCovar_not_assoc : exists c0 c1 c2 t1 t2, psd c0 /\ psd c1 /\ psd c2 /\ rigid t1 /\ rigid t2 /\
  addToCovar (addToCovar c0 c1 t1) c2 t2 <> addToCovar c0 (addToCovar c1 c2 t2) (t2mul t1 t2).
Proof.
  assert (Z : psd mzero).
  { split; [unfold sym; mring|]. intro v. assert (E : quad mzero v = 0) by (unfold quad; mring). rewrite E. lra. }
  exists mzero, mzero, (mdiag 1 0 0), (getTransFromPose (mkP 0 0 (PI / 2))), (shift 0 0).
  split; [exact Z|]. split; [exact Z|].
  split. { split; [apply sym_diag|]. intro v. rewrite quad_diag. destruct v. cbn. nra. }
  split; [apply rigid_pose|]. split; [apply rigid_pose|].
  assert (E : t2mul (getTransFromPose (mkP 0 0 (PI / 2))) (shift 0 0) = getTransFromPose (mkP 0 0 (PI / 2))).
  { unfold shift. apply T2_eq; cbn; rewrite ?cos_PI2, ?sin_PI2, ?cos_0, ?sin_0; ring. }
  rewrite E. unfold shift. rewrite !addToCovar_pose. cbn [px py pth].
  rewrite cos_PI2, sin_PI2, cos_0, sin_0.
  intro H. apply (f_equal m11) in H. cbn in H. lra.
Qed.

(** ** covarInverse *)
Definition trace (m : M3) : R := m11 m + m22 m + m33 m.
Lemma trace_conj q a : orth q -> trace (mmul (mmul q a) (mtr q)) = trace a.
Proof.
  intro O. assert (C : forall x y, trace (mmul x y) = trace (mmul y x)).
  { intros x y. unfold trace. cbn. ring. }
  rewrite C, <- mmul_assoc, O, mmul_1_l. reflexivity.
Qed.
Theorem covarInverse_spec eig cov : eigen_solver eig -> sym cov ->
  (trace cov <= 0 -> covarInverse eig cov = None) /\
  (0 < trace cov -> exists adj icov, covarInverse eig cov = Some (adj, Some icov) /\
     mmul adj icov = mid /\ mmul icov adj = mid /\ posdef adj /\ wellcond adj /\ adj <> cov).
Proof.
  intros ES S. destruct (ES cov S) as (O & E & L1 & L2).
  unfold covarInverse. destruct (eig cov) as [q e]. cbn [fst snd] in *.
  assert (T : trace cov = vx e + vy e + vz e).
  { rewrite E, trace_conj by exact O. unfold trace. cbn. ring. }
  destruct (Rle_dec (vx e + vy e + vz e) 0) as [N|N].
  { split; [reflexivity|]. intro. exfalso. lra. }
  split; [intro; exfalso; lra|]. intros _.
  set (mx := Rmax 0 (Rmax (vx e) (Rmax (vy e) (vz e)))).
  assert (M : mx = vz e).
  { unfold mx. rewrite (Rmax_right (vy e)), (Rmax_right (vx e)), Rmax_right by lra. reflexivity. }
  assert (MP : 0 < mx) by (rewrite M; lra).
  destruct (Rlt_dec (0 * 100) mx) as [_|B]; [|exfalso; lra].
  set (e0 := if Rlt_dec (vx e * 100) mx then mx / 100 else vx e).
  assert (B0 : mx / 100 <= e0 <= mx).
  { unfold e0. destruct (Rlt_dec (vx e * 100) mx); rewrite M in *; lra. }
  assert (D : mdet (mdiag e0 (mx / 100) (mx / 100)) <> 0).
  { rewrite mdet_diag. assert (0 < e0 * (mx / 100) * (mx / 100)); [|lra].
    apply Rmult_lt_0_compat; [apply Rmult_lt_0_compat|]; lra. }
  set (d := mdiag e0 (mx / 100) (mx / 100)) in *.
  assert (K : covarInverse eig cov = covarInverse eig cov) by reflexivity. clear K.
  assert (Q : mmul (mtr q) q = mid) by exact O.
  pose proof (orth_r q O) as Q'.
  exists (mmul (mmul q d) (mtr q)), (mmul (mmul q (minv d)) (mtr q)).
  assert (I : forall a b, mmul a b = mid -> mmul (mmul (mmul q a) (mtr q)) (mmul (mmul q b) (mtr q)) = mid).
  { intros a b H. rewrite !mmul_assoc, <- (mmul_assoc (mtr q) q), Q, mmul_1_l.
    rewrite <- (mmul_assoc a b), H, mmul_1_l. exact Q'. }
  split; [|split; [|split; [|split; [|split]]]].
  - unfold d, e0. destruct (Rlt_dec (vx e * 100) mx); cbn [orb];
      (destruct (Req_EM_T _ 0) as [X|X]; [exfalso; apply D; exact X|reflexivity]).
  - apply I, minv_r, D.
  - apply I, minv_l, D.
  - apply posdef_conj; [exact O|]. apply posdef_diag; lra.
  - intros l k Hl Hk. apply (spec_eigenvalue q _ _ _ _ O) in Hl. apply (spec_eigenvalue q _ _ _ _ O) in Hk.
    destruct Hl as [->|[->| ->]], Hk as [->|[->| ->]]; lra.
  - intro X.
    assert (Ez : eigenvalue cov (vz e)).
    { rewrite E. apply spec_eigenvalue; [exact O|]. auto. }
    assert (Ey : eigenvalue cov (vy e)).
    { rewrite E. apply spec_eigenvalue; [exact O|]. auto. }
    assert (T2' : trace cov = e0 + mx / 100 + mx / 100).
    { rewrite <- X, trace_conj by exact O. unfold trace, d. cbn. ring. }
    rewrite <- X in Ez, Ey. apply (spec_eigenvalue q _ _ _ _ O) in Ez. apply (spec_eigenvalue q _ _ _ _ O) in Ey.
    unfold e0 in *. destruct (Rlt_dec (vx e * 100) mx); lra.
Qed.
(** The identity is as well conditioned as a covariance can be. *)
Theorem covarInverse_identity eig : eigen_solver eig -> exists adj icov,
  covarInverse eig mid = Some (adj, Some icov) /\ wellcond mid /\ posdef mid /\ adj <> mid /\ icov <> mid.
Proof.
  intro ES. destruct (covarInverse_spec eig mid ES sym_id) as [_ H].
  destruct H as (adj & icov & E & I1 & I2 & P & W & N); [unfold trace; cbn; lra|].
  exists adj, icov. split; [exact E|]. split.
  { assert (A : forall l, eigenvalue mid l -> l = 1).
    { intros l (v & N0 & Ev). rewrite mvmul_1 in Ev.
      pose proof (vdot_pos v N0) as V. apply (f_equal (vdot v)) in Ev.
      assert (Z : vdot v (vscale l v) = l * vdot v v) by mring. rewrite Z in Ev. nra. }
    intros l k Hl Hk. rewrite (A l Hl), (A k Hk). lra. }
  split; [apply posdef_id|]. split; [exact N|].
  intro X. subst icov. rewrite mmul_1_r in I1. exact (N I1).
Qed.

(** ** tf *)
Lemma half a : a * (1 / 2) + a * (1 / 2) = a. Proof. field. Qed.
Lemma quat_rotz a : quat_mat 0 0 (sin (a * (1/2))) (cos (a * (1/2))) = rotz a.
Proof.
  pose proof (sc2 (a * (1/2))) as Q. unfold quat_mat.
  replace (0 * 0 + 0 * 0 + sin (a * (1 / 2)) * sin (a * (1 / 2)) + cos (a * (1 / 2)) * cos (a * (1 / 2)))
    with 1 by lra.
  assert (C : cos a = cos (a * (1/2)) * cos (a * (1/2)) - sin (a * (1/2)) * sin (a * (1/2))).
  { rewrite <- cos_plus, half. reflexivity. }
  assert (S : sin a = 2 * (sin (a * (1/2)) * cos (a * (1/2)))).
  { rewrite <- (half a) at 1. rewrite sin_plus. ring. }
  unfold rotz. rewrite C, S. set (s := sin (a * (1/2))) in *. set (c := cos (a * (1/2))) in *.
  apply M3_eq; cbn; lra.
Qed.
Theorem eigenPoseToTF_spec p : eigenPoseToTF p = mkTF (rotz (pth p)) (mkV (px p) (py p) 0).
Proof. unfold eigenPoseToTF. rewrite quat_rotz. reflexivity. Qed.
Lemma tf_inv_r p : tf_mul (tf_inv (eigenPoseToTF p)) (eigenPoseToTF p) = mkTF mid vzero.
Proof.
  rewrite eigenPoseToTF_spec. unfold tf_mul, tf_inv. cbn [tf_b tf_o].
  destruct (orth_rotz (pth p)) as [O _]. f_equal; [exact O|].
  unfold rotz. apply V3_eq; mcomp; ring.
Qed.
Lemma tf_mul_assoc a b c : tf_mul (tf_mul a b) c = tf_mul a (tf_mul b c).
Proof.
  unfold tf_mul. cbn [tf_b tf_o]. f_equal; [apply mmul_assoc|].
  apply V3_eq; mcomp; ring.
Qed.
Theorem tfTrans_spec odom slam : tf_mul (tfTrans odom slam) (eigenPoseToTF odom) = eigenPoseToTF slam.
Proof.
  unfold tfTrans. rewrite tf_mul_assoc, tf_inv_r. unfold tf_mul. destruct (eigenPoseToTF slam) as [b o].
  cbn [tf_b tf_o]. f_equal; [apply mmul_1_r|]. apply V3_eq; mcomp; ring.
Qed.
(** The product of tf transforms is the composition of poses. *)
Theorem tf_mul_compose p d : tf_mul (eigenPoseToTF p) (eigenPoseToTF d) = eigenPoseToTF (compose p d).
Proof.
  rewrite !eigenPoseToTF_spec. unfold tf_mul, compose. cbn [tf_b tf_o px py pth].
  f_equal; [apply M3_eq|apply V3_eq]; unfold rotz; mcomp; rewrite ?cos_plus, ?sin_plus; ring.
Qed.

(** ** Covariance of a pose message *)
(** row [r], column [c] of a 6x6 matrix stored by rows *)
Definition entry6 (l : list R) (r c : nat) : R := nth (6 * r + c) l 0.
Theorem arrayToMatrix_spec l : length l = 36%nat ->
  arrayToMatrix l = Ok (mkM (entry6 l 0 0) (entry6 l 0 1) (entry6 l 0 5)
                            (entry6 l 1 0) (entry6 l 1 1) (entry6 l 1 5)
                            (entry6 l 5 0) (entry6 l 5 1) (entry6 l 5 5)).
Proof.
  intro L. unfold arrayToMatrix.
  assert (G : forall i, (i < 36)%nat -> vget l i = Ok (nth i l 0)).
  { intros i Hi. unfold vget. rewrite (nth_error_nth' l 0) by lia. reflexivity. }
  rewrite !G by lia. reflexivity.
Qed.
Theorem arrayToMatrix_sym l m : length l = 36%nat ->
  (forall r c, (r < 6)%nat -> (c < 6)%nat -> entry6 l r c = entry6 l c r) ->
  arrayToMatrix l = Ok m -> sym m.
Proof.
  intros L S E. rewrite (arrayToMatrix_spec l L) in E. injection E as <-.
  unfold sym, mtr. cbn [m11 m12 m13 m21 m22 m23 m31 m32 m33].
  rewrite (S 1%nat 0%nat), (S 5%nat 0%nat), (S 5%nat 1%nat) by lia. reflexivity.
Qed.

Theorem trans_apply p w : t2apply (getTransFromPose p) w =
  (px p + cos (pth p) * fst w - sin (pth p) * snd w, py p + sin (pth p) * fst w + cos (pth p) * snd w).
Proof. unfold t2apply. cbn. f_equal; ring. Qed.

(** ** Pose message, displacement, sum of poses *)
Theorem pose_msg p v :
  quat_unit (snd (eigenToPoseMsg p)) /\
  vadd (fst (eigenToPoseMsg p)) (quat_rotate (snd (eigenToPoseMsg p)) v) =
    mkV (px p + cos (pth p) * vx v - sin (pth p) * vy v) (py p + sin (pth p) * vx v + cos (pth p) * vy v) (vz v).
Proof.
  unfold eigenToPoseMsg, quat_unit, quat_rotate. cbn [fst snd].
  pose proof (sc2 (pth p * (1 / 2))) as Q. split; [lra|].
  assert (C : cos (pth p) = cos (pth p * (1 / 2)) * cos (pth p * (1 / 2)) - sin (pth p * (1 / 2)) * sin (pth p * (1 / 2))).
  { rewrite <- cos_plus. f_equal. field. }
  assert (S1 : sin (pth p) = sin (pth p * (1 / 2)) * cos (pth p * (1 / 2)) + cos (pth p * (1 / 2)) * sin (pth p * (1 / 2))).
  { rewrite <- sin_plus. f_equal. field. }
  rewrite C, S1.
  set (s := sin (pth p * (1 / 2))) in *. set (c := cos (pth p * (1 / 2))) in *. clearbody s c.
  replace (c * c) with (1 - s * s) by lra.
  apply V3_eq; cbn; ring.
Qed.
Theorem displacement_spec t : 0 <= getDisplacement t /\
  getDisplacement t * getDisplacement t =
    fst (t2apply t (0, 0)) * fst (t2apply t (0, 0)) + snd (t2apply t (0, 0)) * snd (t2apply t (0, 0)).
Proof.
  unfold getDisplacement. split; [apply sqrt_pos|].
  rewrite sqrt_sqrt; [cbn; ring|]. pose proof (pow2_ge_0 (tx t)). pose proof (pow2_ge_0 (ty t)). lra.
Qed.
Theorem add_poses a b : px (addPoses a b) = px a + px b /\ py (addPoses a b) = py a + py b /\
  wrapped (pth a + pth b) (pth (addPoses a b)).
Proof. unfold addPoses. cbn. split; [auto|]. split; [auto|]. apply normalize_wrapped. Qed.
