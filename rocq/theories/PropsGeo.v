(** Properties of the node and of the geometry helpers, C47-C56 and C79.  Only
    statements, non-vacuity examples and [Print Assumptions]; the proofs live in
    GeoProofs.v, GeoCov.v and NodeProofs.v. *)
From Coq Require Import Reals List ZArith Bool Lra Lia.
From Verif Require Import Base LinAlg3 GeoModel GeoSpec GeoProofs GeoCov NodeModel NodeSpec NodeProofs.
Import ListNotations.
Open Scope R_scope.

(** ** A concrete node: the algorithm adds up the increments. *)
Definition ex_alg (a : T2) (t : T2) (c : M3) (s : list unit) (z : Z) : T2 * pose :=
  (t2mul a t, getPoseFromTransform (t2mul a t)).
Definition ex_msg (z : Z) (x : R) : nmsg unit :=
  mkMsg z (Some (vecToMat3d (mkP x 0 0))) (Some (repeat tt 400)) None.
Definition ex_short (z : Z) (x : R) : nmsg unit :=
  mkMsg z (Some (vecToMat3d (mkP x 0 0))) (Some (repeat tt 399)) None.
Lemma ex_accepted z x : accepted (ex_msg z x) = Some (getPoseFromTransform (convertToTransform (vecToMat3d (mkP x 0 0)))) /\
  accepted (ex_short z x) = None.
Proof. split; reflexivity. Qed.

(** ** C47 *)
(** Full property: after each processed message.  Proved from the second
    processed message on; what happens at the first one is C49. *)
Theorem C47_transform_consistent_partial {Alg Scan : Type}
    (update : Alg -> T2 -> M3 -> list Scan -> Z -> Alg * pose) a l m n o odom :
  nrun update a (l ++ [m]) = Ok (n, o) -> accepted m = Some odom -> odometry l <> [] ->
  exists t s, last_opt (sent o) = Some (ms_time m, Some t) /\ last_opt (estimates o) = Some s /\
    tf_mul t (eigenPoseToTF odom) = eigenPoseToTF s.
Proof. exact (node_tf update a l m n o odom). Qed.
Print Assumptions C47_transform_consistent_partial.
(** What the tf values mean: rotation about z by the angle of the pose, so that
    products of transforms are compositions of poses. *)
Theorem C47_tf_values p d : eigenPoseToTF p = mkTF (rotz (pth p)) (mkV (px p) (py p) 0) /\
  tf_mul (eigenPoseToTF p) (eigenPoseToTF d) = eigenPoseToTF (compose p d).
Proof. exact (conj (eigenPoseToTF_spec p) (tf_mul_compose p d)). Qed.
Print Assumptions C47_tf_values.
Example C47_example : exists n o odom,
  nrun ex_alg t2id ([ex_msg 1 0; ex_short 2 1] ++ [ex_msg 3 5]) = Ok (n, o) /\
  accepted (ex_msg 3 5) = Some odom /\ odometry [ex_msg 1 0; ex_short 2 1] <> [].
Proof.
  eexists _, _, _. split; [reflexivity|]. split; [reflexivity|]. cbn. discriminate.
Qed.

(** ** C48 *)
Theorem C48_increments_telescope {Alg Scan : Type}
    (update : Alg -> T2 -> M3 -> list Scan -> Z -> Alg * pose) a l n o p ps :
  nrun update a l = Ok (n, o) -> odometry l = p :: ps ->
  product (increments o) =
    t2mul (t2inv (getTransFromPose p)) (getTransFromPose (last (p :: ps) p)) /\
  length (increments o) = length (odometry l).
Proof. exact (node_telescope update a l n o p ps). Qed.
Print Assumptions C48_increments_telescope.
(** Every sequence of messages is handled. *)
Theorem C48_defined {Alg Scan : Type}
    (update : Alg -> T2 -> M3 -> list Scan -> Z -> Alg * pose) a (l : list (nmsg Scan)) :
  Forall well_formed l -> exists n o, nrun update a l = Ok (n, o).
Proof. exact (nrun_defined update a l). Qed.
Print Assumptions C48_defined.
Example C48_example : exists n o p ps,
  nrun ex_alg t2id [ex_msg 1 0; ex_short 2 1; ex_msg 3 5; ex_msg 4 6] = Ok (n, o) /\
  odometry [ex_msg 1 0; ex_short 2 1; ex_msg 3 5; ex_msg 4 6] = p :: ps /\ length ps = 2%nat /\
  Forall well_formed [ex_msg 1 0; ex_short 2 1; ex_msg 3 5; ex_msg 4 6].
Proof.
  eexists _, _, _, _. split; [reflexivity|]. split; [reflexivity|]. split; [reflexivity|].
  repeat constructor; unfold well_formed; cbn; discriminate.
Qed.

(** ** C49 *)
(** Full property: every published transform was computed.  Proved of those sent
    after two messages have been accepted; those sent before are exactly the
    undetermined ones. *)
Theorem C49_published_known_partial {Alg Scan : Type}
    (update : Alg -> T2 -> M3 -> list Scan -> Z -> Alg * pose) a l n o :
  nrun update a l = Ok (n, o) ->
  forall k t x, nth_error (sent o) k = Some (t, x) ->
    (x = None <-> (length (odometry (firstn (S k) l)) < 2)%nat) /\
    (forall y, x = Some y -> exists odom s, y = tfTrans odom s /\
       last_opt (odometry (firstn (S k) l)) = Some odom /\
       nth_error (estimates o) (length (odometry (firstn (S k) l)) - 1) = Some s).
Proof. exact (fun R => proj2 (node_sent_known update a l n o R)). Qed.
Print Assumptions C49_published_known_partial.
Theorem C49_published_unknown_refuted : exists n o n' o',
  nrun ex_alg t2id [ex_msg 7 5] = Ok (n, o) /\ sent o = [(7%Z, None)] /\ length (estimates o) = 1%nat /\
  nrun ex_alg t2id [ex_short 7 5] = Ok (n', o') /\ sent o' = [(7%Z, None)] /\ estimates o' = [].
Proof.
  exact (ex_intro _ _ (ex_intro _ _ (ex_intro _ _ (ex_intro _ _
    (conj eq_refl (conj eq_refl (conj eq_refl (conj eq_refl (conj eq_refl eq_refl))))))))).
Qed.
Print Assumptions C49_published_unknown_refuted.
Example C49_example : exists n o x,
  nrun ex_alg t2id [ex_msg 1 0; ex_msg 2 1; ex_short 3 1] = Ok (n, o) /\ nth_error (sent o) 2 = Some (3%Z, Some x).
Proof. eexists _, _, _. split; [reflexivity|]. reflexivity. Qed.

(** ** C79 *)
Theorem C79_one_transform_per_message {Alg Scan : Type}
    (update : Alg -> T2 -> M3 -> list Scan -> Z -> Alg * pose) a l n o :
  nrun update a l = Ok (n, o) -> map fst (sent o) = map (@ms_time Scan) l.
Proof. exact (fun R => proj1 (node_sent_known update a l n o R)). Qed.
Print Assumptions C79_one_transform_per_message.

(** ** C50 *)
Theorem C50_planar_covariance l : length l = 36%nat ->
  arrayToMatrix l = Ok (mkM (entry6 l 0 0) (entry6 l 0 1) (entry6 l 0 5)
                            (entry6 l 1 0) (entry6 l 1 1) (entry6 l 1 5)
                            (entry6 l 5 0) (entry6 l 5 1) (entry6 l 5 5)).
Proof. exact (arrayToMatrix_spec l). Qed.
Print Assumptions C50_planar_covariance.
Theorem C50_symmetric l m : length l = 36%nat ->
  (forall r c, (r < 6)%nat -> (c < 6)%nat -> entry6 l r c = entry6 l c r) ->
  arrayToMatrix l = Ok m -> sym m.
Proof. exact (arrayToMatrix_sym l m). Qed.
Print Assumptions C50_symmetric.
Example C50_example : exists l, length l = 36%nat /\ entry6 l 5 5 = 7 /\
  (forall r c, (r < 6)%nat -> (c < 6)%nat -> entry6 l r c = entry6 l c r).
Proof.
  exists (repeat 7 36). split; [reflexivity|]. split; [reflexivity|].
  assert (A : forall k, (k < 36)%nat -> nth k (repeat 7 36) 0 = 7) by (intros; apply nth_repeat_lt || (do 36 (destruct k as [|k]; [reflexivity|]); lia)).
  intros r c H H'. unfold entry6. rewrite !A by lia. reflexivity.
Qed.

(** ** C51 *)
Theorem C51_conversions p t polar : (forall m, rotation m -> polar m = m) -> rigid t ->
  getPoseFromTransform (getTransFromPose p) = mkP (px p) (py p) (normalizeAngle (pth p)) /\
  getTransFromPose (getPoseFromTransform t) = t /\
  matToVec2d (vecToMat2d p) = mkP (px p) (py p) (normalizeAngle (pth p)) /\
  vecToMat2d (matToVec2d t) = t /\
  matToVec2d4 polar (vecToMat3d p) = mkP (px p) (py p) (normalizeAngle (pth p)) /\
  convertToTransform (vecToMat3d p) = getTransFromPose p /\
  convertToTransform (convertFromTransform t) = t /\
  matToVec2d4 polar (convertFromTransform t) = getPoseFromTransform t.
Proof. exact (fun P R => conj (pose_of_trans p) (conj (trans_of_pose t R) (conversions p t polar P R))). Qed.
Print Assumptions C51_conversions.
Example C51_example : rigid (getTransFromPose (mkP 1 2 3)) /\
  (forall m, rotation m -> (fun m : M3 => m) m = m) /\ ~ rigid (mkT2 2 0 0 2 0 0).
Proof. split; [apply rigid_pose|]. split; [reflexivity|]. intros (_ & _ & H). cbn in H. lra. Qed.
(** What a transform made from a pose does to points. *)
Theorem C51_meaning p w : t2apply (getTransFromPose p) w =
  (px p + cos (pth p) * fst w - sin (pth p) * snd w, py p + sin (pth p) * fst w + cos (pth p) * snd w).
Proof. exact (trans_apply p w). Qed.
Print Assumptions C51_meaning.

(** A pose sent as a message places points as the pose does. *)
Theorem C51_message p v :
  quat_unit (snd (eigenToPoseMsg p)) /\
  vadd (fst (eigenToPoseMsg p)) (quat_rotate (snd (eigenToPoseMsg p)) v) =
    mkV (px p + cos (pth p) * vx v - sin (pth p) * vy v) (py p + sin (pth p) * vx v + cos (pth p) * vy v) (vz v).
Proof. exact (pose_msg p v). Qed.
Print Assumptions C51_message.
(** The displacement of a transform is how far it moves the origin. *)
Theorem C51_displacement t : 0 <= getDisplacement t /\
  getDisplacement t * getDisplacement t =
    fst (t2apply t (0, 0)) * fst (t2apply t (0, 0)) + snd (t2apply t (0, 0)) * snd (t2apply t (0, 0)).
Proof. exact (displacement_spec t). Qed.
Print Assumptions C51_displacement.

(** ** C52 *)
Theorem C52_normalize a : wrapped a (normalizeAngle a) /\
  (forall b, wrapped a b -> b = normalizeAngle a) /\
  normalizeAngle (normalizeAngle a) = normalizeAngle a.
Proof. exact (normalize_spec a). Qed.
Print Assumptions C52_normalize.
Theorem C52_difference p q : wrapped (pth q - pth p) (getAngleDiffrence p q).
Proof. exact (normalize_wrapped (pth q - pth p)). Qed.
Print Assumptions C52_difference.
Theorem C52_add a b : px (addPoses a b) = px a + px b /\ py (addPoses a b) = py a + py b /\
  wrapped (pth a + pth b) (pth (addPoses a b)).
Proof. exact (add_poses a b). Qed.
Print Assumptions C52_add.
Example C52_example : wrapped (3 * PI) PI /\ ~ wrapped 0 (- PI).
Proof.
  pose proof PI_RGT_0. split.
  - split; [lra|]. exists (-1)%Z. lra.
  - intros [[H1 H2] _]. lra.
Qed.

(** ** C53 *)
Theorem C53_frames p q w : t2apply (transBtwFrames p q) (seen_from p w) = seen_from q w.
Proof. exact (frames_spec p q w). Qed.
Print Assumptions C53_frames.
Theorem C53_group p q r :
  transBtwFrames p p = t2id /\
  t2mul (transBtwFrames q p) (transBtwFrames p q) = t2id /\
  t2mul (transBtwFrames q r) (transBtwFrames p q) = transBtwFrames p r /\
  rigid (transBtwFrames p q).
Proof. exact (frames_group p q r). Qed.
Print Assumptions C53_group.
Theorem C53_between p q :
  transformPose p (transBtwPoses p q) = mkP (px q) (py q) (normalizeAngle (pth q)).
Proof. exact (transform_between p q). Qed.
Print Assumptions C53_between.
Theorem C53_concat p t : rigid t ->
  same_pose (transformConcat p t) (compose p (getPoseFromTransform t)) /\
  - PI < pth (transformConcat p t) <= PI /\
  getTransFromPose (transformConcat p t) = t2mul (getTransFromPose p) t.
Proof. exact (concat_spec p t). Qed.
Print Assumptions C53_concat.
Example C53_example : seen_from (mkP 1 1 0) (3, 1) = (2, 0).
Proof. unfold seen_from. cbn. rewrite cos_0, sin_0. f_equal; ring. Qed.

(** ** C54 *)
Theorem C54_error_zero x y z : calcError x y z = mkP 0 0 0 <-> same_pose y (compose x z).
Proof. exact (error_zero x y z). Qed.
Print Assumptions C54_error_zero.
(** Full property: the blocks are the partial derivatives.  Proved wherever the
    angle error is not exactly half a turn. *)
Theorem C54_jacobians_partial xi xj z : normalizeAngle (pth xj - pth xi - pth z) <> PI ->
  is_jacobian (fun x => calcError x xj z) xi (fst (calcJacobianBlocks xi xj z)) /\
  is_jacobian (fun x => calcError xi x z) xj (snd (calcJacobianBlocks xi xj z)).
Proof. exact (fun N => conj (jacobian_first xi xj z N) (jacobian_second xi xj z N)). Qed.
Print Assumptions C54_jacobians_partial.
(** There the error jumps and has no derivative. *)
Theorem C54_no_jacobian_at_cut_refuted xi xj z j : normalizeAngle (pth xj - pth xi - pth z) = PI ->
  ~ is_jacobian (fun x => calcError xi x z) xj j.
Proof. exact (jacobian_at_cut xi xj z j). Qed.
Print Assumptions C54_no_jacobian_at_cut_refuted.
Example C54_example : normalizeAngle (1 - 0 - 0) <> PI /\ normalizeAngle (PI - 0 - 0) = PI /\
  calcError (mkP 1 2 0) (mkP 3 5 1) (mkP 2 3 1) = mkP 0 0 0.
Proof.
  pose proof PI_RGT_0. pose proof PI2_3_2. split; [|split].
  - rewrite normalize_id; lra.
  - rewrite normalize_id; lra.
  - apply error_zero. unfold same_pose, compose. cbn. rewrite cos_0, sin_0.
    split; [ring|]. split; [ring|]. exists 0%Z. ring.
Qed.

(** ** C55 *)
Theorem C55_stays_psd c1 c2 t : psd c1 -> psd c2 -> psd (addToCovar c1 c2 t).
Proof. exact (addToCovar_psd c1 c2 t). Qed.
Print Assumptions C55_stays_psd.
(** Full property: [addToCovar] is first-order propagation through composition.
    Proved when the accumulated pose and the increment turn by the same angle;
    the code takes the angle of the increment where that of the accumulated pose
    is needed. *)
Theorem C55_propagation_partial p d c1 c2 j1 j2 (k : Z) :
  pth p = pth d + IZR k * (2 * PI) ->
  is_jacobian (fun q => compose q d) p j1 -> is_jacobian (fun e => compose p e) d j2 ->
  addToCovar c1 c2 (getTransFromPose d) = propagate j1 j2 c1 c2.
Proof. exact (addToCovar_propagates p d c1 c2 j1 j2 k). Qed.
Print Assumptions C55_propagation_partial.
Example C55_example : exists p d j1 j2, pth p = pth d + IZR 1 * (2 * PI) /\ px d = 4 /\
  is_jacobian (fun q => compose q d) p j1 /\ is_jacobian (fun e => compose p e) d j2 /\ psd (mdiag 1 2 3).
Proof.
  exists (mkP 1 2 (1 + IZR 1 * (2 * PI))), (mkP 4 5 1). eexists _, _.
  split; [reflexivity|]. split; [reflexivity|].
  split; [apply compose_jacobian1|]. split; [apply compose_jacobian2|].
  split; [apply sym_diag|]. intro v. rewrite quad_diag. destruct v. cbn. nra.
Qed.
Theorem C55_propagation_refuted : exists p d c1 c2 j1 j2, psd c1 /\ psd c2 /\
  is_jacobian (fun q => compose q d) p j1 /\ is_jacobian (fun e => compose p e) d j2 /\
  addToCovar c1 c2 (getTransFromPose d) <> propagate j1 j2 c1 c2.
Proof. exact addToCovar_wrong. Qed.
Print Assumptions C55_propagation_refuted.
(** Full property: associativity.  Proved for motions without turning. *)
Theorem C55_associative_partial c0 c1 c2 x1 y1 x2 y2 :
  addToCovar (addToCovar c0 c1 (getTransFromPose (mkP x1 y1 0))) c2 (getTransFromPose (mkP x2 y2 0)) =
  addToCovar c0 (addToCovar c1 c2 (getTransFromPose (mkP x2 y2 0)))
    (t2mul (getTransFromPose (mkP x1 y1 0)) (getTransFromPose (mkP x2 y2 0))).
Proof. exact (addToCovar_assoc_translations c0 c1 c2 x1 y1 x2 y2). Qed.
Print Assumptions C55_associative_partial.
Theorem C55_associative_refuted : exists c0 c1 c2 t1 t2, psd c0 /\ psd c1 /\ psd c2 /\ rigid t1 /\ rigid t2 /\
  addToCovar (addToCovar c0 c1 t1) c2 t2 <> addToCovar c0 (addToCovar c1 c2 t2) (t2mul t1 t2).
Proof. exact addToCovar_not_assoc. Qed.
Print Assumptions C55_associative_refuted.

(** ** C56 *)
(** Full property: true and an inverse of the adjusted matrix, and no adjustment
    of well-conditioned matrices.  The second half is false for every matrix:
    the result always differs from the argument. *)
Theorem C56_inverse_partial eig cov : eigen_solver eig -> sym cov ->
  (trace cov <= 0 -> covarInverse eig cov = None) /\
  (0 < trace cov -> exists adj icov, covarInverse eig cov = Some (adj, Some icov) /\
     mmul adj icov = mid /\ mmul icov adj = mid /\ posdef adj /\ wellcond adj /\ adj <> cov).
Proof. exact (covarInverse_spec eig cov). Qed.
Print Assumptions C56_inverse_partial.
Theorem C56_unadjusted_refuted eig : eigen_solver eig -> exists adj icov,
  covarInverse eig mid = Some (adj, Some icov) /\ wellcond mid /\ posdef mid /\ adj <> mid /\ icov <> mid.
Proof. exact (covarInverse_identity eig). Qed.
Print Assumptions C56_unadjusted_refuted.
Example C56_example : eigen_solver eig3 /\ sym (mdiag 1 2 3) /\ 0 < trace (mdiag 1 2 3).
Proof. split; [exact eigen_solver_exists|]. split; [apply sym_diag|]. unfold trace. cbn. lra. Qed.
