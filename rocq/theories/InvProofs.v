(** Proofs: the frame of the odometry does not matter. *)
From Coq Require Import Reals Qreals Lra List ZArith QArith Bool Lia Arith.
From Verif Require Import Base LinAlg3 GeoModel GeoSpec GeoProofs.
From Verif Require Import GraphModel LoopModel SlamModel AlgModel NodeModel NodeSpec NodeProofs.
From Verif Require Import VoxelModel GridModel MapModel ExportModel SysModel RunModel InvSpec.
Import ListNotations.
Open Scope nat_scope.
Set Default Proof Using "Type".

Lemma half_rot a : quat_mat 0 0 (sin (a * (1/2))) (cos (a * (1/2))) = rotz a.
Proof.
  unfold quat_mat, rotz. set (s := sin (a * (1/2))%R). set (c := cos (a * (1/2))%R).
  assert (U : (c * c + s * s = 1)%R) by apply sc2.
  assert (C : cos a = (c * c - s * s)%R).
  { replace a with (2 * (a * (1/2)))%R by field. rewrite cos_2a. reflexivity. }
  assert (S : sin a = (2 * s * c)%R).
  { replace a with (2 * (a * (1/2)))%R by field. rewrite sin_2a. reflexivity. }
  rewrite C, S. replace (0 * 0 + 0 * 0 + s * s + c * c)%R with 1%R by lra.
  assert (SS : (s * s = 1 - c * c)%R) by lra.
  f_equal; field_simplify; try nra.
Qed.
Lemma tf_of p : eigenPoseToTF p = mkTF (rotz (pth p)) (mkV (px p) (py p) 0).
Proof. unfold eigenPoseToTF. rewrite half_rot. reflexivity. Qed.
(** poses of composed motions *)
Lemma tf_compose S t : rigid S -> rigid t ->
  eigenPoseToTF (getPoseFromTransform (t2mul S t)) =
  tf_mul (eigenPoseToTF (getPoseFromTransform S)) (eigenPoseToTF (getPoseFromTransform t)).
Proof.
  intros RS RT. rewrite !tf_of. unfold getPoseFromTransform. cbn [px py pth].
  destruct (rigid_angle _ RS) as [CS SS]. destruct (rigid_angle _ RT) as [CT ST].
  destruct (rigid_angle _ (rigid_mul _ _ RS RT)) as [CM SM].
  unfold rotz. rewrite CS, SS, CT, ST, CM, SM.
  destruct RS as (A1 & A2 & A3), RT as (B1 & B2 & B3).
  unfold tf_mul, mmul, vadd, mvmul. cbn [tf_b tf_o m11 m12 m13 m21 m22 m23 m31 m32 m33 vx vy vz t2mul ta tb tc td tx ty].
  rewrite A1, A2. f_equal; f_equal; try ring; rewrite ?B1, ?B2; try ring.
Qed.
Lemma tf_assoc a b c : tf_mul a (tf_mul b c) = tf_mul (tf_mul a b) c.
Proof. unfold tf_mul, mmul, vadd, mvmul. cbn [tf_b tf_o m11 m12 m13 m21 m22 m23 m31 m32 m33 vx vy vz]. f_equal; f_equal; ring. Qed.
Lemma mul_rotz_inv a (m : M3) : mmul (mtr (mmul (rotz a) m)) (rotz a) = mtr m.
Proof.
  unfold mmul, mtr, rotz. cbn [m11 m12 m13 m21 m22 m23 m31 m32 m33]. pose proof (sc2 a) as U.
  assert (E : forall x y : R, ((cos a * x + - sin a * y) * cos a + (sin a * x + cos a * y) * sin a)%R = (x * (cos a * cos a + sin a * sin a))%R)
    by (intros; ring).
  destruct m as [a1 a2 a3 b1 b2 b3 c1 c2 c3]. cbn [m11 m12 m13 m21 m22 m23 m31 m32 m33].
  f_equal; try ring;
  match goal with |- _ = ?r => transitivity (r * (cos a * cos a + sin a * sin a))%R; [ring|rewrite U; ring] end.
Qed.
Lemma tf_inv_mul p b : tf_inv (tf_mul (eigenPoseToTF p) b) = tf_mul (tf_inv b) (tf_inv (eigenPoseToTF p)).
Proof.
  rewrite tf_of. unfold tf_inv, tf_mul. cbn [tf_b tf_o]. set (v := mkV _ _ _). f_equal.
  - unfold mtr, mmul, rotz. cbn [m11 m12 m13 m21 m22 m23 m31 m32 m33]. f_equal; ring.
  - pose proof (mul_rotz_inv (pth p) (tf_b b)) as E. set (R0 := rotz (pth p)) in *. set (B := tf_b b) in *. set (w := tf_o b).
    assert (L : mvmul (mtr (mmul R0 B)) (vscale (-1) (vadd (mvmul R0 w) v)) =
                vadd (vscale (-1) (mvmul (mmul (mtr (mmul R0 B)) R0) w)) (vscale (-1) (mvmul (mtr (mmul R0 B)) v))).
    { unfold mvmul, vadd, vscale, mmul. cbn [m11 m12 m13 m21 m22 m23 m31 m32 m33 vx vy vz]. f_equal; ring. }
    rewrite L, E. unfold mvmul, vadd, vscale, mmul, mtr. cbn [m11 m12 m13 m21 m22 m23 m31 m32 m33 vx vy vz]. f_equal; ring.
Qed.
Lemma tf_retold S t p : rigid S -> rigid t ->
  tfTrans (getPoseFromTransform (t2mul S t)) p = correct_for S (tfTrans (getPoseFromTransform t) p).
Proof.
  intros RS RT. unfold tfTrans, correct_for. rewrite (tf_compose S t RS RT), tf_inv_mul, tf_assoc. reflexivity.
Qed.
Lemma motion_retold S a b : rigid S -> rigid a ->
  t2mul (t2inv (t2mul S a)) (t2mul S b) = t2mul (t2inv a) b.
Proof.
  intros RS RA. assert (E : t2inv (t2mul S a) = t2mul (t2inv a) (t2inv S)).
  { symmetry. apply t2inv_unique; [apply rigid_nz, rigid_mul; assumption|].
    rewrite t2mul_assoc, <- (t2mul_assoc (t2inv S)), t2inv_l, t2mul_id_l by (apply rigid_nz; assumption).
    apply t2inv_l, rigid_nz, RA. }
  rewrite E, t2mul_assoc, <- (t2mul_assoc (t2inv S)), t2inv_l, t2mul_id_l by (apply rigid_nz; assumption). reflexivity.
Qed.

Section Run.
Context {X Guess D : Type}.
Notation cell := (ncell X).
Notation body := (res (ngrid X)).
Notation msg := (nmsg (option point)).
Variable merge : cell -> cell -> cell.
Variable dflt : cell.
Variable tcell : qt -> cell -> cell.
Variable occRay : cell -> point -> cell -> cell.
Variable rawOcc : cell -> Q.
Variable btw : qpose -> qpose -> qt.
Variable tp : qt -> point -> point.
Variable dbl : R -> Q.
Variable oob : option bool.
Variable ser : bool.
Variable env : aenv body body (option point) Guess D.
Notation rreach := (RunModel.rreach merge dflt tcell occRay rawOcc btw tp dbl oob ser env).
Notation rstep := (RunModel.rstep merge dflt tcell occRay rawOcc btw tp dbl oob ser env).
Variable S : T2.
Hypothesis RS : rigid S.

(** the same state, told from the other frame *)
Record same_run (r r' : run X) : Prop := {
  sr_sys : r_sys r' = r_sys r;
  sr_ready : r_ready r' = r_ready r;
  sr_odom : r_ready r = true -> exists t, rigid t /\ r_odom r = getPoseFromTransform t /\ r_odom r' = getPoseFromTransform (t2mul S t);
  sr_tf : r_tf r' = option_map (correct_for S) (r_tf r)
}.
Lemma prepare_retold (m m' : msg) : retold S m m' ->
  match prepareAllData m, prepareAllData m' with
  | None, None => True
  | Some (odom, pts), Some (odom', pts') => pts' = pts /\
      exists t, rigid t /\ odom = getPoseFromTransform t /\ odom' = getPoseFromTransform (t2mul S t)
  | _, _ => False
  end.
Proof.
  intros (_ & SC & TF). unfold prepareAllData. rewrite SC. destruct (ms_tf m) as [q|], (ms_tf m') as [q'|]; try contradiction; auto.
  destruct TF as [RQ E]. destruct (ms_scan m) as [pts|]; [|exact I]. destruct (_ <? _)%Z; [exact I|].
  split; [reflexivity|]. exists (convertToTransform q). rewrite E. auto.
Qed.
Lemma reissued_rest t (out : list (rout X)) y : topics dflt btw tp oob ser y = Ok out ->
  map (reissued S) (RTf t None :: out) = RTf t None :: out.
Proof.
  intro E. unfold topics in E. apply bind_ok_inv in E. destruct E as (w & _ & E). apply bind_ok_inv in E. destruct E as (c & _ & E).
  apply bind_ok_inv in E. destruct E as (g & EG & E). injection E as <-. unfold graphOut in EG.
  destruct ser; [|injection EG as <-; reflexivity]. apply bind_ok_inv in EG. destruct EG as (l & _ & EG). injection EG as <-. reflexivity.
Qed.
Lemma step_retold r r' m m' r1 o c : same_run r r' -> retold S m m' -> rstep r m r1 o c ->
  exists r1', rstep r' m' r1' (map (reissued S) o) c /\ same_run r1 r1'.
Proof using RS.
  intros [E1 E2 E3 E4] RT ST. pose proof (prepare_retold m m' RT) as P. destruct RT as (TM & _ & _).
  destruct ST as [PM|odom pts i evs y' PM RD MO SC Y|odom pts i evs y' p out PM RD MO SC Y RE TP]; rewrite PM in P.
  - destruct (prepareAllData m') as [[odom' pts']|] eqn:PM'; [contradiction|].
    exists r'. split; [|split; assumption]. cbn [map reissued]. rewrite <- E4, <- TM. apply rstep_reject. exact PM'.
  - destruct (prepareAllData m') as [[odom' pts']|] eqn:PM'; [|contradiction].
    destruct P as (-> & t & RT & -> & ->). eexists. split.
    + cbn [map reissued]. rewrite <- E4, <- TM. apply (rstep_first _ _ _ _ _ _ _ _ _ _ _ r' m' _ pts i evs y' PM'); auto.
      * rewrite E2. exact RD.
      * rewrite E1, TM. exact Y.
    + split; cbn [r_sys r_ready r_odom r_tf]; auto. intros _. eauto.
  - destruct (prepareAllData m') as [[odom' pts']|] eqn:PM'; [|contradiction].
    destruct P as (-> & t & RT & -> & ->). destruct (E3 RD) as (t0 & R0 & O & O').
    eexists. split.
    + pose proof (reissued_rest (ms_time m) _ _ TP) as RR. cbn [map reissued option_map] in RR |- *.
      injection RR as RR. rewrite RR. rewrite <- (tf_retold S t p RS RT), <- TM.
      apply (rstep_next _ _ _ _ _ _ _ _ _ _ _ r' m' _ pts i evs y' p out PM'); auto.
      * rewrite E2. exact RD.
      * rewrite MO, O, O', !trans_of_pose by (try apply rigid_mul; assumption). symmetry. apply motion_retold; assumption.
      * rewrite E1, TM. exact Y.
    + split; cbn [r_sys r_ready r_odom r_tf]; auto.
      * intros _. eauto.
      * cbn [option_map]. rewrite (tf_retold S t p RS RT). reflexivity.
Qed.
Theorem run_retold t h r ms' : rreach t h r -> Forall2 (retold S) (map fst t) ms' ->
  exists r', rreach (combine ms' (map (fun mo => map (reissued S) (snd mo)) t)) h r' /\ r_sys r' = r_sys r.
Proof using RS.
  intros R F. assert (K : exists r', rreach (combine ms' (map (fun mo => map (reissued S) (snd mo)) t)) h r' /\ same_run r r').
  { revert ms' F. induction R as [|t h r m r1 o c R IH ST]; intros ms' F.
    - inversion F; subst. eexists. split; [constructor|]. split; try reflexivity. discriminate.
    - cbn [map fst] in F. inversion F as [|? m' ? ms1 RT F1]; subst. destruct (IH ms1 F1) as (r' & R' & SR).
      destruct (step_retold r r' m m' r1 o c SR RT ST) as (r1' & ST' & SR'). exists r1'. split; [|exact SR'].
      cbn [map combine snd]. eapply RunModel.rreach_step; [exact R'|exact ST']. }
  destruct K as (r' & R' & SR). exists r'. split; [exact R'|apply SR].
Qed.
End Run.

(** where a listener finds the robot in the map *)
Lemma tf_cancel S A t : rigid S -> rigid t ->
  tf_mul (correct_for S A) (eigenPoseToTF (getPoseFromTransform (t2mul S t))) =
  tf_mul A (eigenPoseToTF (getPoseFromTransform t)).
Proof.
  intros RS RT. unfold correct_for. rewrite (tf_compose S t RS RT), <- tf_assoc. f_equal. rewrite tf_assoc.
  set (e := eigenPoseToTF (getPoseFromTransform t)).
  assert (I : tf_mul (tf_inv (eigenPoseToTF (getPoseFromTransform S))) (eigenPoseToTF (getPoseFromTransform S)) = mkTF mid vzero).
  { rewrite tf_of. unfold tf_inv, tf_mul, rotz, mtr, mmul, vadd, mvmul, vscale, mid, vzero.
    cbn [tf_b tf_o m11 m12 m13 m21 m22 m23 m31 m32 m33 vx vy vz]. set (a := pth _). pose proof (sc2 a) as U.
    f_equal; f_equal; try ring; lra. }
  rewrite I. destruct e as [[e1 e2 e3 e4 e5 e6 e7 e8 e9] [f1 f2 f3]]. unfold tf_mul, mmul, vadd, mvmul, mid, vzero.
  cbn [tf_b tf_o m11 m12 m13 m21 m22 m23 m31 m32 m33 vx vy vz]. f_equal; f_equal; ring.
Qed.
(** every message can be retold *)
Definition tell {Scan} (S : T2) (m : nmsg Scan) : nmsg Scan :=
  NodeModel.mkMsg (ms_time m)
    (option_map (fun q => vecToMat3d (getPoseFromTransform (t2mul S (convertToTransform q)))) (ms_tf m)) (ms_scan m) (ms_cov m).
Lemma tell_ok {Scan} S (m : nmsg Scan) : rigid S -> (forall q, ms_tf m = Some q -> rigid (convertToTransform q)) -> retold S m (tell S m).
Proof.
  intros RS RM. split; [reflexivity|]. split; [reflexivity|]. unfold tell. cbn [ms_tf]. destruct (ms_tf m) as [q|]; cbn [option_map]; [|exact I].
  specialize (RM q eq_refl). split; [exact RM|].
  change (convertToTransform (vecToMat3d ?p)) with (getTransFromPose p). apply trans_of_pose, rigid_mul; assumption.
Qed.
