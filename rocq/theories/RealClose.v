(** Closed loops of the whole system with the registrations of the program. *)
From Coq Require Import Reals Qreals Lra List ZArith QArith Bool Lia Arith Permutation.
From Verif Require Import Base LinAlg3 GeoModel GeoSpec GeoProofs OptModel RegModel RegSpec RegNewton CorrModel CorrSpec MatchModel MatchSpec MatchProofs.
From Verif Require Import GraphModel GraphSpec GraphProofs LoopModel SlamModel.
From Verif Require Import AlgModel AlgSpec AlgProofs.
From Verif Require Import VoxelModel GridModel MapModel SysModel SysSpec SysProofs SysWindow SysFacts SysHull.
From Verif Require Import CloseModel CloseSpec CloseProofs.
From Verif Require Import RealModel RealSpec RealProofs.
Import ListNotations.
Open Scope nat_scope.
Set Default Proof Using "Type".

Section Close.
Context {X : Type}.
Notation cell := (ncell X).
Notation grid := (ngrid X).
Notation frame := (frame (res grid)).
Variable covOf : cell -> M3.
Variable search : list point -> P2 -> nat -> list nat.
Variable solve : M3 -> V3 -> option V3.
Variable sched : list P2 -> list P2 -> T2 -> list (nat * nat).
Variable pick : list voxel -> voxel.
Variable limit dmin dmax : R.
Variable over : option bool.
Variable merge : cell -> cell -> cell.
Variable dflt : cell.
Variable addPt : cell -> point -> cell.
Variable compute : cell -> cell.
Variable tcell : qt -> cell -> cell.
Variable occRay : cell -> point -> cell -> cell.
Variable rawOcc : cell -> Q.
Variable btw : qpose -> qpose -> qt.
Variable tp : qt -> point -> point.
Variable noLin : T2.
Variable moveOrigin : qpose -> qt -> qpose.
Variable moveScan : T2 -> point -> point.
Variable dbl : R -> Q.
Variable radius : Q.
Variable se2' : pose -> pose.
Variable odo : M3.
Variable dist : R.
Notation d2d := (frameD2d merge dflt covOf search solve).
Notation corr := (corrAlign sched pick).
Notation le := (detector d2d corr limit dmin dmax over).
Notation env := (sysEnv merge dflt addPt compute tcell occRay btw tp noLin moveOrigin moveScan dbl radius le se2' odo dist).
Notation yreach := (yreach merge dflt tcell occRay rawOcc btw tp dbl env).
Notation fill := (fill merge dflt addPt compute tcell occRay btw tp moveScan dbl).
Hypothesis DG : nc_gauss dflt = false.
Hypothesis SZ : solves_zero solve.
Hypothesis SH : shares sched.
Hypothesis SO : sorts pick.
Set Default Proof Using "DG SZ SH SO".

Lemma fill_means first l g : fill first l = Ok g -> n_means g = Some (map nc_mean (getGaussianCells g)).
Proof.
  assert (ADD : forall g o s g', add_scan merge dflt addPt compute tcell occRay btw tp dbl g o s = Ok g' ->
             n_means g' = Some (map nc_mean (getGaussianCells g'))).
  { intros g0 o s g' E. unfold add_scan, mergeInTracedPcl in E. apply bind_ok_inv in E. destruct E as (l0 & _ & E).
    eapply traced_means. exact E. }
  unfold SysSpec.fill. destruct l as [|[[o m] s] t].
  { intro E. injection E as <-. unfold getGaussianCells. cbn. rewrite DG. reflexivity. }
  intro E. apply bind_ok_inv in E. destruct E as (g0 & E0 & E).
  assert (C : n_means g0 = Some (map nc_mean (getGaussianCells g0))).
  { destruct first.
    - unfold n_initialize, mergeInTracedPcl in E0. apply bind_ok_inv in E0. destruct E0 as (l0 & _ & E0). eapply traced_means. exact E0.
    - apply ADD in E0. exact E0. }
  clear E0. revert g0 C E. induction t as [|[[o' m'] s'] t IH]; intros g0 C E; cbn [foldM] in E.
  - injection E as <-. exact C.
  - apply bind_ok_inv in E. destruct E as (g1 & E1 & E). apply (IH g1); [|exact E]. exact (ADD _ _ _ _ E1).
Qed.

(** the registration, told to refuse empty clouds of any frame *)
Definition guarded (a b : frame) (g : T2) : bool * T2 :=
  match cloudOf a, cloudOf b with _ :: _, _ :: _ => d2d a b g | _, _ => (false, snd (d2d a b g)) end.
Lemma guarded_empty : empty_fails (@cloudOf X) guarded.
Proof. intros a b g [E|E]; unfold guarded; rewrite E; [reflexivity|]. destruct (cloudOf a); reflexivity. Qed.
Lemma guarded_same a b : current a -> current b -> forall g, d2d a b g = guarded a b g.
Proof.
  intros CA CB g. unfold guarded.
  assert (K : cloudOf a = [] \/ cloudOf b = [] -> d2d a b g = (false, snd (d2d a b g))).
  { intro N. pose proof (frame_none merge dflt covOf search solve DG a b g SZ CA CB N) as F.
    destruct (d2d a b g) as [c t]. cbn [fst snd] in *. now rewrite F. }
  destruct (cloudOf a); [auto|]. destruct (cloudOf b); auto.
Qed.

(** what lies behind a loop closing edge *)
Lemma loop_match h y k e : yreach h y ->
  getEdge (s_graph (a_slam (y_alg y))) k = Ok e -> e_loop e = true ->
  exists (fs ft : frame) r w x,
    f_body fs = fill (e_to e =? 0) (scans_of h (e_to e)) /\
    f_body ft = fill (e_from e =? 0) (scans_of h (e_from e)) /\
    cloudOf fs <> [] /\ cloudOf ft <> [] /\
    e_trans e = getPoseFromTransform (mr_transform r) /\
    mr_transform r = vecToMat w /\
    (sqrt (vx w ^ 2 + vy w ^ 2) <= 4 + sqrt 32)%R /\
    (Rmin (asked (F := frame) [Threshold limit]) (6 / 10) <= x)%R /\
    overlap (1 / 2) (x * INR (length (cloudOf ft))) (map (t2apply (mr_transform r)) (cloudOf fs)) (cloudOf ft).
Proof.
  intros R G L.
  destruct (loop_edges d2d corr limit dmin dmax over merge dflt addPt compute tcell occRay rawOcc btw tp noLin moveOrigin
              moveScan dbl radius se2' odo dist h y k e R G L) as (_ & fs & ft & s & r & BS & BT & _ & M & SU & TR).
  assert (CU : forall f first l, f_body f = fill first l -> current f).
  { intros f first l B g E. rewrite E in B. symmetry in B. exact (fill_means _ _ _ B). }
  pose proof (CU _ _ _ BS) as CS. pose proof (CU _ _ _ BT) as CT.
  rewrite (match_cong _ _ _ guarded _ _ _ _ _ (guarded_same _ _ CS CT)) in M.
  pose proof (fun lm => eq_refl : foldM (MatchModel.mstep (@cloudOf X) sizeOf guarded corr) [Threshold lm] newMatcher =
                 Ok (matcherWith lm)) as RN.
  destruct (success_nonempty _ _ _ _ _ _ _ _ _ _ _ guarded_empty (RN limit) M SU) as (NA & NB & _).
  assert (SI : sizeOf ft = (1 / 4)%R).
  { unfold sizeOf. destruct (f_body ft) as [g| |] eqn:B; [|reflexivity|reflexivity].
    symmetry in BT. rewrite (fill_size _ _ _ _ _ _ _ _ _ _ _ _ _ BT). unfold Q2R. cbn. lra. }
  destruct (accepted _ _ _ _ _ _ _ _ _ _ _ guarded_empty ltac:(rewrite SI; lra) ltac:(rewrite SI; lra) (RN limit) M SU)
    as (x & _ & _ & B & _ & n & _ & N1 & h0 & m0 & P & HH & LL).
  destruct (match_from _ _ _ _ _ _ _ _ _ _ guarded_empty M SU) as (g' & GG & TT).
  assert (GR : forall q, guarded fs ft q = d2d fs ft q) by (intro q; symmetry; now apply guarded_same).
  rewrite GR in TT.
  assert (VV : exists v, g' = vecToMat v /\ (sqrt (vx v ^ 2 + vy v ^ 2) <= sqrt 32)%R).
  { destruct GG as [-> |(rc & C & _ & ->)].
    - rewrite start_guess. exists (mkV 0 0 (pth (f_origin fs) - pth (f_origin ft))). split; [reflexivity|].
      cbn [vx vy]. apply sqrt_le_1_alt. lra.
    - rewrite SI in C. destruct (corr_reach sched pick (cloudOf fs) (cloudOf ft)
        (startGuess (f_origin ft) (f_origin fs)) SH SO) as (v & E & BX & BY & _).
      rewrite E in C. injection C as <-. exists v. split; [reflexivity|]. apply sqrt_le_1_alt.
      apply abs_le_inv in BX, BY. nra. }
  destruct VV as (v & -> & BV).
  destruct (frame_reach merge dflt covOf search solve DG fs ft v NA NB) as (w & EW & DW).
  exists fs, ft, r, w, x. split; [exact BS|]. split; [exact BT|]. split; [exact NA|]. split; [exact NB|].
  split; [exact TR|]. split; [congruence|]. split.
  { clear - DW BV. unfold dist3 in DW.
    pose proof (vnorm_add (mkV (vx w - vx v) (vy w - vy v) 0) (mkV (vx v) (vy v) 0)) as T.
    assert (E1 : vnorm (vadd (mkV (vx w - vx v) (vy w - vy v) 0) (mkV (vx v) (vy v) 0)) = sqrt (vx w ^ 2 + vy w ^ 2)).
    { unfold vnorm, vdot, vadd. cbn [vx vy vz]. f_equal. ring. }
    assert (E2 : vnorm (mkV (vx v) (vy v) 0) = sqrt (vx v ^ 2 + vy v ^ 2)).
    { unfold vnorm, vdot. cbn [vx vy vz]. f_equal. ring. }
    assert (E3 : (vnorm (mkV (vx w - vx v) (vy w - vy v) 0) <= vnorm (vsub w v))%R).
    { unfold vnorm, vdot, vsub. cbn [vx vy vz]. apply sqrt_le_1_alt.
      pose proof (Rle_0_sqr (vz w - vz v)) as Q. unfold Rsqr in Q. lra. }
    rewrite E1, E2 in T. lra. }
  split; [exact (proj1 B)|].
  exists h0, m0. split; [exact P|]. rewrite N1, SI in HH by (rewrite SI; lra).
  split; [intros p I; destruct (HH p I) as (q & Q); exists q; replace (1 / 2)%R with ((1 + 1) * (1 / 4))%R by lra; exact Q|].
  exact LL.
Qed.

Theorem real_overlap h y k e fs ft : yreach h y ->
  getEdge (s_graph (a_slam (y_alg y))) k = Ok e -> e_loop e = true ->
  getPoseData (a_slam (y_alg y)) (e_to e) = Ok fs -> getPoseData (a_slam (y_alg y)) (e_from e) = Ok ft ->
  cloudOf fs <> [] /\ cloudOf ft <> [] /\
  overlap (1 / 2) (Rmin (asked (F := frame) [Threshold limit]) (6 / 10) * INR (length (cloudOf ft)))
    (map (t2apply (getTransFromPose (e_trans e))) (cloudOf fs)) (cloudOf ft).
Proof.
  intros R G L G1 G2.
  destruct (frames_filled _ _ _ _ _ _ _ _ _ _ _ _ _ _ _ _ _ _ h y R) as (_ & FF & _).
  destruct (loop_match h y k e R G L) as (fs0 & ft0 & r & w & x & BS & BT & NA & NB & TR & TW & _ & BX & O).
  assert (CS : cloudOf fs0 = cloudOf fs) by (unfold cloudOf; rewrite BS, (FF _ _ G1); reflexivity).
  assert (CT : cloudOf ft0 = cloudOf ft) by (unfold cloudOf; rewrite BT, (FF _ _ G2); reflexivity).
  assert (RT : rigid (mr_transform r)) by (rewrite TW; apply rigid_pose).
  rewrite TR, (trans_of_pose _ RT), <- CS, <- CT. split; [exact NA|]. split; [exact NB|].
  destruct O as (h0 & m0 & P & HH & LL). exists h0, m0. split; [exact P|]. split; [exact HH|].
  apply Rle_trans with (x * INR (length (cloudOf ft0)))%R; [|exact LL].
  apply Rmult_le_compat_r; [apply pos_INR|exact BX].
Qed.
Theorem real_world h y k e fs ft ps pt : yreach h y ->
  getEdge (s_graph (a_slam (y_alg y))) k = Ok e -> e_loop e = true ->
  getPoseData (a_slam (y_alg y)) (e_to e) = Ok fs -> getPoseData (a_slam (y_alg y)) (e_from e) = Ok ft ->
  getTransFromPose ps = t2mul (getTransFromPose pt) (getTransFromPose (e_trans e)) ->
  shared (71 / 100) (Rmin (asked (F := frame) [Threshold limit]) (6 / 10) * INR (length (cloudOf ft)))
    (map (t2apply (getTransFromPose ps)) (cloudOf fs)) (map (t2apply (getTransFromPose pt)) (cloudOf ft)).
Proof.
  intros R G L G1 G2 PP. destruct (real_overlap h y k e fs ft R G L G1 G2) as (_ & _ & O).
  apply (overlap_shared _ _ _ _ (rigid_pose pt)) in O. rewrite map_map in O.
  rewrite PP. erewrite (map_ext (t2apply (t2mul _ _))); [exact O|]. intro q. apply t2apply_mul.
Qed.
Theorem real_reach h y k e : yreach h y ->
  getEdge (s_graph (a_slam (y_alg y))) k = Ok e -> e_loop e = true ->
  (sqrt (px (e_trans e) ^ 2 + py (e_trans e) ^ 2) <= 4 + sqrt 32)%R.
Proof.
  intros R G L. destruct (loop_match h y k e R G L) as (_ & _ & r & w & _ & _ & _ & _ & _ & -> & -> & B & _).
  exact B.
Qed.
End Close.
