(** C110 and C112: closed loops of the whole system with the registrations of the program
    behind the loop detector: the distribution to distribution registration over four
    layers, and the correlative search when it fails (property statements; proofs in
    RealProofs.v and RealClose.v, a run that closes a loop in RealCases.v).

    What is not in the repository is a parameter: the covariance of a cell, the neighbour
    search, the linear solver (it answers zero for zero), the schedule of the two threads
    (each rotation is taken once), and which of the best elements a sort leaves last.
    [cloudOf f]: the obstacles shown by a frame. *)
From Coq Require Import Reals Qreals List ZArith QArith Bool Lra Lia Arith.
From Verif Require Import Base LinAlg3 GeoModel GeoSpec OptModel RegModel RegSpec RegNewton CorrModel CorrSpec MatchModel MatchSpec.
From Verif Require Import GraphModel LoopModel SlamModel AlgModel AlgSpec AlgProofs AlgCases.
From Verif Require Import VoxelModel GridModel GridCases ScanInit MapModel SysModel SysSpec SysCases.
From Verif Require Import CloseModel CloseSpec.
From Verif Require Import RealModel RealSpec RealProofs RealClose RealCases.
Import ListNotations.
Open Scope nat_scope.

Section Props.
Context {X : Type}.
Notation cell := (ncell X).
Notation frame := (frame (res (ngrid X))).
Variable covOf : cell -> M3.
Variable search : list point -> P2 -> nat -> list nat.
Variable solve : M3 -> V3 -> option V3.
Variable sched : list P2 -> list P2 -> T2 -> list (nat * nat).
Variable pick : list voxel -> voxel.
Variable limit dmin dmax : R.
Variable over : option bool.
Variable merge : cell -> cell -> cell.
Variable dflt : cell.
Variable addPt : cell -> point -> cell.
Variable compute : cell -> cell.
Variable tcell : qtrans T2 -> cell -> cell.
Variable occRay : cell -> point -> cell -> cell.
Variable rawOcc : cell -> Q.
Variable btw : qpose -> qpose -> qtrans T2.
Variable tp : qtrans T2 -> point -> point.
Variable noLin : T2.
Variable moveOrigin : qpose -> qtrans T2 -> qpose.
Variable moveScan : T2 -> point -> point.
Variable dbl : R -> Q.
Variable radius : Q.
Variable se2' : pose -> pose.
Variable odo : M3.
Variable dist : R.
Notation d2d := (frameD2d merge dflt covOf search solve).
Notation corr := (corrAlign sched pick).
Notation env := (sysEnv merge dflt addPt compute tcell occRay btw tp noLin moveOrigin moveScan dbl radius
                   (detector d2d corr limit dmin dmax over) se2' odo dist).
Notation yreach := (yreach merge dflt tcell occRay rawOcc btw tp dbl env).

(** Placed by the transform of a loop closing edge, enough obstacles of the older frame have
    an obstacle of the newer frame close by: at least the share asked for, or six tenths
    if more was asked for, counted against the obstacles of the newer frame. *)
Theorem C110_overlap : forall h y k e fs ft,
  nc_gauss dflt = false -> solves_zero solve -> shares sched -> sorts pick ->
  yreach h y -> getEdge (s_graph (a_slam (y_alg y))) k = Ok e -> e_loop e = true ->
  getPoseData (a_slam (y_alg y)) (e_to e) = Ok fs -> getPoseData (a_slam (y_alg y)) (e_from e) = Ok ft ->
  cloudOf fs <> [] /\ cloudOf ft <> [] /\
  overlap (1 / 2) (Rmin (asked (F := frame) [Threshold limit]) (6 / 10) * INR (length (cloudOf ft)))
    (map (t2apply (getTransFromPose (e_trans e))) (cloudOf fs)) (cloudOf ft).
Proof.
  intros h y k e fs ft DG SZ SH SO.
  exact (real_overlap covOf search solve sched pick limit dmin dmax over merge dflt addPt compute tcell occRay rawOcc btw tp
           noLin moveOrigin moveScan dbl radius se2' odo dist DG SZ SH SO h y k e fs ft).
Qed.

(** When the poses of the two nodes satisfy the edge, as the optimiser wants them to, the
    two frames show the same place: in the world that share of obstacles has a counterpart
    less than 71 cm away. *)
Theorem C110_world : forall h y k e fs ft ps pt,
  nc_gauss dflt = false -> solves_zero solve -> shares sched -> sorts pick ->
  yreach h y -> getEdge (s_graph (a_slam (y_alg y))) k = Ok e -> e_loop e = true ->
  getPoseData (a_slam (y_alg y)) (e_to e) = Ok fs -> getPoseData (a_slam (y_alg y)) (e_from e) = Ok ft ->
  getTransFromPose ps = t2mul (getTransFromPose pt) (getTransFromPose (e_trans e)) ->
  shared (71 / 100) (Rmin (asked (F := frame) [Threshold limit]) (6 / 10) * INR (length (cloudOf ft)))
    (map (t2apply (getTransFromPose ps)) (cloudOf fs)) (map (t2apply (getTransFromPose pt)) (cloudOf ft)).
Proof.
  intros h y k e fs ft ps pt DG SZ SH SO.
  exact (real_world covOf search solve sched pick limit dmin dmax over merge dflt addPt compute tcell occRay rawOcc btw tp
           noLin moveOrigin moveScan dbl radius se2' odo dist DG SZ SH SO h y k e fs ft ps pt).
Qed.

(** However far candidates are looked for ([dmax]), a loop closing edge is never longer
    than 4 + sqrt 32 metres, about 9.66. *)
Theorem C112_reach : forall h y k e,
  nc_gauss dflt = false -> solves_zero solve -> shares sched -> sorts pick ->
  yreach h y -> getEdge (s_graph (a_slam (y_alg y))) k = Ok e -> e_loop e = true ->
  (sqrt (px (e_trans e) ^ 2 + py (e_trans e) ^ 2) <= 4 + sqrt 32)%R.
Proof.
  intros h y k e DG SZ SH SO.
  exact (real_reach covOf search solve sched pick limit dmin dmax over merge dflt addPt compute tcell occRay rawOcc btw tp
           noLin moveOrigin moveScan dbl radius se2' odo dist DG SZ SH SO h y k e).
Qed.
End Props.

(** Two nodes whose frames show the same four obstacles: the second closes a loop, and its
    match is one of the registration of the program. *)
Example C110_real_case : exists y, rreach rh y /\
  nc_gauss pdflt = false /\ solves_zero rsolve /\ shares rsched /\ sorts rpick /\
  getPoseData (a_slam (y_alg y)) 0 = Ok (mkFrame (at_ 0) (Ok rb0)) /\
  getPoseData (a_slam (y_alg y)) 1 = Ok (mkFrame (at_ 0) (Ok rb1)) /\
  cloudOf (mkFrame (at_ 0) (Ok rb1)) = rtarget /\
  getPoseLocation (a_slam (y_alg y)) 0 = Ok (at_ 0) /\ getPoseLocation (a_slam (y_alg y)) 1 = Ok (at_ 0) /\
  getTransFromPose (at_ 0) = t2mul (getTransFromPose (at_ 0)) (getTransFromPose (at_ 0)) /\
  exists e, getEdge (s_graph (a_slam (y_alg y))) 1 = Ok e /\ e_from e = 1 /\ e_to e = 0 /\
    e_trans e = at_ 0 /\ e_loop e = true.
Proof.
  destruct rreach_h as (y & R & _ & D0 & D1 & L0 & L1 & E). exists y. split; [exact R|]. split; [reflexivity|].
  split; [exact rsolve_zero|]. split; [exact rsched_shares|]. split; [exact rpick_sorts|]. split; [exact D0|]. split; [exact D1|].
  split; [exact (proj1 (rcloud _ _ (or_intror eq_refl)))|]. split; [exact L0|]. split; [exact L1|]. split; [|exact E].
  rewrite !along_pose, along_mul. f_equal. ring.
Qed.
Print Assumptions C110_overlap.
Print Assumptions C110_world.
Print Assumptions C112_reach.
