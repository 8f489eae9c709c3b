(** C122: the frame of the odometry does not matter (property statement; vocabulary in
    InvSpec.v, proofs in InvProofs.v).

    Odometry frames are arbitrary: they start where the robot was switched on, or anywhere
    else.  [retold T m m']: m' is the message m with the pose of the robot told in a frame
    in which the odometry frame of m is placed at T.  [reissued T]: the published transform
    goes from that frame to the map; the other messages are the same. *)
From Coq Require Import Reals Qreals Lra List ZArith QArith Bool Arith.
From Verif Require Import Base LinAlg3 GeoModel GeoSpec GeoProofs.
From Verif Require Import GraphModel LoopModel SlamModel AlgModel AlgCases NodeModel.
From Verif Require Import VoxelModel GridModel MapModel ExportModel SysModel RunModel SysCases RunCases InvSpec InvProofs.
Import ListNotations.
Open Scope nat_scope.

(** Whatever the program publishes and computes for a run, it publishes and computes for
    the same run told from another frame: the calls of the algorithm are the same, and so
    are pose graph, window, map and all messages but the transform to the odometry frame. *)
Theorem C122_odometry_frame : forall (X Guess D : Type) merge dflt tcell occRay rawOcc btw tp dbl oob ser
    (env : aenv (res (ngrid X)) (res (ngrid X)) (option point) Guess D) T t h r ms',
  RunModel.rreach merge dflt tcell occRay rawOcc btw tp dbl oob ser env t h r ->
  rigid T -> Forall2 (retold T) (map fst t) ms' ->
  exists r',
    RunModel.rreach merge dflt tcell occRay rawOcc btw tp dbl oob ser env
      (combine ms' (map (fun mo => map (reissued T) (snd mo)) t)) h r' /\
    r_sys r' = r_sys r.
Proof. intros; eapply run_retold; eassumption. Qed.
Print Assumptions C122_odometry_frame.

(** So whoever takes the published transform and the pose of the robot in the odometry
    frame finds the robot at the same place of the map. *)
Theorem C122_same_place : forall T A t, rigid T -> rigid t ->
  tf_mul (correct_for T A) (eigenPoseToTF (getPoseFromTransform (t2mul T t))) =
  tf_mul A (eigenPoseToTF (getPoseFromTransform t)).
Proof. intros; apply tf_cancel; assumption. Qed.
Print Assumptions C122_same_place.

(** The robot of RunCases.v, told from a frame turned by a quarter and placed at (3, 4):
    its odometry then goes along the other axis. *)
Definition quarter : T2 := mkT2 0 (-1) 1 0 3 4.
Example C122_case : exists r ms', zrun ztrace zcalls r /\ rigid quarter /\ Forall2 (retold quarter) (map fst ztrace) ms' /\
  map (fun m => option_map (fun q => (tx (convertToTransform q), ty (convertToTransform q))) (ms_tf m)) ms' =
    [Some (3, 16); Some (3, 15); Some (3, 14)]%R.
Proof.
  destruct zrun_ok as (r & R & _). exists r, (map (tell quarter) (map fst ztrace)).
  assert (RQ : rigid quarter) by (unfold rigid, quarter; cbn; repeat split; lra).
  split; [exact R|]. split; [exact RQ|]. split.
  - unfold ztrace. cbn [map fst].
    repeat (apply Forall2_cons; [apply tell_ok; [exact RQ|intros q E; injection E as <-; apply rigid_pose]|]). apply Forall2_nil.
  - unfold ztrace. cbn -[Rplus Rmult cos sin IZR]. repeat f_equal; rewrite ?sin_0, ?cos_0; lra.
Qed.
