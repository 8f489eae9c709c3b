(** C115: what is published follows the odometry from message to message (property
    statements; proofs in IncRun.v, a run in IncRunCases.v).

    [rreach ms h r]: the program has received the messages of [ms], newest first, each with
    what was published for it, and made the calls [h] of update().  [RTf t (Some F)]: the
    transform [F] from the odometry's frame to the map was published at [t].
    [followed h y]: the calls were matched by the program's registration. *)
From Coq Require Import Reals Qreals List ZArith QArith Bool Lra Lia Arith.
From Verif Require Import Base LinAlg3 GeoModel GeoSpec OptModel RegModel.
From Verif Require Import GraphModel LoopModel SlamModel AlgModel AlgSpec AlgCases NodeModel NodeSpec.
From Verif Require Import VoxelModel GridModel MapModel SysModel SysSpec SysCases RunModel RunSpec RunCases.
From Verif Require Import RealModel RealSpec RealCases IncModel IncCases IncRun IncRunCases.
Import ListNotations.
Open Scope R_scope.

(** Messages [m1] and [m2] are accepted one after the other, neither being the first, the
    one before [m2] was not skipped and no loop was closed with [m2]: the motion between
    the two published robot poses differs by at most 0.4 from that between the two
    odometry poses. *)
Theorem C115_step : forall {X Guess D} icovOf search solve merge (dflt : ncell X) addPt compute tcell occRay rawOcc btw tp
    noLin moveOrigin moveScan dbl radius (le : lenv pose (frame (res (ngrid X))) M3 Guess D) se2' odo dist oob ser
    m2 o2 mid m1 o1 t h r odom1 odom2,
  let env := sysEnv merge dflt addPt compute tcell occRay btw tp noLin moveOrigin moveScan dbl radius le se2' odo dist in
  RunModel.rreach merge dflt tcell occRay rawOcc btw tp dbl oob ser env ((m2, o2) :: mid ++ (m1, o1) :: t) h r ->
  accepted m1 = Some odom1 -> accepted m2 = Some odom2 ->
  Forall (fun mo => accepted (fst mo) = None) mid -> taken (map fst t) <> [] ->
  followed icovOf search solve merge dflt addPt compute tcell occRay rawOcc btw tp dbl env h (r_sys r) -> sharp dbl h ->
  (forall e, hd_error h = Some e -> no_loop (v_evs e)) -> (forall e, hd_error (tl h) = Some e -> ~ skipped e) ->
  exists F1 F2 p1 p2, hd_error o1 = Some (RTf (ms_time m1) (Some F1)) /\ hd_error o2 = Some (RTf (ms_time m2) (Some F2)) /\
    tf_mul F1 (eigenPoseToTF odom1) = eigenPoseToTF p1 /\ tf_mul F2 (eigenPoseToTF odom2) = eigenPoseToTF p2 /\
    differs (4 / 10) (t2mul (t2inv (getTransFromPose odom1)) (getTransFromPose odom2))
                     (t2mul (t2inv (getTransFromPose p1)) (getTransFromPose p2)).
Proof. intros. eapply inc_run; eassumption. Qed.
(** Three messages with a rejected one between the last two. *)
Example C115_case : exists o2 o1 o r,
  irun ((imsg 3 (10 + 1), o2) :: [(ishort 2 17, o)] ++ (imsg 2 (10 + 1 / 2), o1) :: [(imsg 1 10, [RTf 1 None])]) lcalls r /\
  nfollowed lcalls (r_sys r) /\ sharp zdbl lcalls /\
  accepted (imsg 2 (10 + 1 / 2)) = Some (at_ (10 + 1 / 2)) /\ accepted (imsg 3 (10 + 1)) = Some (at_ (10 + 1)) /\
  accepted (ishort 2 17) = None /\ taken (map fst [(imsg 1 10, [@RTf (list point) 1 None])]) <> [] /\
  (forall e, hd_error lcalls = Some e -> no_loop (v_evs e)) /\ (forall e, hd_error (tl lcalls) = Some e -> ~ skipped e).
Proof. exact inc_run_case. Qed.

(** In general: calls [sk] between two calls that were skipped as too small a motion do not
    count.  The pose reported by the later call differs from that of the earlier one by
    the motion reported for the later call alone, up to 0.4; the motion reported for the
    skipped calls is lost. *)
Theorem C115_call : forall {X Guess D} icovOf search solve merge (dflt : ncell X) addPt compute tcell occRay rawOcc btw tp
    noLin moveOrigin moveScan dbl radius (le : lenv pose (frame (res (ngrid X))) M3 Guess D) se2' odo dist
    e2 sk e1 h y k1 p1 k2 p2,
  let env := sysEnv merge dflt addPt compute tcell occRay btw tp noLin moveOrigin moveScan dbl radius le se2' odo dist in
  followed icovOf search solve merge dflt addPt compute tcell occRay rawOcc btw tp dbl env (e2 :: sk ++ e1 :: h) y ->
  Forall (fun e => rigid (i_motion (v_in e))) (e2 :: sk ++ e1 :: h) -> sharp dbl (e2 :: sk ++ e1 :: h) ->
  last_report (events (e1 :: h)) = Some (k1, p1) -> k1 <> KSkip -> Forall skipped sk ->
  last_report (events (e2 :: sk ++ e1 :: h)) = Some (k2, p2) -> no_loop (v_evs e2) ->
  differs (4 / 10) (i_motion (v_in e2)) (t2mul (t2inv (getTransFromPose p1)) (getTransFromPose p2)).
Proof.
  intros until p2. intros env F RG SH L1 K SK L2 NL. subst env.
  exact (inc_pose _ _ _ _ _ _ _ _ _ _ _ _ _ _ _ _ _ _ _ _ _ None true _ _ _ _ _ _ _ _ _ F RG SH L1 K SK L2 NL).
Qed.
(** The robot moves 0.1, which is skipped, then 0.5. *)
Example C115_call_case : exists e2 sk e1 y, nfollowed (e2 :: [sk] ++ [e1]) y /\
  Forall (fun e => rigid (i_motion (v_in e))) (e2 :: [sk] ++ [e1]) /\ sharp zdbl (e2 :: [sk] ++ [e1]) /\
  last_report (events [e1]) = Some (KFirst, at_ 0) /\ skipped sk /\ i_motion (v_in sk) = along (1 / 10) /\
  last_report (events (e2 :: [sk] ++ [e1])) = Some (KOdo, at_ (0 + 1 / 2)) /\ no_loop (v_evs e2).
Proof. exact inc_skip_case. Qed.
Print Assumptions C115_step.
Print Assumptions C115_call.
