(** C120: how large the graph can become (property statements; proofs in GrowProofs.v).

    [rreach t h r]: the program has received the messages of [t], newest first, and made the
    calls [h] of update().  [took t]: time, odometry pose and scan of the accepted ones. *)
From Coq Require Import Reals Qreals List ZArith QArith Bool Lra Lia Arith.
From Verif Require Import Base LinAlg3 GeoModel GeoSpec OptModel RegModel.
From Verif Require Import GraphModel LoopModel SlamModel AlgModel AlgSpec AlgCases NodeModel NodeSpec.
From Verif Require Import VoxelModel GridModel MapModel SysModel SysSpec SysCases RunModel RunSpec RunProofs RunCases.
From Verif Require Import RealModel RealSpec RealCases IncModel IncCases IncRun IncRunCases CloseCases ParamModel ParamCases.
From Verif Require Import GrowSpec GrowProofs.
Import ListNotations.
Open Scope R_scope.
Notation graph_of r := (s_graph (a_slam (y_alg (r_sys r)))).

(** A node is made for every [dist] metres of estimated path at most, [dist] being the
    distance asked for. *)
Theorem C120_nodes : forall {X Guess D} merge (dflt : ncell X) addPt compute tcell occRay rawOcc btw tp
    noLin moveOrigin moveScan dbl radius (le : lenv pose (frame (res (ngrid X))) M3 Guess D) se2' odo dist oob ser t h r,
  RunModel.rreach merge dflt tcell occRay rawOcc btw tp dbl oob ser
    (sysEnv merge dflt addPt compute tcell occRay btw tp noLin moveOrigin moveScan dbl radius le se2' odo dist) t h r ->
  INR (nodeCount (graph_of r)) * dist <= way (events h).
Proof. intros. eapply grow_nodes; eassumption. Qed.
(** Never more nodes than calls that moved the pose, nor more of these than accepted
    messages. *)
Theorem C120_messages : forall {X Guess D} merge (dflt : ncell X) addPt compute tcell occRay rawOcc btw tp
    noLin moveOrigin moveScan dbl radius (le : lenv pose (frame (res (ngrid X))) M3 Guess D) se2' odo dist oob ser t h r,
  RunModel.rreach merge dflt tcell occRay rawOcc btw tp dbl oob ser
    (sysEnv merge dflt addPt compute tcell occRay btw tp noLin moveOrigin moveScan dbl radius le se2' odo dist) t h r ->
  (nodeCount (graph_of r) <= used_calls (events h) <= length (taken (map fst t)))%nat.
Proof. intros. eapply grow_calls; eassumption. Qed.
(** A node comes with one edge to the node before it and at most fifty loops. *)
Theorem C120_edges : forall {X Guess D} merge (dflt : ncell X) addPt compute tcell occRay rawOcc btw tp
    noLin moveOrigin moveScan dbl radius (le : lenv pose (frame (res (ngrid X))) M3 Guess D) se2' odo dist oob ser t h r,
  RunModel.rreach merge dflt tcell occRay rawOcc btw tp dbl oob ser
    (sysEnv merge dflt addPt compute tcell occRay btw tp noLin moveOrigin moveScan dbl radius le se2' odo dist) t h r ->
  (edgeCount (graph_of r) <= 51 * Z.of_nat (nodeCount (graph_of r)))%Z.
Proof. intros. eapply grow_edges; eassumption. Qed.
(** The estimated path is as long as that through the odometry positions of the accepted
    messages, up to 0.4 m for each call that moved the pose. *)
Theorem C120_driven : forall {X Guess D} icovOf search solve merge (dflt : ncell X) addPt compute tcell occRay rawOcc btw tp
    noLin moveOrigin moveScan dbl radius (le : lenv pose (frame (res (ngrid X))) M3 Guess D) se2' odo dist oob ser t h r,
  let env := sysEnv merge dflt addPt compute tcell occRay btw tp noLin moveOrigin moveScan dbl radius le se2' odo dist in
  RunModel.rreach merge dflt tcell occRay rawOcc btw tp dbl oob ser env t h r ->
  followed icovOf search solve merge dflt addPt compute tcell occRay rawOcc btw tp dbl env h (r_sys r) -> sharp dbl h ->
  way (events h) <= driven (taken (map fst t)) + 4 / 10 * INR (used_calls (events h)) /\
  INR (nodeCount (graph_of r)) * dist <= driven (taken (map fst t)) + 4 / 10 * INR (used_calls (events h)).
Proof.
  intros until r. intros env RR F SH. subst env.
  assert (W : way (events h) <= driven (taken (map fst t)) + 4 / 10 * INR (used_calls (events h))) by (eapply way_driven; eassumption).
  split; [exact W|]. eapply Rle_trans; [|exact W]. eapply grow_nodes; eassumption.
Qed.

(** Three messages, 4 m, two nodes 1.5 m or more apart. *)
Example C120_case : exists t r, qruns qconfig t kh r /\ nodeCount (graph_of r) = 2%nat /\
  way (events kh) = 4 /\ used_calls (events kh) = 2%nat /\ length (taken (map fst t)) = 3%nat /\
  exists e, getEdge (graph_of r) 1 = Ok e.
Proof.
  destruct qrun_ok as (t & r & R & T & _ & e & GE & _).
  exists t, r. split; [exact R|]. split; [|split; [|split; [reflexivity|split]]].
  - unfold runs in R. destruct (run_calls _ _ _ _ _ _ _ _ _ _ _ _ _ _ _ _ _ _ _ _ _ _ _ R) as [Y _].
    rewrite (count_made _ _ _ _ _ _ _ _ _ _ _ _ _ _ _ _ _ _ _ _ Y). reflexivity.
  - assert (S : sqrt (tx (along 2) ^ 2 + ty (along 2) ^ 2) = 2) by (apply ksqrt; lra).
    cbn [events kh v_evs rev app way]. rewrite S. lra.
  - rewrite T. rewrite !taken_cons, !qprepare. reflexivity.
  - exists e. exact GE.
Qed.
(** The odometry says 1 m in two steps. *)
Example C120_driven_case : exists t r, irun t lcalls r /\ nfollowed lcalls (r_sys r) /\ sharp zdbl lcalls /\
  driven (taken (map fst t)) = 1 /\ used_calls (events lcalls) = 2%nat.
Proof.
  destruct inc_run_case as (o2 & o1 & o & r & R & F & S & _).
  eexists _, r. split; [exact R|]. split; [exact F|]. split; [exact S|]. split; [|reflexivity].
  cbn [map fst app]. rewrite !taken_cons, !(proj1 (iprepare _ _)), (proj2 (iprepare _ _)). cbn [driven at_ px py taken].
  assert (Q : forall x y, x - y = 1 / 2 -> sqrt ((x - y) ^ 2 + (0 - 0) ^ 2) = 1 / 2).
  { intros x y E. rewrite E, Rminus_0_r. apply ksqrt. lra. }
  rewrite !Q by lra. lra.
Qed.
Print Assumptions C120_nodes.
Print Assumptions C120_messages.
Print Assumptions C120_edges.
Print Assumptions C120_driven.
