(** Front end properties C44-C46, C77, C80-C82.  Only statements, non-vacuity
    examples and [Print Assumptions]; proofs in AlgProofs.v, runs in AlgCases.v. *)
From Coq Require Import Reals Lra List ZArith Bool Arith Lia.
From Verif Require Import Base LinAlg3 GeoModel GeoSpec GraphModel LoopModel SlamModel AlgModel AlgSpec AlgProofs AlgCases.
Import ListNotations.
Open Scope R_scope.

(** ** C44 *)
(** Nodes of the graph, frames kept and frames in the map are the same numbers
    0, 1, ..; the constraints that are no loop closures are exactly k -> k+1, each
    with the motion made while frame k was filled; a node is made exactly when the
    robot is further than the threshold from the last one; and the map frame of
    each node lies at the pose of the node. *)
Theorem C44_one_node_one_frame {Body Win Scan Guess D} (env : aenv Body Win Scan Guess D) l a log :
  arun env l = Ok (a, log) ->
  let n := nodeCount (s_graph (a_slam a)) in
  a_frames a = seq 0 n /\ a_map a = seq 0 n /\ rev (made log) = seq 0 n /\
  length (legs log) = n /\
  odo_constraints (g_edges (s_graph (a_slam a))) =
    map (fun k => (k, S k, getPoseFromTransform (nth k (legs log) t2id))) (seq 0 (n - 1)) /\
  nodes_when_due (gen_dist env) log /\
  (forall k f p, getPoseData (a_slam a) k = Ok f -> getPoseLocation (a_slam a) k = Ok p -> f_origin f = p).
Proof. exact (alg_structure env l a log). Qed.
Print Assumptions C44_one_node_one_frame.
Example C44_example : exists a log, arun (cx_env true) two_nodes = Ok (a, log) /\ made log = [1; 0]%nat.
Proof. destruct two_nodes_run as (a & log & R & _ & M & _). eauto. Qed.

(** ** C45 *)
(** Full property: as long as no match succeeds, the pose reported is the product
    of all motions.  It fails for two motions of 0.15 m: the first is reported,
    then forgotten. *)
Theorem C45_dead_reckoning_refuted :
  exists (env : aenv unit unit unit unit Z) i0 l a log k q,
    rigid_inputs (i0 :: l) /\ Forall (fun i => i_match i = None) l /\
    arun env (i0 :: l) = Ok (a, log) /\ no_loop log /\ last_report log = Some (k, q) /\
    q = at_ (15 / 100) /\ getPoseFromTransform (motions l) = at_ (3 / 10).
Proof.
  destruct small_steps_run as (a & log & R & L & NL & M).
  exists (cx_env false), (go 0 None 0), (tl small_steps), a, log, KOdo, (at_ (15 / 100)).
  split; [apply (go_rigid [(0, None, 0%nat); (15 / 100, None, 0%nat); (15 / 100, None, 0%nat)])|].
  split; [repeat constructor|]. auto.
Qed.
Print Assumptions C45_dead_reckoning_refuted.
(** True if every single motion is large enough to be used; missing: motions that
    have to be accumulated. *)
Theorem C45_dead_reckoning_partial {Body Win Scan Guess D} (env : aenv Body Win Scan Guess D) i0 l a log k q :
  rigid_inputs (i0 :: l) -> arun env (i0 :: l) = Ok (a, log) -> last_report log = Some (k, q) ->
  no_loop log -> Forall (fun i => i_match i = None /\ moved (i_motion i)) l ->
  q = getPoseFromTransform (motions l).
Proof. exact (alg_dead_reckoning env i0 l a log k q). Qed.
Print Assumptions C45_dead_reckoning_partial.
Example C45_example : exists a log, arun (cx_env false) [go 0 None 0; go (3 / 10) None 0] = Ok (a, log) /\
  last_report log = Some (KOdo, at_ (0 + 3 / 10)) /\ moved (along (3 / 10)).
Proof.
  destruct (line_first false (go 0 None 0)) as (a0 & E0 & L0 & _).
  destruct (line_odo false a0 0 0 0 0 (3 / 10) 0 L0) as (a1 & o1 & E1 & L1 & _); [lra|lra|].
  unfold arun. cbn [foldM]. unfold astep at 1. cbn [fst snd]. rewrite E0. cbn [bind fst snd rev app].
  unfold astep at 1. cbn [fst snd]. rewrite E1. cbn [bind fst snd rev app].
  eexists _, _. split; [reflexivity|]. split; [reflexivity|]. apply moved_along. rewrite Rabs_pos_eq; lra.
Qed.
(** Without loop closures the pose reported is always the product of the
    increments used, whatever the matcher does; for a skipped scan composed with
    its own motion only. *)
Theorem C45_increments_partial {Body Win Scan Guess D} (env : aenv Body Win Scan Guess D) l i a log k q :
  rigid_inputs (l ++ [i]) -> arun env (l ++ [i]) = Ok (a, log) -> last_report log = Some (k, q) ->
  no_loop log ->
  (k <> KSkip -> q = getPoseFromTransform (total log)) /\
  (k = KSkip -> q = getPoseFromTransform (t2mul (total log) (i_motion i))).
Proof. exact (alg_total env l i a log k q). Qed.
Print Assumptions C45_increments_partial.
Example C45_increments_example : exists a log, arun (cx_env false) small_steps = Ok (a, log) /\
  no_loop log /\ last_report log = Some (KOdo, at_ (15 / 100)).
Proof. destruct small_steps_run as (a & log & R & L & NL & M). eauto. Qed.

(** ** C46 *)
(** The pose reported is the current pose of the newest frame composed with the
    motion made since that frame was begun (and, for a skipped scan, its own
    motion); after a loop closure the pose of the newest frame is the optimised
    one. *)
Theorem C46_window_correction {Body Win Scan Guess D} (env : aenv Body Win Scan Guess D) l i a log k q m p :
  arun env (l ++ [i]) = Ok (a, log) -> last_report log = Some (k, q) ->
  nodeCount (s_graph (a_slam a)) = S m -> getPoseLocation (a_slam a) m = Ok p ->
  (k <> KSkip -> q = getPoseFromTransform (t2mul (getTransFromPose p) (since_frame log))) /\
  (k = KSkip -> q = getPoseFromTransform
     (t2mul (t2mul (getTransFromPose p) (since_frame log)) (i_motion i))).
Proof. exact (alg_report env l i a log k q m p). Qed.
Print Assumptions C46_window_correction.
Theorem C46_optimised_pose {Body Win Scan Guess D} (env : aenv Body Win Scan Guess D) l i a log a' evs :
  arun env l = Ok (a, log) -> update env a i = Ok (a', evs) -> In (ALoop true) evs ->
  exists m, nodeCount (s_graph (a_slam a')) = S m /\ hd_error (made (rev evs ++ log)) = Some m /\
    (m <> 0%nat -> getPoseLocation (a_slam a') m = Ok (i_est i m)).
Proof. exact (alg_loop_pose env l i a log a' evs). Qed.
Print Assumptions C46_optimised_pose.
Example C46_example : exists a log, arun (cx_env true) two_nodes = Ok (a, log) /\
  last_report log = Some (KOdo, at_ 7) /\ In (ALoop true) log /\
  getPoseLocation (a_slam a) 1 = Ok (at_ 5) /\ since_frame log = along 2.
Proof. destruct two_nodes_run as (a & log & R & L & M & I & G & S). eauto 10. Qed.

(** ** C77 *)
(** Full property: after a successful match without loop closure the pose of the
    match is reported.  It fails after an earlier failed match: the motion used
    as a fallback is counted again by the next match. *)
Theorem C77_match_reported_refuted :
  exists (env : aenv unit unit unit unit Z) l a log w reg q,
    rigid_inputs l /\ arun env l = Ok (a, log) /\ no_loop log /\
    last_report log = Some (KMatch w reg, q) /\
    q = at_ (9 / 10) /\ getPoseFromTransform (t2mul (getTransFromPose w) reg) = at_ (6 / 10).
Proof.
  destruct fail_then_match_run as (a & log & R & L & NL).
  exists (cx_env false), fail_then_match, a, log, (at_ 0), (along (6 / 10)), (at_ (9 / 10)).
  split; [apply (go_rigid [(0, None, 0%nat); (3 / 10, None, 0%nat); (3 / 10, Some (6 / 10), 0%nat)])|].
  split; [exact R|]. split; [exact NL|]. split; [exact L|]. split; [reflexivity|].
  rewrite along_pose, along_mul, pose_along. f_equal. lra.
Qed.
Print Assumptions C77_match_reported_refuted.
(** True as long as no match has failed. *)
Theorem C77_match_reported_partial {Body Win Scan Guess D} (env : aenv Body Win Scan Guess D) l i a log w reg q :
  rigid_inputs (l ++ [i]) -> arun env (l ++ [i]) = Ok (a, log) ->
  last_report log = Some (KMatch w reg, q) -> no_loop log -> no_odo log ->
  q = getPoseFromTransform (t2mul (getTransFromPose w) reg).
Proof. exact (alg_match env l i a log w reg q). Qed.
Print Assumptions C77_match_reported_partial.
Example C77_example : exists a log, arun (cx_env false) two_matches = Ok (a, log) /\
  last_report log = Some (KMatch (at_ 0) (along (6 / 10)), at_ (6 / 10)) /\ no_loop log /\ no_odo log.
Proof. exact two_matches_run. Qed.
(** In every case: the position before is moved by the motion between the pose of
    the previous successful match and this one. *)
Theorem C77_match_motion_partial {Body Win Scan Guess D} (env : aenv Body Win Scan Guess D)
    l i a log a' evs w reg q :
  rigid_inputs (l ++ [i]) -> arun env l = Ok (a, log) -> update env a i = Ok (a', evs) ->
  last_report (rev evs) = Some (KMatch w reg, q) -> no_loop evs ->
  getTransFromPose q = t2mul (a_pos a) (t2mul (t2inv (last_match log))
     (getTransFromPose (getPoseFromTransform (t2mul (getTransFromPose w) reg)))).
Proof. exact (alg_match_step env l i a log a' evs w reg q). Qed.
Print Assumptions C77_match_motion_partial.

(** ** C80 *)
(** Full property: update() never fails.  If reading one past the end of a
    std::vector yields some value (as in practice) it never does, given that the
    allocator returns unused addresses. *)
Theorem C80_never_fails_partial {Body Win Scan Guess D} (env : aenv Body Win Scan Guess D) l a log i null :
  arun env l = Ok (a, log) -> oob (e_lenv env) = Some null -> fresh_input a i ->
  exists st, arun env (l ++ [i]) = Ok st.
Proof. exact (alg_defined env l a log i null). Qed.
Print Assumptions C80_never_fails_partial.
Example C80_example : exists a log, arun (cx_env true) [] = Ok (a, log) /\ fresh_input a (go 2 None 7).
Proof.
  eexists _, _. split; [reflexivity|]. split; [reflexivity|]. split.
  - intro k. cbn [go i_fresh i_addr]. split; [reflexivity|lia].
  - intros j k. cbn [go i_fresh]. lia.
Qed.
(** By the letter of the language it always fails as soon as a node is made: no
    run with a defined outcome makes one. *)
Theorem C80_never_fails_refuted {Body Win Scan Guess D} (env : aenv Body Win Scan Guess D) l a log :
  arun env l = Ok (a, log) -> oob (e_lenv env) = None -> made log = [].
Proof. exact (alg_strict env l a log). Qed.
Print Assumptions C80_never_fails_refuted.

(** ** C81 *)
(** A scan is used exactly when the motion since the last used one is more than
    0.2 m or 0.1 rad. *)
Theorem C81_scan_used {Body Win Scan Guess D} (env : aenv Body Win Scan Guess D) l i a log k q :
  arun env (l ++ [i]) = Ok (a, log) -> last_report log = Some (k, q) ->
  (k = KFirst <-> l = []) /\ (k = KSkip <-> l <> [] /\ ~ moved (t2mul (pending l) (i_motion i))).
Proof. exact (alg_used env l i a log k q). Qed.
Print Assumptions C81_scan_used.
Example C81_example : exists a log, arun (cx_env false) small_steps = Ok (a, log) /\
  last_report log = Some (KOdo, at_ (15 / 100)).
Proof. destruct small_steps_run as (a & log & R & L & _). eauto. Qed.

(** ** C82 *)
(** Each scan that is used is drawn into a frame at the very pose reported for it:
    pose of the frame composed with the displacement of the scan. *)
Theorem C82_drawn_where_reported {Body Win Scan Guess D} (env : aenv Body Win Scan Guess D) l a log :
  rigid_inputs l -> arun env l = Ok (a, log) -> drawn_where_reported log.
Proof. exact (alg_drawn env l a log). Qed.
Print Assumptions C82_drawn_where_reported.
(** Its rays, however, start at the origin of the frame and not where the scan
    was taken. *)
Theorem C82_rays_from_sensor_refuted : exists (env : aenv unit unit unit unit Z) l a log m r k q,
  rigid_inputs l /\ arun env l = Ok (a, log) /\ log = ARep k q :: ADraw (at_ 0) m :: r /\ q = at_ (3 / 10).
Proof. exact rays_from_frame_origin. Qed.
Print Assumptions C82_rays_from_sensor_refuted.
