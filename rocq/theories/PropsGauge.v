(** C143: what there is to optimise.  Statements, examples and [Print Assumptions];
    proofs in GaugeProofs.v, vocabulary in GaugeSpec.v. *)
From Coq Require Import Reals Lra List ZArith Bool Lia.
From Verif Require Import Base LinAlg3 GeoModel GeoSpec GeoProofs GraphModel LoopModel SlamModel AlgModel AlgSpec AlgProofs AlgCases
  GaugeSpec GaugeProofs.
Import ListNotations.
Open Scope R_scope.

(** The error of a constraint is the misfit of its two poses. *)
Theorem C143_error x y z : calcError x y z = misfit x z y.
Proof. exact (misfit_error x y z). Qed.
Print Assumptions C143_error.

(** Moving all poses together changes nothing the optimiser can see. *)
Theorem C143_moved l est g : cost l (fun k => compose g (est k)) = cost l est.
Proof. exact (cost_moved l est g). Qed.
Print Assumptions C143_moved.
(** So the first pose, which the optimiser keeps, can be anywhere without loss. *)
Theorem C143_first_pose l est p : exists est', cost l est' = cost l est /\ est' 0%nat = p.
Proof.
  set (e := est 0%nat). set (d := pth p - pth e).
  exists (fun k => compose (mkP (px p - cos d * px e + sin d * py e) (py p - sin d * px e - cos d * py e) d) (est k)).
  split; [apply cost_moved|]. fold e. unfold compose. destruct p as [x y th]. cbn [px py pth] in *. unfold d. f_equal; ring.
Qed.
Print Assumptions C143_first_pose.

(** As long as no loop was closed every constraint agrees with the poses. *)
Theorem C143_agree {Body Win Scan Guess D} (env : aenv Body Win Scan Guess D) l a log : rigid_inputs l ->
  arun env l = Ok (a, log) -> no_loop log -> forall id e p q, getEdge (s_graph (a_slam a)) id = Ok e ->
  getPoseLocation (a_slam a) (e_from e) = Ok p -> getPoseLocation (a_slam a) (e_to e) = Ok q -> fits p (e_trans e) q.
Proof. exact (all_fit env l a log). Qed.
Print Assumptions C143_agree.

(** Then the poses are an optimum, of cost zero ... *)
Theorem C143_optimum {Body Win Scan Guess D} (env : aenv Body Win Scan Guess D) l a log here : rigid_inputs l ->
  arun env l = Ok (a, log) -> no_loop log -> (forall z, same_pose (e_se2 env z) z) ->
  (forall k p, getPoseLocation (a_slam a) k = Ok p -> here k = p) ->
  cost (s_gedges (a_slam a)) here = 0 /\ (psd (e_odo env) -> forall est, 0 <= cost (s_gedges (a_slam a)) est).
Proof. exact (best env l a log here). Qed.
Print Assumptions C143_optimum.
(** ... and, the first pose being kept, the only one. *)
Theorem C143_only {Body Win Scan Guess D} (env : aenv Body Win Scan Guess D) l a log est : rigid_inputs l ->
  arun env l = Ok (a, log) -> no_loop log -> (forall z, same_pose (e_se2 env z) z) ->
  posdef (e_odo env) -> cost (s_gedges (a_slam a)) est = 0 ->
  (forall p, getPoseLocation (a_slam a) 0 = Ok p -> same_pose (est 0%nat) p) ->
  forall k p, getPoseLocation (a_slam a) k = Ok p -> same_pose (est k) p.
Proof. exact (only env l a log est). Qed.
Print Assumptions C143_only.

(** Whatever happened before: a pose made without closing a loop agrees with the
    constraint to the pose before, and there is one. *)
Theorem C143_newest {Body Win Scan Guess D} (env : aenv Body Win Scan Guess D) l i a log a' evs k p q :
  rigid_inputs (l ++ [i]) -> arun env l = Ok (a, log) -> update env a i = Ok (a', evs) -> In (ANode (S k)) evs -> no_loop evs ->
  getPoseLocation (a_slam a') k = Ok p -> getPoseLocation (a_slam a') (S k) = Ok q ->
  (exists id e, getEdge (s_graph (a_slam a')) id = Ok e /\ e_from e = k /\ e_to e = S k /\ e_loop e = false) /\
  forall id e, getEdge (s_graph (a_slam a')) id = Ok e -> e_from e = k -> e_to e = S k -> e_loop e = false -> fits p (e_trans e) q.
Proof. exact (newest_fits env l i a log a' evs k p q). Qed.
Print Assumptions C143_newest.

(** ** Examples: twice two metres along the x axis *)
Lemma quiet_first a ctemp : a_slam a = slam_init -> a_first a = false -> f_origin (a_frame a) = at_ 0 ->
  newNode (cx_env false) a (go 2 None 7) (along 2) ctemp =
  Ok (mkAlg (a_init a) true 0 ctemp (along 2) (a_unused a) (along 2) (a_cumul a) t2id (a_matcher a) covar_new
        (a_map a ++ [0%nat]) (a_win a) (mkFrame (at_ 2) tt)
        (fst (addPose (e_senv (cx_env false)) slam_init (at_ 0) (a_frame a))) (a_frames a ++ [0%nat]),
      [ANode 0; ALoop false; ADraw (at_ 2) t2id]).
Proof.
  intros E1 E2 E3. unfold newNode. rewrite E1, E2, E3.
  match goal with |- context [addPose ?e ?s ?p ?f] => destruct (addPose e s p f) as [s1 id] eqn:AP end.
  assert (H : s1 = fst (addPose (e_senv (cx_env false)) slam_init (at_ 0) (a_frame a)) /\ id = 0%nat).
  { rewrite AP. split; [reflexivity|]. injection AP as _ <-. reflexivity. }
  destruct H as [H ->]. cbn [bind fst].
  assert (L : tryLoopCloseLast (e_senv (cx_env false)) (i_choice (go 2 None 7)) (i_fresh (go 2 None 7)) s1 = Ok (s1, false)).
  { injection AP as <-. reflexivity. }
  rewrite L. cbn [bind].
  assert (G : getPoseLocation s1 0 = Ok (at_ 0)).
  { injection AP as <-. reflexivity. }
  rewrite G. cbn [bind]. rewrite along_pose, along_mul.
  replace (0 + 2) with 2 by ring. rewrite pose_along. reflexivity.
Qed.
Lemma quiet_second f0 f1 inf : exists s1 s2 e2 s3,
  addPose (e_senv (cx_env false)) (fst (addPose (e_senv (cx_env false)) slam_init (at_ 0) f0)) (at_ 2) f1 = (s1, 1%nat) /\
  addLastConstrain (e_senv (cx_env false)) s1 8%nat (at_ 2) inf = Ok (s2, e2) /\
  tryLoopCloseLast (e_senv (cx_env false)) (mkLChoice 0%Z (fun _ _ => 0%nat)) (fun k => 1000 + k)%nat s2 = Ok (s3, false) /\
  getPoseLocation s3 0 = Ok (at_ 0) /\ getPoseLocation s3 1 = Ok (at_ 2) /\ length (s_gedges s3) = 1%nat.
Proof.
  eexists _, _, _, _.
  split; [lazy -[at_ mid]; reflexivity|].
  split; [lazy -[at_ mid]; reflexivity|].
  split; [lazy -[at_ mid]; reflexivity|].
  split; [lazy -[at_]; reflexivity|]. split; [lazy -[at_]; reflexivity|]. reflexivity.
Qed.
Example C143_case : exists a1 log1 a evs,
  rigid_inputs two_nodes /\ arun (cx_env false) [go 0 None 0; go 2 None 7] = Ok (a1, log1) /\
  update (cx_env false) a1 (go 2 None 8) = Ok (a, evs) /\ arun (cx_env false) two_nodes = Ok (a, rev evs ++ log1) /\
  no_loop (rev evs ++ log1) /\ In (ANode 1) evs /\ no_loop evs /\
  getPoseLocation (a_slam a) 0 = Ok (at_ 0) /\ getPoseLocation (a_slam a) 1 = Ok (at_ 2) /\
  (forall z, same_pose (e_se2 (cx_env false) z) z) /\ posdef (e_odo (cx_env false)) /\ psd (e_odo (cx_env false)) /\
  length (s_gedges (a_slam a)) = 1%nat.
Proof.
  destruct (line_first false (go 0 None 0)) as (a0 & E0 & L0 & S0 & F0 & O0). destruct L0 as [I W U P T M].
  assert (E1 : exists a1 c1, update (cx_env false) a0 (go 2 None 7) =
     Ok (a1, [AInc (along 2); ANode 0; ALoop false; ADraw (at_ 2) t2id; ARep KOdo (at_ 2)]) /\
     a1 = mkAlg true true 0 c1 (along 2) t2id (along 2) (a_cumul a0) t2id (a_matcher a0) covar_new
        (a_map a0 ++ [0%nat]) (Some tt) (mkFrame (at_ 2) tt)
        (fst (addPose (e_senv (cx_env false)) slam_init (at_ 0) (a_frame a0))) (a_frames a0 ++ [0%nat])).
  { unfold update. rewrite I, W, U. cbn [go i_motion i_match option_map]. rewrite along_mul, enough_along by lra.
    unfold updateGraph. cbn [setUnused a_temp]. rewrite T, along_mul. replace (0 + 2) with 2 by ring.
    rewrite left_yes by lra.
    rewrite quiet_first; [|exact S0|exact F0|exact O0]. cbn [bind fst snd app a_pos setUnused a_init a_unused a_win a_map a_frames a_matcher a_cumul a_frame].
    rewrite pose_along, I, W. eexists _, _. split; reflexivity. }
  destruct E1 as (a1 & c1 & E1 & X1).
  assert (E2 : exists a2, update (cx_env false) a1 (go 2 None 8) =
     Ok (a2, [AInc (along 2); ANode 1; ALoop false; ADraw (at_ 4) t2id; ARep KOdo (at_ 4)]) /\
     getPoseLocation (a_slam a2) 0 = Ok (at_ 0) /\ getPoseLocation (a_slam a2) 1 = Ok (at_ 2) /\ length (s_gedges (a_slam a2)) = 1%nat).
  { assert (Y1 : a_init a1 = true) by (rewrite X1; reflexivity).
    assert (Y2 : a_win a1 = Some tt) by (rewrite X1; reflexivity).
    assert (Y3 : a_unused a1 = t2id) by (rewrite X1; reflexivity).
    assert (Y4 : a_temp a1 = t2id) by (rewrite X1; reflexivity).
    assert (Y5 : a_slam a1 = fst (addPose (e_senv (cx_env false)) slam_init (at_ 0) (a_frame a0))) by (rewrite X1; reflexivity).
    assert (Y6 : a_first a1 = true) by (rewrite X1; reflexivity).
    assert (Y7 : f_origin (a_frame a1) = at_ 2) by (rewrite X1; reflexivity).
    assert (Y8 : a_ltrans a1 = along 2) by (rewrite X1; reflexivity). clear X1 E1 E0.
    destruct (quiet_second (a_frame a0) (a_frame a1) (minv (a_lcov a1))) as (s1 & s2 & e2 & s3 & AP & H2 & H3 & G0 & G1 & LE).
    unfold update. rewrite Y1, Y2, Y3. cbn [go i_motion i_match option_map]. rewrite t2mul_id_l, enough_along by lra.
    unfold updateGraph. cbn [setUnused a_temp]. rewrite Y4, t2mul_id_l, left_yes by lra.
    unfold newNode. cbn [setUnused a_slam a_frame a_first a_ltrans a_lcov i_addr i_choice i_fresh].
    rewrite Y5, Y7, AP, Y6, Y8, pose_along. cbn [go i_addr i_choice i_fresh i_est]. rewrite H2. cbn [bind fst]. rewrite H3. cbn [bind]. rewrite G1. cbn [bind fst snd app].
    cbn [a_pos]. rewrite along_pose, along_mul, !pose_along. replace (2 + 2) with 4 by ring.
    eexists. split; [reflexivity|]. cbn [a_slam]. auto. }
  destruct E2 as (a2 & E2 & G0 & G1 & LE). clear X1.
  exists a1. eexists. exists a2. eexists. split; [apply (go_rigid [(0, None, 0%nat); (2, None, 7%nat); (2, None, 8%nat)])|].
  assert (R1 : arun (cx_env false) [go 0 None 0; go 2 None 7] = Ok (a1, rev [AInc (along 2); ANode 0; ALoop false; ADraw (at_ 2) t2id; ARep KOdo (at_ 2)] ++
     rev [ADraw (at_ 0) t2id; ARep KFirst (at_ 0)] ++ [])).
  { unfold arun. cbn [foldM]. unfold astep at 1. cbn [fst snd]. rewrite E0. cbn [bind fst snd].
    unfold astep at 1. cbn [fst snd]. rewrite E1. reflexivity. }
  split; [exact R1|]. split; [exact E2|]. split; [exact (arun_step _ _ _ _ _ _ _ R1 E2)|].
  split; [intros b; cbn; intuition congruence|]. split; [cbn; auto|]. split; [intros b; cbn; intuition congruence|].
  split; [exact G0|]. split; [exact G1|]. split; [intro z; apply same_refl|].
  assert (PD : forall v, v <> vzero -> 0 < quad mid v).
  { intros [x y z] N. unfold quad, mid. munfold.
    assert (x <> 0 \/ y <> 0 \/ z <> 0) as [X|[X|X]].
    { destruct (Req_dec x 0), (Req_dec y 0), (Req_dec z 0); auto. subst. destruct (N eq_refl). }
    all: pose proof (Rsqr_pos_lt _ X); pose proof (Rle_0_sqr x); pose proof (Rle_0_sqr y); pose proof (Rle_0_sqr z); unfold Rsqr in *; lra. }
  split; [split; [reflexivity|exact PD]|]. split; [|exact LE]. split; [reflexivity|]. intro v.
  destruct (V3_dec v) as [->|N]; [unfold quad; cbn; munfold; lra|left; apply PD, N].
Qed.
