(** Concrete runs of the front end: a robot going along the x axis. *)
From Coq Require Import Reals Lra List ZArith Bool Lia Arith.
From Verif Require Import Base LinAlg3 GeoModel GeoSpec GeoProofs.
From Verif Require Import GraphModel LoopModel SlamModel AlgModel AlgSpec AlgProofs.
Import ListNotations.
Open Scope R_scope.

Definition along (d : R) : T2 := mkT2 1 0 0 1 d 0.
Definition at_ (x : R) : pose := mkP x 0 0.
Lemma along_pose d : getTransFromPose (at_ d) = along d.
Proof. apply T2_eq; cbn; rewrite ?sin_0, ?cos_0; ring. Qed.
Lemma along_mul a b : t2mul (along a) (along b) = along (a + b).
Proof. apply T2_eq; cbn; ring. Qed.
Lemma along_zero : t2id = along 0.
Proof. reflexivity. Qed.
Lemma along_inv a : t2inv (along a) = along (- a).
Proof. apply T2_eq; cbn; unfold t2det; cbn; field. Qed.
Lemma along_rigid d : rigid (along d).
Proof. rewrite <- along_pose. apply rigid_pose. Qed.
Lemma pose_along d : getPoseFromTransform (along d) = at_ d.
Proof.
  rewrite <- along_pose, pose_of_trans. unfold at_. cbn. rewrite normalize_id; [reflexivity|].
  pose proof PI_RGT_0; lra.
Qed.
Lemma angle_along d : getAngle (along d) = 0.
Proof. change (pth (getPoseFromTransform (along d)) = 0). rewrite pose_along. reflexivity. Qed.
Lemma disp_along d : getDisplacement (along d) = Rabs d.
Proof. unfold getDisplacement. cbn. replace (d * (d * 1) + 0 * (0 * 1)) with (Rsqr d) by (unfold Rsqr; ring). apply sqrt_Rsqr_abs. Qed.
Lemma moved_along d : moved (along d) <-> 2 / 10 < Rabs d.
Proof.
  unfold moved. rewrite angle_along, disp_along, Rabs_R0. split; [intros [X|X]; lra|auto].
Qed.
Lemma enough_along d : 2 / 10 < d -> movedEnough (along d) = true.
Proof. intro H. apply movedEnough_iff, moved_along. rewrite Rabs_pos_eq; lra. Qed.
Lemma enough_not d : 0 <= d <= 2 / 10 -> movedEnough (along d) = false.
Proof.
  intro H. destruct (movedEnough (along d)) eqn:E; [|reflexivity].
  apply movedEnough_iff, moved_along in E. rewrite Rabs_pos_eq in E; lra.
Qed.

(** Window origin at the start, never moved; every loop candidate matches if
    [close], with transform [at_ 1]. *)
Definition cx_lenv (close : bool) : lenv pose (frame unit) M3 unit Z :=
  mkLEnv Z.add Z.ltb (fun _ _ => 0%Z) (fun _ => 1%Z) 0%Z 1%Z (fun _ _ => tt)
         (fun _ _ _ => if close then Some (mid, at_ 1) else None) (Some false).
Definition cx_env (close : bool) : aenv unit unit unit unit Z :=
  mkAEnv (cx_lenv close) (fun p => p) mid (15 / 10) tt (fun b _ => b) (fun b _ _ => b) (fun _ s => s)
    (fun _ => tt) (fun _ => at_ 0) (fun w _ _ => w) (fun w t => (w, t)).
Definition go (d : R) (m : option R) (addr : nat) : ainput unit Z :=
  mkIn (along d) [] (option_map along m) addr (mkLChoice 0%Z (fun _ _ => 0%nat))
       (fun k => 1000 + k)%nat (fun k => at_ 5).
Lemma go_rigid l : rigid_inputs (map (fun x => go (fst (fst x)) (snd (fst x)) (snd x)) l).
Proof. apply Forall_forall. intros i H. apply in_map_iff in H. destruct H as (x & <- & _). apply along_rigid. Qed.

Lemma left_along close d : leftWindow (cx_env close) (along d) = if Rlt_dec (15 / 10) (Rabs d) then true else false.
Proof.
  unfold leftWindow. rewrite disp_along, Rabs_Rabsolu. reflexivity.
Qed.
Lemma left_yes close d : 15 / 10 < d -> leftWindow (cx_env close) (along d) = true.
Proof. intro H. rewrite left_along, Rabs_pos_eq by lra. destruct (Rlt_dec _ _); [auto|lra]. Qed.
Lemma left_no close d : 0 <= d <= 15 / 10 -> leftWindow (cx_env close) (along d) = false.
Proof. intro H. rewrite left_along, Rabs_pos_eq by lra. destruct (Rlt_dec _ _); [lra|auto]. Qed.

(** ** steps that do not leave the window, as rules on what matters *)
Record on_line (a : alg unit unit) (unused pos temp matcher : R) : Prop := {
  ol_init : a_init a = true; ol_win : a_win a = Some tt;
  ol_unused : a_unused a = along unused; ol_pos : a_pos a = along pos;
  ol_temp : a_temp a = along temp; ol_match : a_matcher a = at_ matcher }.

Lemma line_first close i : exists a, update (cx_env close) (alg_new (cx_env close)) i =
   Ok (a, [ADraw (at_ 0) t2id; ARep KFirst (at_ 0)]) /\ on_line a 0 0 0 0 /\
   a_slam a = slam_init /\ a_first a = false /\ f_origin (a_frame a) = at_ 0.
Proof.
  eexists. split; [unfold update; cbn [alg_new a_init]; rewrite pose_id; reflexivity|].
  split; [split; reflexivity|]. auto.
Qed.
Lemma line_skip close a u p t m d ma ad : on_line a u p t m -> 0 <= u + d <= 2 / 10 ->
  exists a', update (cx_env close) a (go d ma ad) = Ok (a', [ARep KSkip (at_ (p + d))]) /\
    on_line a' (u + d) p t m.
Proof.
  intros [I W U P T M] H. unfold update. rewrite I, W, U, P. cbn [go i_motion].
  rewrite !along_mul, enough_not, pose_along by exact H.
  eexists. split; [reflexivity|]. split; cbn; auto.
Qed.
Lemma line_odo close a u p t m d ad : on_line a u p t m -> 2 / 10 < u + d -> 0 <= t + d <= 15 / 10 ->
  exists a' o, update (cx_env close) a (go d None ad) =
    Ok (a', [AInc (along d); ADraw o (along (t + d)); ARep KOdo (at_ (p + d))]) /\
    on_line a' 0 (p + d) (t + d) m /\ o = f_origin (a_frame a).
Proof.
  intros [I W U P T M] H1 H2. unfold update. rewrite I, W, U. cbn [go i_motion i_match option_map].
  rewrite along_mul, enough_along by exact H1. unfold updateGraph. cbn [setUnused a_temp].
  rewrite T, along_mul, left_no by exact H2. cbn [bind fst snd app a_pos setUnused].
  rewrite P, along_mul, pose_along.
  eexists _, _. split; [reflexivity|]. split; [split; cbn; auto|reflexivity].
Qed.
Lemma line_match close a u p t m d x ad : on_line a u p t m -> 2 / 10 < u + d -> 0 <= t + (x - m) <= 15 / 10 ->
  exists a' o, update (cx_env close) a (go d (Some x) ad) =
    Ok (a', [AInc (along (x - m)); ADraw o (along (t + (x - m))); ARep (KMatch (at_ 0) (along x)) (at_ (p + (x - m)))]) /\
    on_line a' 0 (p + (x - m)) (t + (x - m)) x.
Proof.
  intros [I W U P T M] H1 H2. unfold update. rewrite I, W, U. cbn [go i_motion i_match option_map].
  rewrite along_mul, enough_along by exact H1.
  assert (E : getPoseFromTransform (t2mul (getTransFromPose (w_origin (cx_env close) tt)) (along x)) = at_ x).
  { cbn [cx_env w_origin]. rewrite along_pose, along_mul, pose_along. f_equal. ring. }
  rewrite E. cbn [setUnused a_matcher]. rewrite M, !along_pose, along_inv, along_mul.
  replace (- m + x) with (x - m) by ring.
  unfold updateGraph. cbn [setMatcher setUnused a_temp].
  rewrite T, along_mul, left_no by exact H2. cbn [bind fst snd app a_pos setUnused setMatcher setWindow cx_env w_move w_merge].
  rewrite P, along_mul, pose_along.
  eexists _, _. split; [reflexivity|]. split; cbn; auto.
Qed.

(** two odometry steps of 0.15 m *)
Definition small_steps := [go 0 None 0; go (15 / 100) None 0; go (15 / 100) None 0].
Lemma small_steps_run : exists a log, arun (cx_env false) small_steps = Ok (a, log) /\
  last_report log = Some (KOdo, at_ (15 / 100)) /\ no_loop log /\
  getPoseFromTransform (motions (tl small_steps)) = at_ (3 / 10).
Proof.
  destruct (line_first false (go 0 None 0)) as (a0 & E0 & L0 & _).
  destruct (line_skip false a0 0 0 0 0 (15 / 100) None 0 L0) as (a1 & E1 & L1); [lra|].
  destruct (line_odo false a1 (0 + 15 / 100) 0 0 0 (15 / 100) 0 L1) as (a2 & o & E2 & L2 & _); [lra|lra|].
  unfold arun, small_steps. cbn [foldM]. unfold astep at 1. cbn [fst snd]. rewrite E0. cbn [bind fst snd rev app].
  unfold astep at 1. cbn [fst snd]. rewrite E1. cbn [bind fst snd rev app].
  unfold astep at 1. cbn [fst snd]. rewrite E2. cbn [bind fst snd rev app].
  eexists _, _. split; [reflexivity|]. split; [cbn; do 2 f_equal; f_equal; lra|].
  split; [intros b; cbn; intuition discriminate|].
  unfold motions. cbn [tl fold_left go i_motion]. rewrite along_zero, !along_mul, pose_along. f_equal. lra.
Qed.

(** a step of 0.3 m with a failed match, then a match at 0.6 m *)
Definition fail_then_match := [go 0 None 0; go (3 / 10) None 0; go (3 / 10) (Some (6 / 10)) 0].
Lemma fail_then_match_run : exists a log, arun (cx_env false) fail_then_match = Ok (a, log) /\
  last_report log = Some (KMatch (at_ 0) (along (6 / 10)), at_ (9 / 10)) /\ no_loop log.
Proof.
  destruct (line_first false (go 0 None 0)) as (a0 & E0 & L0 & _).
  destruct (line_odo false a0 0 0 0 0 (3 / 10) 0 L0) as (a1 & o1 & E1 & L1 & O1); [lra|lra|].
  destruct (line_match false a1 0 _ _ 0 (3 / 10) (6 / 10) 0 L1) as (a2 & o2 & E2 & L2); [lra|lra|].
  unfold arun, fail_then_match. cbn [foldM]. unfold astep at 1. cbn [fst snd]. rewrite E0. cbn [bind fst snd rev app].
  unfold astep at 1. cbn [fst snd]. rewrite E1. cbn [bind fst snd rev app].
  unfold astep at 1. cbn [fst snd]. rewrite E2. cbn [bind fst snd rev app].
  eexists _, _. split; [reflexivity|]. split; [cbn; do 2 f_equal; f_equal; lra|].
  intros b; cbn; intuition discriminate.
Qed.
(** two matches *)
Definition two_matches := [go 0 None 0; go (3 / 10) (Some (31 / 100)) 0; go (3 / 10) (Some (6 / 10)) 0].
Lemma two_matches_run : exists a log, arun (cx_env false) two_matches = Ok (a, log) /\
  last_report log = Some (KMatch (at_ 0) (along (6 / 10)), at_ (6 / 10)) /\ no_loop log /\ no_odo log.
Proof.
  destruct (line_first false (go 0 None 0)) as (a0 & E0 & L0 & _).
  destruct (line_match false a0 0 _ _ 0 (3 / 10) (31 / 100) 0 L0) as (a1 & o1 & E1 & L1); [lra|lra|].
  destruct (line_match false a1 0 _ _ (31 / 100) (3 / 10) (6 / 10) 0 L1) as (a2 & o2 & E2 & L2); [lra|lra|].
  unfold arun, two_matches. cbn [foldM]. unfold astep at 1. cbn [fst snd]. rewrite E0. cbn [bind fst snd rev app].
  unfold astep at 1. cbn [fst snd]. rewrite E1. cbn [bind fst snd rev app].
  unfold astep at 1. cbn [fst snd]. rewrite E2. cbn [bind fst snd rev app].
  eexists _, _. split; [reflexivity|]. split; [cbn; do 2 f_equal; f_equal; lra|].
  split; [intros b|intros p]; cbn; intuition discriminate.
Qed.

(** ** two nodes and a loop closure *)
Definition two_nodes := [go 0 None 0; go 2 None 7; go 2 None 8].
Lemma first_node a ctemp : a_slam a = slam_init -> a_first a = false -> f_origin (a_frame a) = at_ 0 ->
  newNode (cx_env true) a (go 2 None 7) (along 2) ctemp =
  Ok (mkAlg (a_init a) true 0 ctemp (along 2) (a_unused a) (along 2) (a_cumul a) t2id (a_matcher a) covar_new
        (a_map a ++ [0%nat]) (a_win a) (mkFrame (at_ 2) tt)
        (fst (addPose (e_senv (cx_env true)) slam_init (at_ 0) (a_frame a))) (a_frames a ++ [0%nat]),
      [ANode 0; ALoop false; ADraw (at_ 2) t2id]).
Proof.
  intros E1 E2 E3. unfold newNode. rewrite E1, E2, E3.
  match goal with |- context [addPose ?e ?s ?p ?f] => destruct (addPose e s p f) as [s1 id] eqn:AP end.
  assert (H : s1 = fst (addPose (e_senv (cx_env true)) slam_init (at_ 0) (a_frame a)) /\ id = 0%nat).
  { rewrite AP. split; [reflexivity|]. injection AP as _ <-. reflexivity. }
  destruct H as [H ->]. cbn [bind fst].
  assert (L : tryLoopCloseLast (e_senv (cx_env true)) (i_choice (go 2 None 7)) (i_fresh (go 2 None 7)) s1 = Ok (s1, false)).
  { injection AP as <-. reflexivity. }
  rewrite L. cbn [bind].
  assert (G : getPoseLocation s1 0 = Ok (at_ 0)).
  { injection AP as <-. reflexivity. }
  rewrite G. cbn [bind]. rewrite along_pose, along_mul.
  replace (0 + 2) with 2 by ring. rewrite pose_along. reflexivity.
Qed.

Lemma graph_part_ok f0 f1 inf : exists s1 s2 e2 s3 s4 b4,
  addPose (e_senv (cx_env true)) (fst (addPose (e_senv (cx_env true)) slam_init (at_ 0) f0)) (at_ 2) f1 = (s1, 1%nat) /\
  addLastConstrain (e_senv (cx_env true)) s1 8%nat (at_ 2) inf = Ok (s2, e2) /\
  tryLoopCloseLast (e_senv (cx_env true)) (mkLChoice 0%Z (fun _ _ => 0%nat)) (fun k => 1000 + k)%nat s2 = Ok (s3, true) /\
  optimalizeIterationaly (e_senv (cx_env true)) s3 (fun k => at_ 5) = Ok (s4, b4) /\
  getPoseLocation s4 1 = Ok (at_ 5).
Proof.
  eexists _, _, _, _, _, _.
  split; [lazy -[at_ mid]; reflexivity|].
  split; [lazy -[at_ mid]; reflexivity|].
  split; [lazy -[at_ mid]; reflexivity|].
  split; [lazy -[at_ mid]; reflexivity|].
  lazy -[at_]. reflexivity.
Qed.
Lemma newNode_from {Body Win Scan Guess D} (env : aenv Body Win Scan Guess D) a i temp ctemp s1 id s2 e2 s3 s4 b4 p tr inf :
  addPose (e_senv env) (a_slam a) (f_origin (a_frame a)) (a_frame a) = (s1, id) -> a_first a = true ->
  getPoseFromTransform (a_ltrans a) = tr -> minv (a_lcov a) = inf ->
  addLastConstrain (e_senv env) s1 (i_addr i) tr inf = Ok (s2, e2) ->
  tryLoopCloseLast (e_senv env) (i_choice i) (i_fresh i) s2 = Ok (s3, true) ->
  optimalizeIterationaly (e_senv env) s3 (i_est i) = Ok (s4, b4) -> getPoseLocation s4 id = Ok p ->
  exists a', newNode env a i temp ctemp = Ok (a', [ANode id; ALoop true; ARedraw;
     ADraw (getPoseFromTransform (t2mul (getTransFromPose p) temp)) t2id]) /\
   a_pos a' = t2mul (getTransFromPose p) temp /\ a_slam a' = s4.
Proof.
  intros H1 H2 H3 H4 H5 H6 H7 H8. unfold newNode. rewrite H1, H2, H3, H4, H5. cbn [bind fst].
  rewrite H6. cbn [bind]. rewrite H7. cbn [bind fst]. rewrite H8. cbn [bind]. eexists. split; [reflexivity|]. auto.
Qed.
Lemma second_node a f0 ctemp i : a_slam a = fst (addPose (e_senv (cx_env true)) slam_init (at_ 0) f0) ->
  a_first a = true -> f_origin (a_frame a) = at_ 2 -> a_ltrans a = along 2 ->
  i_addr i = 8%nat -> i_choice i = mkLChoice 0%Z (fun _ _ => 0%nat) -> i_fresh i = (fun k => 1000 + k)%nat ->
  i_est i = (fun _ => at_ 5) ->
  exists a', newNode (cx_env true) a i (along 2) ctemp =
    Ok (a', [ANode 1; ALoop true; ARedraw; ADraw (at_ 7) t2id]) /\ a_pos a' = along 7 /\
    getPoseLocation (a_slam a') 1 = Ok (at_ 5).
Proof.
  intros E1 E2 E3 E4 J1 J2 J3 J4.
  destruct (graph_part_ok f0 (a_frame a) (minv (a_lcov a))) as (s1 & s2 & e2 & s3 & s4 & b4 & AP & H2 & H3 & H4 & G).
  destruct (newNode_from (cx_env true) a i (along 2) ctemp s1 1%nat s2 e2 s3 s4 b4 (at_ 5) (at_ 2) (minv (a_lcov a)))
    as (a' & N & P & S4).
  - rewrite E1, E3. exact AP.
  - exact E2.
  - rewrite E4. apply pose_along.
  - reflexivity.
  - rewrite J1. exact H2.
  - rewrite J2, J3. exact H3.
  - rewrite J4. exact H4.
  - exact G.
  - exists a'. rewrite N, P, S4, along_pose, along_mul, pose_along. replace (5 + 2) with 7 by ring. auto.
Qed.
Lemma two_nodes_run : exists a log, arun (cx_env true) two_nodes = Ok (a, log) /\
  last_report log = Some (KOdo, at_ 7) /\ made log = [1; 0]%nat /\ In (ALoop true) log /\
  getPoseLocation (a_slam a) 1 = Ok (at_ 5) /\ since_frame log = along 2.
Proof.
  destruct (line_first true (go 0 None 0)) as (a0 & E0 & L0 & S0 & F0 & O0). destruct L0 as [I W U P T M].
  assert (E1 : exists a1 c1, update (cx_env true) a0 (go 2 None 7) =
     Ok (a1, [AInc (along 2); ANode 0; ALoop false; ADraw (at_ 2) t2id; ARep KOdo (at_ 2)]) /\
     a1 = mkAlg true true 0 c1 (along 2) t2id (along 2) (a_cumul a0) t2id (a_matcher a0) covar_new
        (a_map a0 ++ [0%nat]) (Some tt) (mkFrame (at_ 2) tt)
        (fst (addPose (e_senv (cx_env true)) slam_init (at_ 0) (a_frame a0))) (a_frames a0 ++ [0%nat])).
  { unfold update. rewrite I, W, U. cbn [go i_motion i_match option_map]. rewrite along_mul, enough_along by lra.
    unfold updateGraph. cbn [setUnused a_temp]. rewrite T, along_mul. replace (0 + 2) with 2 by ring.
    rewrite left_yes by lra.
    rewrite first_node; [|exact S0|exact F0|exact O0]. cbn [bind fst snd app a_pos setUnused a_init a_unused a_win a_map a_frames a_matcher a_cumul a_frame].
    rewrite pose_along, I, W. eexists _, _. split; reflexivity. }
  destruct E1 as (a1 & c1 & E1 & X1).
  assert (E2 : exists a2, update (cx_env true) a1 (go 2 None 8) =
     Ok (a2, [AInc (along 2); ANode 1; ALoop true; ARedraw; ADraw (at_ 7) t2id; ARep KOdo (at_ 7)]) /\
     getPoseLocation (a_slam a2) 1 = Ok (at_ 5)).
  { assert (Y1 : a_init a1 = true) by (rewrite X1; reflexivity).
    assert (Y2 : a_win a1 = Some tt) by (rewrite X1; reflexivity).
    assert (Y3 : a_unused a1 = t2id) by (rewrite X1; reflexivity).
    assert (Y4 : a_temp a1 = t2id) by (rewrite X1; reflexivity).
    assert (Y5 : a_slam a1 = fst (addPose (e_senv (cx_env true)) slam_init (at_ 0) (a_frame a0)))
      by (rewrite X1; reflexivity).
    assert (Y6 : a_first a1 = true) by (rewrite X1; reflexivity).
    assert (Y7 : f_origin (a_frame a1) = at_ 2) by (rewrite X1; reflexivity).
    assert (Y8 : a_ltrans a1 = along 2) by (rewrite X1; reflexivity). clear X1 E1 E0.
    unfold update. rewrite Y1, Y2, Y3. cbn [go i_motion i_match option_map]. rewrite t2mul_id_l, enough_along by lra.
    unfold updateGraph. cbn [setUnused a_temp]. rewrite Y4, t2mul_id_l, left_yes by lra.
    match goal with |- context [newNode (cx_env true) ?x ?i (along 2) ?c] =>
      destruct (second_node x (a_frame a0) c i Y5 Y6 Y7 Y8 eq_refl eq_refl eq_refl eq_refl) as (a2 & H & HP & HG) end.
    rewrite H. cbn [bind fst snd app]. rewrite HP, pose_along.
    exists a2. split; [reflexivity|exact HG]. }
  destruct E2 as (a2 & E2 & G2). clear X1.
  unfold arun, two_nodes. cbn [foldM]. unfold astep at 1. cbn [fst snd]. rewrite E0. cbn [bind fst snd rev app].
  unfold astep at 1. cbn [fst snd]. rewrite E1. cbn [bind fst snd rev app].
  unfold astep at 1. cbn [fst snd]. rewrite E2. cbn [bind fst snd rev app].
  eexists _, _. split; [reflexivity|]. split; [reflexivity|]. split; [reflexivity|].
  split; [cbn; auto 10|]. split; [exact G2|]. cbn [since_frame since_node]. apply t2mul_id_l.
Qed.

Lemma rays_from_frame_origin : exists (env : aenv unit unit unit unit Z) l a log m r k q,
  rigid_inputs l /\ arun env l = Ok (a, log) /\ log = ARep k q :: ADraw (at_ 0) m :: r /\ q = at_ (3 / 10).
Proof.
  destruct (line_first false (go 0 None 0)) as (a0 & E0 & L0 & _ & _ & O0).
  destruct (line_odo false a0 0 0 0 0 (3 / 10) 0 L0) as (a1 & o1 & E1 & L1 & O1); [lra|lra|].
  exists (cx_env false), [go 0 None 0; go (3 / 10) None 0].
  unfold arun. cbn [foldM]. unfold astep at 1. cbn [fst snd]. rewrite E0. cbn [bind fst snd rev app].
  unfold astep at 1. cbn [fst snd]. rewrite E1. cbn [bind fst snd rev app]. rewrite O1, O0.
  eexists _, _, _, _, _, _. split; [apply (go_rigid [(0, None, 0%nat); (3 / 10, None, 0%nat)])|].
  split; [reflexivity|]. split; [reflexivity|]. f_equal. lra.
Qed.
