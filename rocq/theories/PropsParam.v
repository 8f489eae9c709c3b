(** C117-C119: the settings of the program, its frames and its topics (property statements;
    proofs in ParamProofs.v, ParamRun.v, LoopWalk.v, cases in ParamCases.v).

    [initParameters flt p found]: the program is started with the private parameters [p]
    and the tf_prefix [found]; [flt] converts double to float.  [runs c t h r]: the
    program started with configuration [c] received the messages [t]. *)
From Coq Require Import Reals Qreals List ZArith QArith Bool Ascii String Lra Arith.
From Verif Require Import Base LinAlg3 GeoModel GeoSpec RegModel RegSpec CorrModel MatchModel MatchSpec.
From Verif Require Import GraphModel LoopModel LoopSpec SlamModel AlgModel AlgSpec AlgCases NodeModel NodeSpec.
From Verif Require Import VoxelModel VoxelSpec GridModel ScanInit MapModel ExportModel SysModel SysSpec SysCases.
From Verif Require Import RunModel RunSpec RunProofs CloseModel CloseSpec CloseCases WinSpec.
From Verif Require Import ParamModel ParamSpec ParamProofs ParamRun ParamCases.
Import ListNotations.
Open Scope list_scope.
Open Scope nat_scope.

Section Settings.
Variable flt : R -> Q.
(** The program starts exactly if the threshold is inside (0, 1); otherwise it ends with
    an exception. *)
Theorem C117_start : forall p found x, number p "loop_score_threshold" (6 / 10) x ->
  ((0 < Q2R (flt x) < 1)%R -> exists c, initParameters flt p found = Ok c) /\
  (~ (0 < Q2R (flt x) < 1)%R -> initParameters flt p found = Throw).
Proof. exact (init_starts flt). Qed.
(** Nothing but the ten settings and the prefix has an effect. *)
Theorem C117_only_these : forall p p' found, (forall k, In k settings -> p k = p' k) ->
  initParameters flt p found = initParameters flt p' found.
Proof. exact (init_only flt). Qed.
(** The names one would use for the odometry and map frames are not among them: setting
    them changes nothing. *)
Theorem C117_misspelt_refuted : forall p found v,
  initParameters flt (with_setting p "odom_frame_id" v) found = initParameters flt p found /\
  initParameters flt (with_setting p "map_frame_id" v) found = initParameters flt p found.
Proof.
  intros p found v. split; apply init_only; intros k I; unfold with_setting; cbn [In settings] in I;
    repeat (destruct I as [<-|I]; [reflexivity|]); contradiction.
Qed.
End Settings.

Section Runs.
Context {X : Type}.
Notation cell := (ncell X).
Notation frame := (frame (res (ngrid X))).
Variable flt : R -> Q.
Variable d2d : frame -> frame -> T2 -> bool * T2.
Variable corr : R -> list P2 -> list P2 -> T2 -> res (bool * T2).
Variable over : option bool.
Variable merge : cell -> cell -> cell.
Variable dflt : cell.
Variable addPt : cell -> point -> cell.
Variable compute : cell -> cell.
Variable tcell : qtrans T2 -> cell -> cell.
Variable occRay : cell -> point -> cell -> cell.
Variable rawOcc : cell -> Q.
Variable btw : qpose -> qpose -> qtrans T2.
Variable tp : qtrans T2 -> point -> point.
Variable noLin : T2.
Variable moveOrigin : qpose -> qtrans T2 -> qpose.
Variable moveScan : T2 -> point -> point.
Variable dbl : R -> Q.
Variable se2' : pose -> pose.
Variable odo : M3.
Variable oob : option bool.
Notation runs := (runs d2d corr over merge dflt addPt compute tcell occRay rawOcc btw tp noLin moveOrigin moveScan dbl se2' odo oob).
Notation fill := (fill merge dflt addPt compute tcell occRay btw tp moveScan dbl).
Notation graph_of r := (s_graph (a_slam (y_alg (r_sys r)))).

(** scanmatch_window_radius: the window covers that square around the robot. *)
Theorem C117_window : forall p found c x t h r g,
  initParameters flt p found = Ok c -> number p "scanmatch_window_radius" 40 x -> runs c t h r ->
  a_win (y_alg (r_sys r)) = Some (Ok g) -> forall q, inbox (flt x) q -> isInside (n_vox g) q = true.
Proof. exact (set_window flt d2d corr over merge dflt addPt compute tcell occRay rawOcc btw tp noLin moveOrigin moveScan dbl se2' odo oob). Qed.
(** node_gen_distance: a node is made exactly when the robot went further than that. *)
Theorem C117_nodes : forall p found c x t h r,
  initParameters flt p found = Ok c -> number p "node_gen_distance" 2 x -> runs c t h r ->
  nodes_when_due (Q2R (flt x)) (events h).
Proof. exact (set_nodes flt d2d corr over merge dflt addPt compute tcell occRay rawOcc btw tp noLin moveOrigin moveScan dbl se2' odo oob). Qed.
(** loop_max_distance, loop_score_threshold, loop_min_distance: a loop closing edge joins
    nodes that were closer than the first; of the frames joined, the share given by the
    second, or six tenths if that is more, overlaps; a way back through the graph from one
    node to the other is as long as the third.  Missing: the length of the way is counted
    from [s], what an uninitialised variable held at the time, not from zero. *)
Theorem C117_loops_partial : forall p found c mx th mn t h r k e,
  initParameters flt p found = Ok c ->
  number p "loop_max_distance" 30 mx -> number p "loop_score_threshold" (6 / 10) th -> number p "loop_min_distance" 14 mn ->
  runs c t h r -> getEdge (graph_of r) k = Ok e -> e_loop e = true ->
  e_to e < e_from e < List.length (born h) /\
  (exists fs ft : frame,
    f_body fs = fill (e_to e =? 0) (scans_of h (e_to e)) /\
    f_body ft = fill (e_from e =? 0) (scans_of h (e_from e)) /\
    (sqrt ((px (f_origin ft) - px (f_origin fs)) ^ 2 + (py (f_origin ft) - py (f_origin fs)) ^ 2) < Q2R (flt mx))%R /\
    (empty_fails (@cloudOf X) d2d -> (forall a b g, rigid (snd (d2d a b g))) ->
     overlap (1 / 2) (Rmin (Q2R (flt th)) (6 / 10) * INR (List.length (cloudOf ft)))
       (map (t2apply (getTransFromPose (e_trans e))) (cloudOf fs)) (cloudOf ft))) /\
  exists s d, In s (map (fun e => d0 (i_choice (v_in e))) h) /\
    back_walk Rplus (fun p => sqrt (px p ^ 2 + py p ^ 2)) (graph_of r) s (e_from e) (e_to e) d /\ (Q2R (flt mn) <= d)%R.
Proof. exact (set_loops flt d2d corr over merge dflt addPt compute tcell occRay rawOcc btw tp noLin moveOrigin moveScan dbl se2' odo oob). Qed.
(** serialize_graph: whether the graph is published. *)
Theorem C117_graph : forall p found c b t h r m o,
  initParameters flt p found = Ok c -> switch p "serialize_graph" true b -> runs c ((m, o) :: t) h r ->
  map topic_of o =
    match accepted m with
    | Some _ => if List.length (took t) =? 0 then [TTf] else [TTf; TWin; TMap; TWinPcl; TPcl] ++ (if b then [TGraph] else [])
    | None => [TTf]
    end.
Proof. exact (set_topics flt d2d corr over merge dflt addPt compute tcell occRay rawOcc btw tp noLin moveOrigin moveScan dbl se2' odo oob). Qed.
End Runs.
Print Assumptions C117_start.
Print Assumptions C117_only_these.
Print Assumptions C117_misspelt_refuted.
Print Assumptions C117_window.
Print Assumptions C117_nodes.
Print Assumptions C117_loops_partial.
Print Assumptions C117_graph.

(** The settings of the example are those of the robot that closes a loop. *)
Example C117_case : initParameters qflt qstore qfound = Ok qconfig /\
  number qstore "scanmatch_window_radius" 40 1 /\ number qstore "node_gen_distance" 2 (15 / 10) /\
  number qstore "loop_max_distance" 30 30 /\ switch qstore "serialize_graph" true false /\
  exists t r, qruns qconfig t kh r /\ List.length t = 3 /\ a_win (y_alg (r_sys r)) = Some (Ok qwin) /\
  exists e, getEdge (s_graph (a_slam (y_alg (r_sys r)))) 1 = Ok e /\ e_from e = 1 /\ e_to e = 0 /\ e_loop e = true.
Proof.
  split; [exact qinit|]. split; [apply (number_whole _ _ _ 1); reflexivity|]. split; [apply number_given; reflexivity|].
  split; [apply number_default; discriminate|]. split; [apply switch_given; reflexivity|].
  destruct qrun_ok as (t & r & R & T & W & E). exists t, r. split; [exact R|]. split; [|auto].
  rewrite <- (map_length fst t), T. reflexivity.
Qed.
(** A threshold of one ends the program. *)
Example C117_start_case : initParameters (fun r => if Req_EM_T r 1 then 1%Q else 0%Q)
  (with_setting qstore "loop_score_threshold" (Some (PInt 1))) None = Throw.
Proof.
  apply (C117_start _ _ _ 1).
  - apply (number_whole _ _ _ 1). reflexivity.
  - destruct (Req_EM_T 1 1); [|contradiction]. unfold Q2R. cbn. lra.
Qed.

Section Names.
Context {X : Type}.
Variable flt : R -> Q.
Open Scope string_scope.
(** Transforms lead from the configured map frame to the configured odometry frame; every
    other message is given in the map frame; the position of the robot is looked up in the
    same odometry frame, that of the laser in the robot's. *)
Theorem C118_frames : forall p found c fixed odom base laser (o : rout X), initParameters flt p found = Ok c ->
  frame_name p found "map_farme_id" "map" fixed -> frame_name p found "odom_farme_id" "odom" odom ->
  frame_name p found "robot_base_frame_id" "base_link" base ->
  match o with
  | RTf _ _ => framesOf c o = [fixed; odom]
  | _ => forall f, In f (framesOf c o) -> f = fixed
  end /\ lookups c laser = [(base, laser); (odom, base)].
Proof.
  intros p found c fixed odom base laser o IN F O B. apply init_config in IN. destruct IN as (_ & ->).
  apply name_is in F, O, B. unfold framesOf, lookups. cbn [c_fixed c_odom c_base]. rewrite F, O, B. split; [|reflexivity].
  destruct o; try reflexivity; try (intros f [<-|[]]; reflexivity).
  intros f I. apply in_map_iff in I. destruct I as (x & <- & _). reflexivity.
Qed.
(** Robots with different prefixes never name the same frame. *)
Theorem C118_apart : forall p p' q q' c c' laser laser' f f',
  q <> "" -> q' <> "" -> slash_free q -> slash_free q' -> q <> q' ->
  initParameters flt p (Some (PStr q)) = Ok c -> initParameters flt p' (Some (PStr q')) = Ok c' ->
  names_frame (X := X) c laser f -> names_frame (X := X) c' laser' f' -> f <> f'.
Proof.
  intros p p' q q' c c' laser laser' f f' N N' S S' D I I' H H' E.
  destruct (frames_prefixed _ _ _ _ _ _ N I H) as (n & ->). destruct (frames_prefixed _ _ _ _ _ _ N' I' H') as (n' & ->).
  apply D. exact (proj1 (split_first _ _ _ _ S S' E)).
Qed.
(** Without a prefix all robots share their frames, whatever their namespaces. *)
Theorem C118_unprefixed_refuted : forall p c c', p "map_farme_id" = None -> p "odom_farme_id" = None ->
  initParameters flt p None = Ok c -> forall p', p' "map_farme_id" = None -> p' "odom_farme_id" = None ->
  initParameters flt p' None = Ok c' ->
  forall t T t' T', framesOf c (RTf (X := X) t T) = framesOf c' (RTf (X := X) t' T').
Proof.
  intros p c c' M O I p' M' O' I' t T t' T'. apply init_config in I, I'. destruct I as (_ & ->), I' as (_ & ->).
  unfold framesOf. cbn [c_fixed c_odom]. unfold paramS. rewrite M, M', O, O'. reflexivity.
Qed.

(** The laser scan is always listened to; the second source only if subscribe_mode is
    exactly "ODOM" or "POSE". *)
Theorem C119_inputs : forall p found c m, initParameters flt p found = Ok c -> text p "subscribe_mode" "NON" m ->
  (m = "ODOM" -> inputs c = ["/scan"; "odom"]) /\ (m = "POSE" -> inputs c = ["/scan"; "pose"]) /\
  (m <> "ODOM" -> m <> "POSE" -> inputs c = ["/scan"]).
Proof.
  intros p found c m IN T. apply init_config in IN. destruct IN as (_ & ->). apply text_is in T.
  unfold inputs. cbn [c_mode c_laser]. rewrite T. split; [intros ->; reflexivity|]. split; [intros ->; reflexivity|].
  intros A B. destruct (String.eqb_spec m "ODOM"); [contradiction|]. destruct (String.eqb_spec m "POSE"); [contradiction|]. reflexivity.
Qed.
(** The program never listens to what it publishes. *)
Theorem C119_no_feedback : forall p found c ns i (o : rout X), initParameters flt p found = Ok c -> In i (inputs c) ->
  resolve ns i <> resolve ns (topicName o).
Proof. exact (no_feedback flt). Qed.
(** Robots in different namespaces do not share topics, except those of scans and
    transforms. *)
Theorem C119_apart : forall p p' found found' c c' ns ns' k k',
  initParameters flt p found = Ok c -> initParameters flt p' found' = Ok c' -> ns <> ns' ->
  uses_topic (X := X) c k -> uses_topic (X := X) c' k' -> k <> "/scan" -> k <> "/tf" -> k' <> "/scan" -> k' <> "/tf" ->
  resolve ns k <> resolve ns' k'.
Proof. exact (apart_topics flt). Qed.
(** "Each robot has its own scans" is false: all listen to the same topic, and no setting
    changes it. *)
Theorem C119_scan_refuted : forall p found c ns, initParameters flt p found = Ok c ->
  exists i, In i (inputs c) /\ resolve ns i = "/scan".
Proof.
  intros p found c ns IN. apply init_config in IN. destruct IN as (_ & ->). exists "/scan". split; [|reflexivity].
  unfold inputs. cbn [c_mode c_laser]. destruct (_ =? "ODOM")%string; [|destruct (_ =? "POSE")%string]; left; reflexivity.
Qed.
End Names.
Print Assumptions C118_frames.
Print Assumptions C118_apart.
Print Assumptions C118_unprefixed_refuted.
Print Assumptions C119_inputs.
Print Assumptions C119_no_feedback.
Print Assumptions C119_apart.
Print Assumptions C119_scan_refuted.

Example C118_case : (exists c2, initParameters qflt qstore (Some (PStr "robot2")) = Ok c2) /\
  frame_name qstore qfound "map_farme_id" "map" "robot1/world" /\ frame_name qstore qfound "odom_farme_id" "odom" "robot1/odom" /\
  names_frame (X := unit) qconfig "laser" "robot1/world" /\ slash_free "robot1" /\ slash_free "robot2".
Proof.
  split.
  { apply (C117_start qflt qstore (Some (PStr "robot2")) (6 / 10)); [apply number_default; discriminate|].
    rewrite qflt_thr. unfold Q2R. cbn. lra. }
  split; [apply (name_prefixed _ _ _ _ "robot1" "world"); try reflexivity; [discriminate|apply text_given; reflexivity]|].
  split; [apply (name_prefixed _ _ _ _ "robot1" "odom"); try reflexivity; [discriminate|apply text_default; discriminate]|].
  split; [left; exists (RPcl []); left; reflexivity|]. split; apply noslash_free; reflexivity.
Qed.
Example C119_case : inputs qconfig = ["/scan"; "odom"]%string /\ resolve "/robot1" "odom" = "/robot1/odom"%string /\
  uses_topic (X := unit) qconfig "odom" /\ uses_topic (X := unit) qconfig "win_pcl".
Proof. split; [reflexivity|]. split; [reflexivity|]. split; [left; right; left; reflexivity|right; exists (RWinPcl []); reflexivity]. Qed.
