(** C105-C109: the whole program, from received to published messages (property
    statements; proofs in RunProofs.v, SysMsg.v, CellMsg.v, cases in RunCases.v).

    [rreach t h r]: after receiving the messages in [t], each with what was published for
    it, and making the calls [h] of the algorithm, the program is in the state [r]; both
    newest first.  [took t]: time, odometry pose and scan of the accepted messages. *)
From Coq Require Import Reals Qreals List ZArith QArith Bool Arith Sorting.Permutation.
From Verif Require Import Base LinAlg3 GeoModel GeoSpec.
From Verif Require Import GraphModel LoopModel SlamModel AlgModel AlgSpec AlgCases NodeModel NodeSpec.
From Verif Require Import VoxelModel GridModel GridSpec GridProofs ScanSpec ScanInit MapModel MapSpec ExportModel SysModel SysSpec SysMap SysCloud.
From Verif Require Import CellModel CellSpec CellCases CellMsg.
From Verif Require Import RunModel RunSpec RunProofs SysCases RunCases.
Import ListNotations.
Open Scope nat_scope.

Section Props.
Context {X Guess D : Type}.
Notation cell := (ncell X).
Notation body := (res (ngrid X)).
Notation msg := (nmsg (option point)).
Variable merge : cell -> cell -> cell.
Variable dflt : cell.
Variable addPt : cell -> point -> cell.
Variable compute : cell -> cell.
Variable tcell : qtrans T2 -> cell -> cell.
Variable occRay : cell -> point -> cell -> cell.
Variable rawOcc : cell -> Q.
Variable btw : qpose -> qpose -> qtrans T2.
Variable tp : qtrans T2 -> point -> point.
Variable noLin : T2.
Variable moveOrigin : qpose -> qtrans T2 -> qpose.
Variable moveScan : T2 -> point -> point.
Variable dbl : R -> Q.
Variable radius : Q.
Variable le : lenv pose (frame body) M3 Guess D.
Variable se2' : pose -> pose.
Variable odo : M3.
Variable dist : R.
Variable oob : option bool.
Variable ser : bool.
Notation env := (sysEnv merge dflt addPt compute tcell occRay btw tp noLin moveOrigin moveScan dbl radius le se2' odo dist).
Notation yreach := (yreach merge dflt tcell occRay rawOcc btw tp dbl env).
Notation rreach := (rreach merge dflt tcell occRay rawOcc btw tp dbl oob ser env).
Notation in_frame := (in_frame btw tp moveScan dbl).
Notation frame_of := (frame_of merge dflt addPt compute tcell occRay btw tp moveScan dbl).

(** Every accepted message leads to one call of the algorithm, with its time, its scan and
    the motion since the accepted message before; nothing else calls it. *)
Theorem C105_calls : forall t h r, rreach t h r -> yreach h (r_sys r) /\ told (took t) h.
Proof. exact (run_calls merge dflt addPt compute tcell occRay rawOcc btw tp noLin moveOrigin moveScan dbl radius le se2' odo dist oob ser). Qed.
(** A rejected message and the first accepted one are answered with the transform only;
    every later accepted one with everything. *)
Theorem C105_topics : forall t h r m o, rreach ((m, o) :: t) h r ->
  map topic_of o =
    match accepted m with
    | Some _ => if length (took t) =? 0 then [TTf] else [TTf; TWin; TMap; TWinPcl; TPcl] ++ (if ser then [TGraph] else [])
    | None => [TTf]
    end.
Proof. exact (run_topics merge dflt addPt compute tcell occRay rawOcc btw tp noLin moveOrigin moveScan dbl radius le se2' odo dist oob ser). Qed.
(** Rejected messages have no effect on anything later. *)
Theorem C105_rejected : forall t h r, rreach t h r ->
  rreach (filter (fun mo => if accepted (fst mo) then true else false) t) h r.
Proof. exact (run_rejected merge dflt addPt compute tcell occRay rawOcc btw tp noLin moveOrigin moveScan dbl radius le se2' odo dist oob ser). Qed.
(** Every point of the published map cloud is the mean of points of one accepted
    message's scan, drawn into the frame of some node and placed at that node's pose. *)
Theorem C105_cloud : forall t h r m o l p,
  occ_only occRay -> nc_gauss dflt = false -> (forall q, moveScan t2id q = q) -> dbl 0 = 0%Q ->
  means_average dflt addPt compute ->
  (forall t c, nc_gauss (tcell t c) = nc_gauss c) ->
  (forall t c, nc_gauss c = true -> nc_mean (tcell t c) = tp t (nc_mean c)) ->
  rreach ((m, o) :: t) h r -> In (RPcl l) o -> In p l ->
  exists m' s k x f mv ps q, In m' (m :: map fst t) /\ accepted m' <> None /\ ms_scan m' = Some s /\
    In (f, mv, s) (scans_of h k) /\ getPoseLocation (a_slam (y_alg (r_sys r))) k = Ok x /\
    (forall a, In a ps -> In (Some a) (in_frame (f, mv, s))) /\ average ps q /\
    p = tp (btw world world) (tp (btw (qposeOf dbl x) world) q).
Proof. exact (run_cloud merge dflt addPt compute tcell occRay rawOcc btw tp noLin moveOrigin moveScan dbl radius le se2' odo dist oob ser). Qed.
(** Every point of the published window cloud lies in the convex hull of one accepted
    message's scan, placed where the matcher put it. *)
Theorem C105_window : forall t h r m o l p,
  occ_only occRay -> nc_gauss dflt = false -> means_average dflt addPt compute ->
  (forall t c, nc_gauss (tcell t c) = nc_gauss c) ->
  (forall t c, nc_gauss c = true -> nc_mean (tcell t c) = tp t (nc_mean c)) ->
  blends merge -> (forall t, affine (tp t)) -> shifts btw tp -> slides noLin moveOrigin ->
  rreach ((m, o) :: t) h r -> In (RWinPcl l) o -> In p l ->
  exists m' s (e : yev D) F, In e h /\ In m' (m :: map fst t) /\ accepted m' <> None /\ ms_scan m' = Some s /\
    i_scan (v_in e) = s /\ v_time e = inject_Z (ms_time m') /\ placed_by tp dbl e F /\ hull (map F (reals s)) p.
Proof. exact (run_window merge dflt addPt compute tcell occRay rawOcc btw tp noLin moveOrigin moveScan dbl radius le se2' odo dist oob ser). Qed.
(** The published occupancy grid is that of a blank map into which the frames of all nodes
    were drawn at their poses. *)
Theorem C105_map : forall t h r m o w, rreach ((m, o) :: t) h r -> In (RMap w) o ->
  exists order fs g0 g,
    Permutation order (born h) /\ (clock h -> order = born h) /\
    allOk (map (frame_of h (y_alg (r_sys r))) order) = Ok fs /\
    blank dflt g0 /\ foldM (addToMap merge dflt tcell occRay btw tp) fs g0 = Ok g /\
    (fs <> [] -> let c := createOccupancyGrid rawOcc btw tp g in
       om_width w = oc_width c /\ om_height w = oc_height c /\ om_res w = oc_res c /\ om_origin w = oc_origin c /\
       om_data w = oc_cells c).
Proof. exact (run_map merge dflt addPt compute tcell occRay rawOcc btw tp noLin moveOrigin moveScan dbl radius le se2' odo dist oob ser). Qed.
(** The window's message carries the time of the accepted message that changed the window
    last. *)
Theorem C105_stamp : forall t h r m o ts q g, rreach ((m, o) :: t) h r -> In (RWin (ts, q, g)) o ->
  exists e m', In e h /\ windowed (v_evs e) = true /\ v_time e = ts /\ window_time h = ts /\
    In m' (m :: map fst t) /\ accepted m' <> None /\ ts = inject_Z (ms_time m').
Proof. exact (run_stamp merge dflt addPt compute tcell occRay rawOcc btw tp noLin moveOrigin moveScan dbl radius le se2' odo dist oob ser). Qed.

(** The published transform takes the odometry pose of the message to the pose of the
    robot: the newest node's, moved by what was registered since; without loop closures
    the product of all that was registered. *)
Theorem C106_correction : forall t e h r m o odom, rreach ((m, o) :: t) (e :: h) r -> accepted m = Some odom -> took t <> [] ->
  exists T p k, hd_error o = Some (RTf (ms_time m) (Some T)) /\ tf_mul T (eigenPoseToTF odom) = eigenPoseToTF p /\
    last_report (events (e :: h)) = Some (k, p) /\
    let moved_on := match k with KSkip => i_motion (v_in e) | _ => t2id end in
    (forall n q, nodeCount (s_graph (a_slam (y_alg (r_sys r)))) = S n ->
       getPoseLocation (a_slam (y_alg (r_sys r))) n = Ok q ->
       p = getPoseFromTransform (t2mul (t2mul (getTransFromPose q) (since_frame (events (e :: h)))) moved_on)) /\
    (no_loop (events (e :: h)) -> p = getPoseFromTransform (t2mul (total (events (e :: h))) moved_on)).
Proof. exact (run_correction merge dflt addPt compute tcell occRay rawOcc btw tp noLin moveOrigin moveScan dbl radius le se2' odo dist oob ser). Qed.
(** A robot that only has its odometry is shown where the odometry says it moved to since
    the first accepted message.  Missing: messages that report less than the smallest
    motion handled (see C45_dead_reckoning_refuted). *)
Theorem C106_odometry_partial : forall t h r m o odom t0 o0 s0 q, rreach ((m, o) :: t) h r -> accepted m = Some odom ->
  took t = q ++ [(t0, o0, s0)] -> no_loop (events h) ->
  Forall (fun e => i_match (v_in e) = None /\ AlgSpec.moved (i_motion (v_in e))) (removelast h) ->
  exists T, hd_error o = Some (RTf (ms_time m) (Some T)) /\
    tf_mul T (eigenPoseToTF odom) =
    eigenPoseToTF (getPoseFromTransform (t2mul (t2inv (getTransFromPose o0)) (getTransFromPose odom))).
Proof. exact (run_odometry merge dflt addPt compute tcell occRay rawOcc btw tp noLin moveOrigin moveScan dbl radius le se2' odo dist oob ser). Qed.

(** "The odometry's covariance matters" is false: whatever covariances are sent instead,
    the same run is possible. *)
Theorem C107_covariance_refuted : forall (f : msg -> option (list R)) t h r, rreach t h r ->
  rreach (map (fun mo => (with_cov (f (fst mo)) (fst mo), snd mo)) t) h r.
Proof. exact (run_covariance merge dflt addPt compute tcell occRay rawOcc btw tp noLin moveOrigin moveScan dbl radius le se2' odo dist oob ser). Qed.

(** The two messages about the window show the same distributions in the same order,
    one displaced against the other by a whole number of cells of 0.25 m.  Missing: that
    they are not displaced (refuted below). *)
Theorem C108_window_messages_partial : forall t h r m o ts n (w : @grid_msg X) l, nc_gauss dflt = false -> shifts btw tp ->
  rreach ((m, o) :: t) h r -> In (RWin (ts, n, w)) o -> In (RWinPcl l) o ->
  gm_cell w = 1#4 /\
  exists a b : Z, Forall2 (fun p c => peq p (fst (nc_mean c) + inject_Z a * (1#4), snd (nc_mean c) + inject_Z b * (1#4))%Q)
    l (filter nc_gauss (gm_cells w)).
Proof. exact (run_pair merge dflt addPt compute tcell occRay rawOcc btw tp noLin moveOrigin moveScan dbl radius le se2' odo dist oob ser). Qed.
End Props.
Print Assumptions C105_calls.
Print Assumptions C105_topics.
Print Assumptions C105_rejected.
Print Assumptions C105_cloud.
Print Assumptions C105_window.
Print Assumptions C105_map.
Print Assumptions C105_stamp.
Print Assumptions C106_correction.
Print Assumptions C106_odometry_partial.
Print Assumptions C107_covariance_refuted.
Print Assumptions C108_window_messages_partial.

(** A robot that moved 2 m: obstacles at (3, 1) and (5, 1) in win_pcl are at (1, 1) and
    (3, 1) in win_ndt, although both messages are said to be in the frame of the map. *)
Theorem C108_window_messages_refuted : exists t h r m o ts n w l, zrun ((m, o) :: t) h r /\
  In (RWin (ts, n, w)) o /\ In (RWinPcl l) o /\
  map red l = [(3, 1); (5, 1)]%Q /\ map red (map nc_mean (filter nc_gauss (gm_cells w))) = [(1, 1); (3, 1)]%Q.
Proof.
  destruct zrun_ok as (r & R & _). destruct zout_shown as (_ & A & B).
  exists (tl ztrace), zcalls, r, (zmsg 2 12), zout, 2%Q, 1, zgmsg, zwcloud.
  split; [exact R|]. split; [right; left; reflexivity|]. split; [do 3 right; left; reflexivity|]. auto.
Qed.
Print Assumptions C108_window_messages_refuted.

(** The message of a cell gives exactly the distribution of the cell, and tells whether
    there is one: at least six points and a positive occupancy. *)
Theorem C109_cell_message : forall eig c, eigen_solver eig -> reach eig properBeam c ->
  read_mean (cellMsg c) = c_mean c /\ read_cov (cellMsg c) = Some (c_cov c) /\ read_gauss (cellMsg c) = c_gauss c.
Proof. intros eig c E R. exact (message_faithful eig E c R). Qed.
Print Assumptions C109_cell_message.

(** With beams of length zero it does not tell: the occupancy is not a number although the
    cell has its distribution. *)
Theorem C109_nan_refuted : forall eig, eigen_solver eig ->
  exists c, reach eig (fun _ _ => True) c /\ c_gauss c = true /\ read_gauss (cellMsg c) = false.
Proof. exact message_nan. Qed.
Print Assumptions C109_nan_refuted.
Example C109_case : forall eig p, eigen_solver eig -> reach eig properBeam (many eig p 6) /\
  read_mean (cellMsg (many eig p 6)) = p /\ read_gauss (cellMsg (many eig p 6)) = true /\ read_gauss (cellMsg cell_new) = false.
Proof. intros eig p E. exact (message_case eig E p). Qed.

(** Cases: a robot that receives a scan, a too short one and another scan 2 m on. *)
Example C105_case : exists r, zrun ztrace zcalls r /\ r_tf r = Some (tfTrans (at_ 12) (at_ 2)) /\
  getPoseLocation (a_slam (y_alg (r_sys r))) 0 = Ok (at_ 0).
Proof. exact zrun_ok. Qed.
Example C105_shown : map red (getPclMap zm1) = [(3, 1)]%Q /\ map red zwcloud = [(3, 1); (5, 1)]%Q /\ zdbl 0 = 0%Q /\
  (forall p, zmove t2id p = p).
Proof.
  destruct zout_shown as (A & B & _). split; [exact A|]. split; [exact B|]. split; [exact (zdbl_int 0)|exact zmove_id].
Qed.
(** a robot whose matcher finds nothing *)
Example C106_case : exists o r, zrun [(zmsg 2 11, o); (zmsg 1 10, [RTf 1 None])] zlcalls r /\
  hd_error o = Some (RTf 2 (Some (tfTrans (at_ 11) (at_ 1)))) /\
  no_loop (events zlcalls) /\ Forall (fun e => i_match (v_in e) = None /\ AlgSpec.moved (i_motion (v_in e))) (removelast zlcalls).
Proof. exact zlost_ok. Qed.
