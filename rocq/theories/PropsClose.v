(** C110-C111: closed loops of the whole system, with the real scan matcher behind the
    loop detector (property statements; proofs in LoopEdges.v, CloseProofs.v, a run that
    closes a loop in CloseCases.v).

    [yreach h y]: after the calls [h] (newest first) the system is in state [y].
    [scans_of h k]: the scans that belong to node [k].  [fill first l]: the frame made of
    the scans [l] alone. *)
From Coq Require Import Reals Qreals List ZArith QArith Bool Lra Lia Arith.
From Verif Require Import Base LinAlg3 GeoModel GeoSpec OptModel RegModel RegSpec CorrModel CorrSpec MatchModel MatchSpec MatchProofs.
From Verif Require Import GraphModel LoopModel SlamModel AlgModel AlgSpec AlgProofs AlgCases.
From Verif Require Import VoxelModel GridModel ScanInit MapModel SysModel SysSpec SysCases.
From Verif Require Import CloseModel CloseSpec CloseProofs CloseCases.
Import ListNotations.
Open Scope nat_scope.

Section Props.
Context {X : Type}.
Notation cell := (ncell X).
Notation frame := (frame (res (ngrid X))).
Variable d2d : frame -> frame -> T2 -> bool * T2.
Variable corr : R -> list P2 -> list P2 -> T2 -> res (bool * T2).
Variable limit dmin dmax : R.
Variable over : option bool.
Variable merge : cell -> cell -> cell.
Variable dflt : cell.
Variable addPt : cell -> point -> cell.
Variable compute : cell -> cell.
Variable tcell : qtrans T2 -> cell -> cell.
Variable occRay : cell -> point -> cell -> cell.
Variable rawOcc : cell -> Q.
Variable btw : qpose -> qpose -> qtrans T2.
Variable tp : qtrans T2 -> point -> point.
Variable noLin : T2.
Variable moveOrigin : qpose -> qtrans T2 -> qpose.
Variable moveScan : T2 -> point -> point.
Variable dbl : R -> Q.
Variable radius : Q.
Variable se2' : pose -> pose.
Variable odo : M3.
Variable dist : R.
Notation env := (sysEnv merge dflt addPt compute tcell occRay btw tp noLin moveOrigin moveScan dbl radius
                   (detector d2d corr limit dmin dmax over) se2' odo dist).
Notation yreach := (yreach merge dflt tcell occRay rawOcc btw tp dbl env).
Notation fill := (fill merge dflt addPt compute tcell occRay btw tp moveScan dbl).

(** Whatever the history, a loop closing edge joins a node to an older one, and it was
    measured: the scan matcher accepted frames made of exactly the scans of the two nodes,
    at a time when the nodes were closer than the configured distance, and the edge carries
    the transform it found from the older frame into the newer one. *)
Theorem C110_measured : forall h y k e, yreach h y ->
  getEdge (s_graph (a_slam (y_alg y))) k = Ok e -> e_loop e = true ->
  e_to e < e_from e < length (born h) /\
  exists (fs ft : frame) s r,
    f_body fs = fill (e_to e =? 0) (scans_of h (e_to e)) /\
    f_body ft = fill (e_from e =? 0) (scans_of h (e_from e)) /\
    (sqrt ((px (f_origin ft) - px (f_origin fs)) ^ 2 + (py (f_origin ft) - py (f_origin fs)) ^ 2) < dmax)%R /\
    matchFrames cloudOf sizeOf d2d corr (setScoreThreshold newMatcher limit) fs ft
      (getTransFromPose (mkP 0 0 (pth (f_origin fs) - pth (f_origin ft)))) = Ok (s, r) /\
    mr_success r = true /\ e_trans e = getPoseFromTransform (mr_transform r).
Proof.
  intros h y k e R G L.
  destruct (loop_edges d2d corr limit dmin dmax over merge dflt addPt compute tcell occRay rawOcc btw tp noLin moveOrigin
              moveScan dbl radius se2' odo dist h y k e R G L) as (A & fs & ft & s & r & B1 & B2 & B3 & B4 & B5 & B6).
  split; [exact A|]. exists fs, ft, s, r. rewrite start_guess in B4. repeat split; assumption.
Qed.

(** Placed by the transform of the edge, enough points of the older frame have a point of
    the newer frame close by: counted against the points of the newer frame, at
    least the share asked for, or six tenths if more was asked for.  This holds for any registration that
    returns rigid transforms and fails on empty frames; PropsReal.v states it for the
    registration of the program. *)
Theorem C110_overlap_any : forall h y k e fs ft,
  empty_fails (@cloudOf X) d2d -> (forall a b g, rigid (snd (d2d a b g))) ->
  yreach h y -> getEdge (s_graph (a_slam (y_alg y))) k = Ok e -> e_loop e = true ->
  getPoseData (a_slam (y_alg y)) (e_to e) = Ok fs -> getPoseData (a_slam (y_alg y)) (e_from e) = Ok ft ->
  cloudOf fs <> [] /\ cloudOf ft <> [] /\
  overlap (1 / 2) (Rmin (asked (F := frame) [Threshold limit]) (6 / 10) * INR (length (cloudOf ft)))
    (map (t2apply (getTransFromPose (e_trans e))) (cloudOf fs)) (cloudOf ft).
Proof.
  exact (loop_overlap d2d corr limit dmin dmax over merge dflt addPt compute tcell occRay rawOcc btw tp noLin moveOrigin
           moveScan dbl radius se2' odo dist).
Qed.

(** When the poses of the two nodes satisfy the edge, as the optimiser wants them to, the
    two frames show the same place: in the world that share of points has a counterpart
    less than 71 cm away.  For any registration, as above. *)
Theorem C110_world_any : forall h y k e fs ft ps pt,
  empty_fails (@cloudOf X) d2d -> (forall a b g, rigid (snd (d2d a b g))) ->
  yreach h y -> getEdge (s_graph (a_slam (y_alg y))) k = Ok e -> e_loop e = true ->
  getPoseData (a_slam (y_alg y)) (e_to e) = Ok fs -> getPoseData (a_slam (y_alg y)) (e_from e) = Ok ft ->
  getTransFromPose ps = t2mul (getTransFromPose pt) (getTransFromPose (e_trans e)) ->
  shared (71 / 100) (Rmin (asked (F := frame) [Threshold limit]) (6 / 10) * INR (length (cloudOf ft)))
    (map (t2apply (getTransFromPose ps)) (cloudOf fs)) (map (t2apply (getTransFromPose pt)) (cloudOf ft)).
Proof.
  exact (loop_world d2d corr limit dmin dmax over merge dflt addPt compute tcell occRay rawOcc btw tp noLin moveOrigin
           moveScan dbl radius se2' odo dist).
Qed.

(** What the matcher behind the detector was used for before, and how, changes neither its
    verdict on two frames nor the transform: only the threshold asked for counts. *)
Theorem C110_history : forall ops s a b g, empty_fails (@cloudOf X) d2d ->
  foldM (MatchModel.mstep cloudOf sizeOf d2d corr) ops newMatcher = Ok s ->
  asked ops = asked (F := frame) [Threshold limit] ->
  loopMatch d2d corr s a b g = loopMatch d2d corr (setScoreThreshold newMatcher limit) a b g.
Proof. exact (fun ops s a b g => match_pure d2d corr limit ops s a b g). Qed.
End Props.

(** The match of a candidate starts from the difference of the headings alone: the
    distance between the two estimates does not enter. *)
Theorem C111_guess : forall p q x y x' y',
  startGuess p q = getTransFromPose (mkP 0 0 (pth q - pth p)) /\
  startGuess (mkP x y (pth p)) (mkP x' y' (pth q)) = startGuess p q.
Proof. intros. rewrite !start_guess. split; reflexivity. Qed.
(** The length of an edge on the way back is the length of the way there, wherever it points. *)
Theorem C111_length : forall p t, edgeLen p = sqrt (px p ^ 2 + py p ^ 2) /\
  edgeLen (mkP (px p) (py p) t) = edgeLen p /\
  edgeLen (getPoseFromTransform (t2inv (getTransFromPose p))) = edgeLen p.
Proof.
  intros p t. rewrite !edge_len. split; [reflexivity|]. split; [reflexivity|].
  rewrite <- (edge_len p). reflexivity.
Qed.

(** Two nodes whose frames show the same three obstacles: the second closes a loop. *)
Example C110_case : exists y, kreach kh y /\
  empty_fails (@cloudOf (list point)) kd2d /\ (forall a b g, rigid (snd (kd2d a b g))) /\
  getPoseData (a_slam (y_alg y)) 0 = Ok (mkFrame (at_ 0) (Ok kb0)) /\
  getPoseData (a_slam (y_alg y)) 1 = Ok (mkFrame (at_ 0) (Ok kb1)) /\
  cloudOf (mkFrame (at_ 0) (Ok kb1)) = [(4, 2); (2, 1); (3, 1)]%R /\
  getPoseLocation (a_slam (y_alg y)) 0 = Ok (at_ 0) /\ getPoseLocation (a_slam (y_alg y)) 1 = Ok (at_ 0) /\
  getTransFromPose (at_ 0) = t2mul (getTransFromPose (at_ 0)) (getTransFromPose (at_ 0)) /\
  exists e, getEdge (s_graph (a_slam (y_alg y))) 1 = Ok e /\ e_from e = 1 /\ e_to e = 0 /\
    e_trans e = at_ 0 /\ e_loop e = true.
Proof.
  destruct kreach_h as (y & R & _ & D0 & D1 & L0 & L1 & E). exists y. split; [exact R|]. split; [exact kd2d_empty|].
  split; [exact kd2d_rigid|]. split; [exact D0|]. split; [exact D1|].
  split; [exact (proj1 (kcloud _ _ (or_intror eq_refl)))|]. split; [exact L0|]. split; [exact L1|]. split; [|exact E].
  rewrite !along_pose, along_mul. f_equal. ring.
Qed.
(** The match behind it, after the matcher compared other frames. *)
Example C110_history_case : forall o, exists s,
  foldM (MatchModel.mstep cloudOf sizeOf kd2d kcorr)
    [Threshold (2 / 10); Threshold (6 / 10); Match (mkFrame o (Ok kb0)) (mkFrame o (Ok kb1)) t2id] newMatcher = Ok s /\
  asked [Threshold (2 / 10); Threshold (6 / 10); Match (mkFrame o (Ok kb0)) (mkFrame o (Ok kb1)) t2id] =
  asked (F := AlgModel.frame (res zgrid)) [Threshold (6 / 10)].
Proof.
  intro o. destruct (kmatch o o t2id) as (s & M). unfold matcherWith in M. exists s. split.
  - cbn [foldM MatchModel.mstep bind].
    replace (setScoreThreshold (setScoreThreshold newMatcher (2 / 10)) (6 / 10))
      with (setScoreThreshold (@newMatcher (AlgModel.frame (res zgrid))) (6 / 10)).
    + rewrite M. reflexivity.
    + unfold setScoreThreshold, setRejectionLimit, newMatcher.
      cbn [ms_limit ms_src ms_tgt ms_in ms_target ms_cell ms_conv ms_final ms_quality].
      destruct (Rlt_dec 0 (6 / 10)); [|exfalso; lra]. destruct (Rlt_dec (6 / 10) 1); [|exfalso; lra].
      destruct (Rlt_dec 0 (2 / 10)); [|exfalso; lra]. destruct (Rlt_dec (2 / 10) 1); [|exfalso; lra]. reflexivity.
  - unfold asked. cbn [fold_left].
    destruct (Rlt_dec 0 (6 / 10)); [|exfalso; lra]. destruct (Rlt_dec (6 / 10) 1); [|exfalso; lra]. reflexivity.
Qed.
(** A candidate ten metres ahead and turned a little, an edge of five metres. *)
Example C111_case : startGuess (mkP 0 0 0) (mkP 10 0 (1 / 10)) = getTransFromPose (mkP 0 0 (1 / 10)) /\
  edgeLen (mkP 3 4 1) = 5%R.
Proof.
  split.
  - rewrite (proj1 (C111_guess (mkP 0 0 0) (mkP 10 0 (1 / 10)) 0 0 0 0)). cbn [pth]. do 2 f_equal. lra.
  - rewrite (proj1 (C111_length (mkP 3 4 1) 0)). cbn [px py].
    replace (3 ^ 2 + 4 ^ 2)%R with (Rsqr 5) by (unfold Rsqr; lra). apply sqrt_Rsqr. lra.
Qed.
Print Assumptions C110_measured.
Print Assumptions C110_overlap_any.
Print Assumptions C110_world_any.
Print Assumptions C110_history.
Print Assumptions C111_guess.
Print Assumptions C111_length.
