(** Consequences of SysProofs, SysCloud and SysWindow in the form of the properties. *)
From Coq Require Import Reals Qreals List ZArith QArith Bool Lia Arith.
From Verif Require Import Base LinAlg3 GeoModel GeoSpec GeoProofs.
From Verif Require Import GraphModel GraphSpec GraphProofs LoopModel SlamModel SlamSpec SlamProofs AlgModel AlgSpec AlgProofs.
From Verif Require Import VoxelModel VoxelSpec GridModel GridSpec ScanSpec ScanProofs MapModel MapSpec MapDraw.
From Verif Require Import SysModel SysSpec SysProofs SysMap SysCloud SysWindow.
Import ListNotations.
Open Scope nat_scope.
Set Default Proof Using "Type".

Lemma strokes_grow {D} (h' h : list (yev D)) k : k < length (strokes h) - 1 ->
  scans_of (h' ++ h) k = scans_of h k /\ k < length (strokes (h' ++ h)) - 1.
Proof.
  intro K. induction h' as [|e r [IH L]]; [split; [reflexivity|exact K]|].
  cbn [app]. rewrite <- IH. unfold scans_of. cbn [strokes].
  destruct (strokes (r ++ h)) as [|f t] eqn:E; [cbn in L; lia|].
  destruct (made (v_evs e)); cbn [rev length] in *.
  - split; [|lia]. rewrite !app_nth1 by (rewrite rev_length; lia). reflexivity.
  - split; [|lia]. rewrite app_nth1 by (rewrite app_length, rev_length; cbn; lia). reflexivity.
Qed.

Section Sys.
Context {X Guess D : Type}.
Notation body := (res (ngrid X)).
Notation cell := (ncell X).
Notation qt := (qtrans T2).
Variable merge : cell -> cell -> cell.
Variable dflt : cell.
Variable addPt : cell -> point -> cell.
Variable compute : cell -> cell.
Variable tcell : qt -> cell -> cell.
Variable occRay : cell -> point -> cell -> cell.
Variable rawOcc : cell -> Q.
Variable btw : qpose -> qpose -> qt.
Variable tp : qt -> point -> point.
Variable noLin : T2.
Variable moveOrigin : qpose -> qt -> qpose.
Variable moveScan : T2 -> point -> point.
Variable dbl : R -> Q.
Variable radius : Q.
Variable le : lenv pose (frame body) M3 Guess D.
Variable se2' : pose -> pose.
Variable odo : M3.
Variable dist : R.
Notation env := (sysEnv merge dflt addPt compute tcell occRay btw tp noLin moveOrigin moveScan dbl radius le se2' odo dist).
Notation yreach := (yreach merge dflt tcell occRay rawOcc btw tp dbl env).
Notation fill := (fill merge dflt addPt compute tcell occRay btw tp moveScan dbl).

Lemma data_objs (a : alg body body) k :
  getPoseData (a_slam a) k = match nth_error (objs a) k with Some f => Ok f | None => Throw end.
Proof.
  unfold getPoseData. rewrite getNode_nth. unfold objs, nodes. rewrite nth_error_map.
  destruct (nth_error (g_nodes (s_graph (a_slam a))) k); reflexivity.
Qed.

Lemma frames_filled h y : yreach h y ->
  (forall k, getPoseData (a_slam (y_alg y)) k <> Throw <-> k < length (born h)) /\
  (forall k f, getPoseData (a_slam (y_alg y)) k = Ok f -> f_body f = fill (k =? 0) (scans_of h k)) /\
  (h <> [] -> length (strokes h) = S (length (born h)) /\
              f_body (a_frame (y_alg y)) = fill (length (born h) =? 0) (scans_of h (length (born h)))).
Proof.
  intro R. pose proof (FI_reach _ _ _ _ _ _ _ _ _ _ _ _ _ _ _ _ _ _ h y R) as [N L Z DN CU].
  destruct (born_length _ _ _ _ _ _ _ _ _ _ _ _ _ _ _ _ _ _ h y R) as [BL _].
  split; [|split].
  - intro k. rewrite data_objs, BL. destruct (nth_error (objs (y_alg y)) k) as [f|] eqn:E.
    + split; [intros _|discriminate]. apply nth_error_Some. rewrite E. discriminate.
    + split; [congruence|]. apply nth_error_None in E. lia.
  - intros k f E. rewrite data_objs in E. destruct (nth_error (objs (y_alg y)) k) as [f'|] eqn:E'; [|discriminate].
    injection E as <-. apply DN. exact E'.
  - intro NE. rewrite BL. split; [apply L; exact NE|apply CU; exact NE].
Qed.

Lemma frames_frozen h y h' y' k f : yreach h y -> yreach (h' ++ h) y' ->
  getPoseData (a_slam (y_alg y)) k = Ok f ->
  exists f', getPoseData (a_slam (y_alg y')) k = Ok f' /\ f_body f' = f_body f.
Proof.
  intros R R' E. destruct (frames_filled h y R) as (B & F & C). destruct (frames_filled (h' ++ h) y' R') as (B' & F' & C').
  assert (K : k < length (born h)) by (apply B; rewrite E; discriminate).
  assert (NE : h <> []) by (intros ->; cbn in K; lia). destruct (C NE) as [L _].
  assert (NE' : h' ++ h <> []) by (intro X0; apply app_eq_nil in X0; destruct X0; contradiction). destruct (C' NE') as [L' _].
  destruct (strokes_grow h' h k) as [S K']; [lia|].
  assert (K2 : k < length (born (h' ++ h))) by lia. apply B' in K2.
  destruct (getPoseData (a_slam (y_alg y')) k) as [f'| |] eqn:E'; [|exfalso|congruence].
  - exists f'. split; [reflexivity|]. rewrite (F' _ _ E'), (F _ _ E), S. reflexivity.
  - rewrite data_objs in E'. destruct (nth_error _ _); discriminate.
Qed.

Lemma frames_newest h y k : yreach h y ->
  occ_only occRay -> nc_gauss dflt = false -> (forall p, moveScan t2id p = p) -> dbl 0 = 0%Q ->
  means_average dflt addPt compute -> (forall o, peq (tp (btw o o) (0, 0)%Q) (0, 0)%Q) ->
  Forall (clean dflt addPt compute btw tp moveScan dbl) (scans_of h k) ->
  exists g, fill (k =? 0) (scans_of h k) = Ok g /\
    (forall c m, mean_at g c = Some m ->
       option_map nc_mean (newest_cell dflt addPt compute btw tp moveScan dbl (scans_of h k) c) = Some m) /\
    (forall c x, remains dflt addPt compute btw tp moveScan dbl (scans_of h k) c x -> mean_at g c = Some (nc_mean x)).
Proof.
  intros R OO DG MV Z0 MA SELF CL.
  destruct (fill_clean merge dflt addPt compute tcell occRay btw tp moveScan dbl OO DG MV Z0 MA SELF (k =? 0) (scans_of h k))
    as (g & E & _ & _ & G); [|exact CL|exists g; split; [exact E|exact G]].
  apply (heads _ _ _ _ _ _ _ _ _ _ _ _ _ _ _ _ _ _ h y R).
Qed.

Lemma robot_in_window h y g : yreach h y -> sharp dbl h -> a_win (y_alg y) = Some (Ok g) ->
  p_th (n_pose g) = 0%Q /\
  t2mul (getTransFromPose (poseOf (n_pose g))) (a_cumul (y_alg y)) = last_match (events h) /\
  (Rabs (tx (a_cumul (y_alg y))) < 1 / 4)%R /\ (Rabs (ty (a_cumul (y_alg y))) < 1 / 4)%R.
Proof.
  intros R S E. destruct (WI_reach _ _ _ _ _ _ _ _ _ _ _ _ _ _ _ _ _ _ h y R) as [_ W].
  destruct (W S g E) as (P & _ & M & A & B). auto.
Qed.
Lemma guess_world h y g (i : ainput (option point) D) : yreach h y -> sharp dbl h -> a_win (y_alg y) = Some (Ok g) ->
  t2mul (getTransFromPose (poseOf (n_pose g))) (guessOf (y_alg y) i) = t2mul (last_match (events h)) (i_motion i).
Proof.
  intros R S E. destruct (robot_in_window h y g R S E) as (_ & M & _). unfold guessOf. rewrite <- M.
  apply T2_eq; cbn; ring.
Qed.
Lemma window_msg h y t q m : yreach h y -> getNDTMap dflt btw tp y = Ok (t, q, m) ->
  t = window_time h /\ q = matches (events h).
Proof.
  intros R E. destruct (tick_reach _ _ _ _ _ _ _ _ _ _ _ _ _ _ _ _ _ _ h y R) as [S T].
  unfold getNDTMap in E. destruct (a_win (y_alg y)) as [w|].
  - apply bind_ok_inv in E. destruct E as (g & _ & E). injection E as <- <- _. auto.
  - injection E as <- <- _. auto.
Qed.
End Sys.
