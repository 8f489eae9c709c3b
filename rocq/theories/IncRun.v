(** The pose of the robot from message to message. *)
From Coq Require Import Reals Qreals Lra List ZArith QArith Bool Lia Arith.
From Verif Require Import Base LinAlg3 GeoModel GeoSpec GeoProofs OptModel RegModel.
From Verif Require Import GraphModel LoopModel SlamModel AlgModel AlgSpec AlgProofs NodeModel NodeSpec NodeProofs VoxelModel GridModel MapModel SysModel SysSpec SysProofs SysWindow SysFacts.
From Verif Require Import RealModel RealSpec RealProofs IncModel IncProofs RunModel RunSpec RunProofs.
Import ListNotations.
Open Scope R_scope.
Set Default Proof Using "Type".

Lemma graph_has {B W S G D} (e : aenv B W S G D) a i inc cov a' evs : updateGraph e a i inc cov = Ok (a', evs) ->
  In (AInc inc) evs /\ forall k p, ~ In (ARep k p) evs.
Proof.
  unfold updateGraph. destruct (leftWindow _ _).
  - intro H. apply bind_ok_inv in H. destruct H as ([a1 ev1] & NN & H). injection H as _ <-. cbn [snd]. split; [now left|].
    intros k p I. destruct I as [I|I]; [discriminate|]. unfold newNode in NN. destruct (addPose _ _ _ _) as [s1 id].
    apply bind_ok_inv in NN. destruct NN as (s2 & _ & NN). apply bind_ok_inv in NN. destruct NN as ([s3 cl] & _ & NN).
    apply bind_ok_inv in NN. destruct NN as (s4 & _ & NN). apply bind_ok_inv in NN. destruct NN as (q & _ & NN).
    injection NN as _ <-. repeat (apply in_app_or in I; destruct I as [I|I]); destruct cl; cbn in I; intuition congruence.
  - intro H. injection H as _ <-. split; [now left|]. intros k p I. cbn in I. intuition congruence.
Qed.
Lemma match_has {B W S G D} (e : aenv B W S G D) a i a' evs log w reg p : AI e a log -> update e a i = Ok (a', evs) ->
  In (ARep (KMatch w reg) p) evs ->
  In (AInc (t2mul (t2inv (last_match log)) (getTransFromPose (getPoseFromTransform (t2mul (getTransFromPose w) reg))))) evs.
Proof.
  intros A U I. unfold update in U. rewrite <- (ai_match _ _ _ A).
  destruct (a_init a); [|injection U as _ <-; cbn in I; intuition discriminate].
  destruct (a_win a) as [w0|]; [|discriminate].
  destruct (movedEnough _); [|injection U as _ <-; cbn in I; intuition discriminate].
  destruct (i_match i) as [reg0|].
  - apply bind_ok_inv in U. destruct U as ([a1 ev1] & UG & U). cbn [fst snd] in U. destruct (graph_has _ _ _ _ _ _ _ UG) as [GH N].
    destruct (w_move e (w_merge e w0 (i_scan i) reg0) reg0) as [w2 c]. injection U as _ <-.
    apply in_app_or in I. destruct I as [I|[I|[]]]; [destruct (N _ _ I)|]. injection I as <- <- _. apply in_or_app. left. exact GH.
  - apply bind_ok_inv in U. destruct U as ([a1 ev1] & UG & U). cbn [fst snd] in U. destruct (graph_has _ _ _ _ _ _ _ UG) as [GH N].
    injection U as _ <-. apply in_app_or in I. destruct I as [I|[I|[]]]; [destruct (N _ _ I)|discriminate].
Qed.

Section System.
Context {X Guess D : Type}.
Notation cell := (ncell X).
Notation grid := (ngrid X).
Notation body := (res grid).
Notation msg := (nmsg (option point)).
Variable icovOf : cell -> M3.
Variable search : list point -> P2 -> nat -> list nat.
Variable solve : M3 -> V3 -> option V3.
Variable merge : cell -> cell -> cell.
Variable dflt : cell.
Variable addPt : cell -> point -> cell.
Variable compute : cell -> cell.
Variable tcell : qt -> cell -> cell.
Variable occRay : cell -> point -> cell -> cell.
Variable rawOcc : cell -> Q.
Variable btw : qpose -> qpose -> qt.
Variable tp : qt -> point -> point.
Variable noLin : T2.
Variable moveOrigin : qpose -> qt -> qpose.
Variable moveScan : T2 -> point -> point.
Variable dbl : R -> Q.
Variable radius : Q.
Variable le : lenv pose (frame body) M3 Guess D.
Variable se2' : pose -> pose.
Variable odo : M3.
Variable dist : R.
Variable oob : option bool.
Variable ser : bool.
Notation env := (sysEnv merge dflt addPt compute tcell occRay btw tp noLin moveOrigin moveScan dbl radius le se2' odo dist).
Notation yreach := (yreach merge dflt tcell occRay rawOcc btw tp dbl env).
Notation rreach := (rreach merge dflt tcell occRay rawOcc btw tp dbl oob ser env).
Notation followed := (followed icovOf search solve merge dflt addPt compute tcell occRay rawOcc btw tp dbl env).

Lemma yreach_inv e h y : yreach (e :: h) y -> exists y0, yreach h y0 /\
  update env (y_alg y0) (v_in e) = Ok (y_alg y, v_evs e).
Proof.
  intro H. inversion H as [|h0 y0 e0 y1 R S]; subst. exists y0. split; [exact R|]. destruct S. exact H0.
Qed.
Lemma reach_AI h y : yreach h y -> AI env (y_alg y) (events h).
Proof. apply yreach_AI. Qed.
Lemma reach_AR h y : yreach h y -> Forall (fun e => rigid (i_motion (v_in e))) h -> AR (y_alg y) (events h).
Proof.
  intros R F. pose proof (yreach_run merge dflt addPt compute tcell occRay rawOcc btw tp noLin moveOrigin moveScan dbl radius le se2' odo dist _ _ R) as U.
  refine (proj1 (arun_rigid _ _ _ _ _ U)). unfold rigid_inputs. apply Forall_rev, Forall_map. exact F.
Qed.
(** skipped calls leave the position *)
Lemma skips_pos sk : forall h y, yreach (sk ++ h) y -> Forall skipped sk ->
  exists y0, yreach h y0 /\ a_pos (y_alg y) = a_pos (y_alg y0).
Proof.
  induction sk as [|e sk IH]; intros h y R F; [exists y; auto|]. inversion F as [|? ? [p S] F']; subst.
  destruct (yreach_inv _ _ _ R) as (y1 & R1 & U). destruct (IH _ _ R1 F') as (y0 & R0 & E). exists y0. split; [exact R0|].
  destruct (update_ok _ _ _ _ _ _ (reach_AI _ _ R1) U) as (_ & k & r & RE & _ & _ & _ & _ & K & _).
  rewrite RE in S. injection S as -> _. destruct K as (_ & K & _). congruence.
Qed.

(** The pose reported by a call against the one reported by the newest call before that
    was not skipped. *)
Theorem inc_pose e2 sk e1 h y k1 p1 k2 p2 : followed (e2 :: sk ++ e1 :: h) y ->
  Forall (fun e => rigid (i_motion (v_in e))) (e2 :: sk ++ e1 :: h) -> sharp dbl (e2 :: sk ++ e1 :: h) ->
  last_report (events (e1 :: h)) = Some (k1, p1) -> k1 <> KSkip -> Forall skipped sk ->
  last_report (events (e2 :: sk ++ e1 :: h)) = Some (k2, p2) -> no_loop (v_evs e2) ->
  differs (4 / 10) (i_motion (v_in e2)) (t2mul (t2inv (getTransFromPose p1)) (getTransFromPose p2)).
Proof using All.
  intros F RM SH L1 K1 SK L2 NL.
  pose proof (followed_reach _ _ _ _ _ _ _ _ _ _ _ _ _ _ _ _ _ _ _ _ _ _ _ F) as R.
  assert (NEAR := fun inc => inc_near _ _ _ _ _ _ _ _ _ _ _ _ _ _ _ _ _ _ _ _ _ _ _ F
    (proj1 (Forall_forall _ _) RM) SH e2 inc (or_introl eq_refl)).
  destruct (yreach_inv _ _ _ R) as (ya & Ra & U). inversion RM as [|? ? RM2 RMt]; subst.
  destruct (skips_pos _ _ _ Ra SK) as (y1 & R1 & P1).
  assert (RM1 : Forall (fun e => rigid (i_motion (v_in e))) (e1 :: h)) by (apply Forall_app in RMt; apply RMt).
  pose proof (reach_AR _ _ R1 RM1) as AR1. pose proof (reach_AR _ _ Ra RMt) as ARa.
  (* the pose before *)
  assert (Q1 : getTransFromPose p1 = a_pos (y_alg ya)).
  { destruct (yreach_inv _ _ _ R1) as (y0 & R0 & U1).
    destruct (update_ok _ _ _ _ _ _ (reach_AI _ _ R0) U1) as (_ & k & r & RE & _).
    cbn [events] in L1. rewrite RE in L1. cbn in L1. injection L1 as <- <-. rewrite P1.
    destruct k; try congruence; cbn [reported]; apply trans_of_pose, (ar_pos _ _ AR1). }
  rewrite Q1.
  assert (CANC : forall t, t2mul (t2inv (a_pos (y_alg ya))) (t2mul (a_pos (y_alg ya)) t) = t).
  { intro t. rewrite <- t2mul_assoc, t2inv_l by apply rigid_nz, (ar_pos _ _ ARa). apply t2mul_id_l. }
  (* the pose after *)
  pose proof (reach_AI _ _ Ra) as AIa.
  destruct (update_ok _ _ _ _ _ _ AIa U) as (_ & k & r & RE & NR & KF & KS & LM & K & KR).
  cbn [events] in L2. rewrite RE in L2. cbn in L2. injection L2 as <- <-.
  destruct (KR ARa RM2) as (AR2 & _ & KP). clear KR.
  assert (NLr : no_loop r).
  { intros b I. apply NL. apply in_rev. rewrite RE. now right. }
  destruct k as [| |w reg|]; cbn [reported].
  - exfalso. destruct KF as [KF _]. specialize (KF eq_refl). destruct (ai_fresh _ _ _ AIa KF) as [E _].
    assert (NE : events (e1 :: h) <> []) by (intro Z; rewrite Z in L1; discriminate).
    clear - E NE. induction sk as [|e sk IH]; [exact (NE E)|]. cbn [app events] in E. apply app_eq_nil in E. apply IH, E.
  - rewrite trans_of_pose by (apply rigid_mul; [apply (ar_pos _ _ ARa)|exact RM2]). rewrite CANC. apply differs_refl; [exact RM2|lra].
  - rewrite trans_of_pose by apply (ar_pos _ _ AR2). rewrite (KP NLr), CANC.
    apply NEAR. refine (match_has _ _ _ _ _ _ _ _ (reported (y_alg ya) (y_alg y) (v_in e2) (KMatch w reg)) AIa U _). apply in_rev. rewrite RE. now left.
  - rewrite trans_of_pose by apply (ar_pos _ _ AR2). rewrite (KP NLr), CANC. apply differs_refl; [exact RM2|lra].
Qed.

(** ** the program *)
Lemma reach_rejected mid : forall t h r, rreach (mid ++ t) h r -> Forall (fun mo => accepted (fst mo) = None) mid -> rreach t h r.
Proof.
  induction mid as [|[m o] mid IH]; intros t h r R F; [exact R|]. inversion F as [|? ? A F']; subst. cbn [fst] in A.
  apply IH; [|exact F']. cbn [app] in R. destruct (out_cases _ _ _ _ _ _ _ _ _ _ _ _ _ _ _ _ _ _ _ _ _ _ _ _ _ R) as [(_ & _ & R')|[(od & A' & _)|(od & p & out & A' & _)]];
    [exact R'|congruence|congruence].
Qed.
Lemma reach_accepted t h r m o odom : rreach ((m, o) :: t) h r -> accepted m = Some odom ->
  exists e h' r', h = e :: h' /\ rreach t h' r'.
Proof.
  intros R A. inversion R as [|t' h0 r0 m' r' o' c R0 S]; subst. pose proof (prepare_accepted m) as PA. rewrite A in PA.
  destruct S as [P|od pts i evs y' P RD M SC Y'|od pts i evs y' p out P RD M SC Y' RT TP].
  - rewrite P in PA. discriminate.
  - exists (mkYE i (inject_Z (ms_time m)) evs), h0, r0. split; [reflexivity|exact R0].
  - exists (mkYE i (inject_Z (ms_time m)) evs), h0, r0. split; [reflexivity|exact R0].
Qed.
Theorem inc_run m2 o2 mid m1 o1 t h r odom1 odom2 : rreach ((m2, o2) :: mid ++ (m1, o1) :: t) h r ->
  accepted m1 = Some odom1 -> accepted m2 = Some odom2 -> Forall (fun mo => accepted (fst mo) = None) mid -> took t <> [] ->
  followed h (r_sys r) -> sharp dbl h ->
  (forall e, hd_error h = Some e -> no_loop (v_evs e)) -> (forall e, hd_error (tl h) = Some e -> ~ skipped e) ->
  exists F1 F2 p1 p2, hd_error o1 = Some (RTf (ms_time m1) (Some F1)) /\ hd_error o2 = Some (RTf (ms_time m2) (Some F2)) /\
    tf_mul F1 (eigenPoseToTF odom1) = eigenPoseToTF p1 /\ tf_mul F2 (eigenPoseToTF odom2) = eigenPoseToTF p2 /\
    differs (4 / 10) (t2mul (t2inv (getTransFromPose odom1)) (getTransFromPose odom2))
                     (t2mul (t2inv (getTransFromPose p1)) (getTransFromPose p2)).
Proof using All.
  intros R A1 A2 FM NE F SH NL NS.
  destruct (reach_accepted _ _ _ _ _ _ R A2) as (e2 & h' & r' & -> & R').
  pose proof (reach_rejected _ _ _ _ R' FM) as R1.
  destruct (reach_accepted _ _ _ _ _ _ R1 A1) as (e1 & h1 & r1 & -> & _).
  assert (TK : forall s, took (mid ++ s) = took s).
  { intro s. unfold took. clear - FM. induction FM as [|[m o] l A FM IH]; [reflexivity|]. cbn [app map fst taken] in *. rewrite A. exact IH. }
  assert (NE2 : took (mid ++ (m1, o1) :: t) <> []).
  { rewrite TK. unfold took in *. cbn [map fst taken]. destruct (accepted m1), (ms_scan m1); try exact NE; discriminate. }
  destruct (run_pose _ _ _ _ _ _ _ _ _ _ _ _ _ _ _ _ _ _ _ _ _ _ _ _ _ _ R1 A1 NE) as (F1 & p1 & k1 & H1 & TF1 & L1).
  destruct (run_pose _ _ _ _ _ _ _ _ _ _ _ _ _ _ _ _ _ _ _ _ _ _ _ _ _ _ R A2 NE2) as (F2 & p2 & k2 & H2 & TF2 & L2).
  exists F1, F2, p1, p2. repeat (split; [assumption|]).
  destruct (run_calls _ _ _ _ _ _ _ _ _ _ _ _ _ _ _ _ _ _ _ _ _ _ _ R) as [_ TO].
  pose proof (told_rigid _ _ TO) as RG.
  assert (MO : i_motion (v_in e2) = t2mul (t2inv (getTransFromPose odom1)) (getTransFromPose odom2)).
  { unfold took in TO, TK. cbn [map fst] in TO. rewrite taken_cons in TO. pose proof (prepare_accepted m2) as PA. rewrite A2 in PA.
    destruct (prepareAllData m2) as [[od s]|]; [|discriminate]. cbn in PA. injection PA as ->. rewrite TK in TO.
    cbn [map fst] in TO. rewrite taken_cons in TO. pose proof (prepare_accepted m1) as PB. rewrite A1 in PB.
    destruct (prepareAllData m1) as [[od1 s1]|]; [|discriminate]. cbn in PB. injection PB as ->. cbn [told] in TO.
    destruct TO as (_ & _ & M & _). rewrite <- M, <- t2mul_assoc, t2inv_l by apply rigid_nz, rigid_pose. symmetry. apply t2mul_id_l. }
  rewrite <- MO. apply (inc_pose e2 [] e1 h1 (r_sys r) k1 p1 k2 p2); auto.
  - intros ->. apply (NS e1 eq_refl). exists p1. cbn [events] in L1.
    destruct (run_calls _ _ _ _ _ _ _ _ _ _ _ _ _ _ _ _ _ _ _ _ _ _ _ R1) as [Y1 _].
    destruct (yreach_inv _ _ _ Y1) as (y0 & R0 & U1). destruct (update_ok _ _ _ _ _ _ (reach_AI _ _ R0) U1) as (_ & k & rr & RE & _).
    rewrite RE in *. exact L1.
Qed.
End System.
