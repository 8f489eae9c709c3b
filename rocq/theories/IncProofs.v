(** The incremental matcher: how often it looks and how far it goes. *)
From Coq Require Import Reals Qreals Lra List ZArith QArith Bool Lia Arith.
From Verif Require Import Base LinAlg3 GeoModel GeoSpec GeoProofs OptModel RegModel RegSpec RegStep RegNewton.
From Verif Require Import GraphModel LoopModel SlamModel AlgModel AlgSpec AlgProofs VoxelModel GridModel MapModel SysModel SysSpec SysProofs SysWindow SysFacts.
From Verif Require Import RealModel RealSpec RealProofs IncModel.
Import ListNotations.
Open Scope R_scope.
Set Default Proof Using "Type".

(** ** the registration alone *)
Section Two.
  Variable solve : M3 -> V3 -> option V3.
  Variables eps step : R.
  Hypothesis E : 0 < eps.
  Hypothesis S : step <= eps / 2.
  Set Default Proof Using "E S".

  Lemma step_small ly xy xy' a : newtonStep solve eps step ly xy = Some (Some (xy', a)) -> Rabs a < eps.
  Proof.
    unfold newtonStep. cbv zeta. destruct (solve _ _) as [d|]; [|discriminate]. destruct (Req_EM_T _ _); [discriminate|].
    destruct (step_length (ly_search ly) xy (vscale (/ vnorm d) d) (vnorm d) step (eps / 2) (ly_score ly xy)) as [S0 S1]; [lra|].
    destruct (Req_dec (vdot (sd_grad (ly_score ly xy)) (vscale (/ vnorm d) d)) 0) as [G|G].
    - rewrite (S0 G). cbn [fst snd]. intro H. injection H as _ <-. rewrite Rabs_R0. exact E.
    - rewrite (S1 G). cbn [fst snd]. intro H. injection H as _ <-.
      rewrite Rmax_right by (apply Rle_trans with step; [apply Rmin_r|exact S]). rewrite Rabs_pos_eq; lra.
  Qed.
  (** two rounds, then the step is small *)
  Lemma two_rounds m fuel ly xy : (0 <= m)%Z ->
    p2dLoop solve eps step m (2 + fuel) ly xy 0 =
    match newtonStep solve eps step ly xy with
    | None => Some (LFail 0)
    | Some None => Some LLost
    | Some (Some (xy', _)) =>
        match newtonStep solve eps step ly xy' with
        | None => Some (LFail 1)
        | Some None => Some LLost
        | Some (Some (xy'', _)) => Some (LOk xy'' 2 (ly_score ly xy'))
        end
    end.
  Proof.
    intro M. cbn [p2dLoop Nat.add]. destruct (newtonStep solve eps step ly xy) as [[[xy' a]|]|]; try reflexivity.
    cbn [Nat.eqb negb andb]. rewrite orb_false_r. destruct (Z.ltb_spec m (Z.of_nat 0)); [lia|].
    destruct (newtonStep solve eps step ly xy') as [[[xy'' b]|]|] eqn:N; try reflexivity.
    apply step_small in N. destruct (Rlt_dec (Rabs b) eps); [|contradiction]. cbn [Nat.eqb negb andb]. rewrite orb_true_r. reflexivity.
  Qed.
  Lemma two_ok m fuel ly xy : (0 <= m)%Z ->
    exists r, p2dLoop solve eps step m (2 + fuel) ly xy 0 = Some r /\ layer_ok solve eps step 2 ly xy r.
  Proof.
    intro M. rewrite (two_rounds m fuel ly xy M).
    assert (LP : 0 < Rmax step (eps / 2)) by (pose proof (Rmax_r step (eps / 2)); lra).
    pose proof (newton_step solve eps step E ly xy) as N1.
    destruct (newtonStep solve eps step ly xy) as [[[xy' a]|]|]; [|contradiction|].
    2:{ eexists. split; [reflexivity|]. cbn. split; [lia|]. exists xy. exact N1. }
    destruct N1 as [D1 X1]. pose proof (newton_step solve eps step E ly xy') as N2.
    destruct (newtonStep solve eps step ly xy') as [[[xy'' b]|]|]; [|contradiction|].
    2:{ eexists. split; [reflexivity|]. cbn. split; [lia|]. exists xy'. exact N2. }
    destruct N2 as [D2 X2]. eexists. split; [reflexivity|]. cbn [layer_ok]. change (INR 2) with (1 + 1). split; [lia|]. split.
    - pose proof (dist3_tri xy'' xy' xy). lra.
    - exists xy'. split; [reflexivity|]. split; [exact X2|]. lra.
  Qed.
End Two.
Set Default Proof Using "Type".

Lemma newton_same solve eps s s' ly xy : 0 < eps -> s <= eps / 2 -> s' <= eps / 2 ->
  newtonStep solve eps s ly xy = newtonStep solve eps s' ly xy.
Proof.
  intros E S S'. unfold newtonStep. cbv zeta. destruct (solve _ _) as [d|]; [|reflexivity]. destruct (Req_EM_T _ _); [reflexivity|].
  set (u := vscale (/ vnorm d) d).
  destruct (step_length (ly_search ly) xy u (vnorm d) s (eps / 2) (ly_score ly xy)) as [A0 A1]; [lra|].
  destruct (step_length (ly_search ly) xy u (vnorm d) s' (eps / 2) (ly_score ly xy)) as [B0 B1]; [lra|].
  destruct (Req_dec (vdot (sd_grad (ly_score ly xy)) u) 0) as [G|G].
  - rewrite (A0 G), (B0 G). reflexivity.
  - rewrite (A1 G), (B1 G). rewrite !(Rmax_right (Rmin _ _)); [reflexivity| |];
      eapply Rle_trans; try apply Rmin_r; assumption.
Qed.
Lemma layers_same loop loop' : (forall ly xy, loop ly xy 0%nat = loop' ly xy 0%nat) ->
  forall ls g s, runLayers loop ls g s = runLayers loop' ls g s.
Proof.
  intros E. induction ls as [|ly ls IH]; intros g s; [reflexivity|]. cbn [runLayers]. rewrite E.
  destruct (loop' ly (matToVec g) 0%nat) as [[]|]; try reflexivity. apply IH.
Qed.
Theorem settings_idle solve eps s s' m m' f f' ready ls g st : 0 < eps -> s <= eps / 2 -> s' <= eps / 2 ->
  (0 <= m)%Z -> (0 <= m')%Z ->
  p2dAlign solve eps s m (2 + f) ready ls g st = p2dAlign solve eps s' m' (2 + f') ready ls g st.
Proof.
  intros E S S' M M'. unfold p2dAlign. destruct ready; [|reflexivity]. apply layers_same. intros ly xy.
  rewrite !two_rounds by assumption. rewrite (newton_same solve eps s s') by assumption.
  destruct (newtonStep solve eps s' ly xy) as [[[xy' a]|]|]; try reflexivity.
  rewrite (newton_same solve eps s s') by assumption. reflexivity.
Qed.
Theorem two_align solve eps s m f ls g st : 0 < eps -> s <= eps / 2 -> (0 <= m)%Z ->
  exists r w, p2dAlign solve eps s m (2 + f) true ls (vecToMat g) st = Some (Some r) /\
    rs_final r = vecToMat w /\ dist3 w g <= INR (length ls) * eps /\
    (rs_conv r = true -> ls <> [] -> rs_iter r = 2%nat).
Proof.
  intros E S M. unfold p2dAlign.
  destruct (run_layers solve eps s E (p2dLoop solve eps s m (2 + f)) 2 (fun ly xy => two_ok solve eps s E S m f ly xy M) ls g
              (mkRS false t2id (rs_iter st) (rs_cov st) (rs_inf st))) as (r & R & (w & F & D) & _).
  exists r, w. split; [exact R|]. split; [exact F|]. split.
  { rewrite Rmax_right in D by exact S. change (INR 2) with (1 + 1) in D. replace (INR (length ls) * eps) with (INR (length ls) * ((1 + 1) * (eps / 2))) by field. exact D. }
  clear F D w. revert R. generalize (vecToMat g). intros t R C.
  assert (K : forall ls t st, runLayers (p2dLoop solve eps s m (2 + f)) ls t st = Some (Some r) ->
     rs_iter r = rs_iter st \/ rs_iter r = 2%nat \/ rs_conv r = false).
  { clear - E S M. induction ls as [|ly ls IH]; intros t st R; cbn [runLayers] in R.
    - injection R as <-. now left.
    - rewrite (two_rounds solve eps s E S m f ly (matToVec t) M) in R.
      destruct (newtonStep solve eps s ly (matToVec t)) as [[[xy' a]|]|]; [|discriminate|injection R as <-; auto].
      destruct (newtonStep solve eps s ly xy') as [[[xy'' b]|]|]; [|discriminate|injection R as <-; auto].
      apply IH in R. cbn [rs_iter] in R. tauto. }
  destruct ls as [|ly ls]; [congruence|]. intros _. cbn [runLayers] in R.
  rewrite (two_rounds solve eps s E S m f ly (matToVec t) M) in R.
  destruct (newtonStep solve eps s ly (matToVec t)) as [[[xy' a]|]|]; [|discriminate|injection R as <-; discriminate].
  destruct (newtonStep solve eps s ly xy') as [[[xy'' b]|]|]; [|discriminate|injection R as <-; discriminate].
  apply K in R. cbn [rs_iter] in R. destruct R as [R|[R|R]]; congruence.
Qed.

(** ** the front end *)
Lemma turned_diff c v w : differs (dist3 w v) (t2mul (t2inv (getTransFromPose c)) (vecToMat v)) (t2mul (t2inv (getTransFromPose c)) (vecToMat w)).
Proof.
  set (si := sin (pth c)). set (co := cos (pth c)).
  assert (Q : si * si + co * co = 1) by (pose proof (sin2_cos2 (pth c)) as H; unfold Rsqr in H; exact H).
  assert (K : forall u, t2mul (t2inv (getTransFromPose c)) (vecToMat u) =
     getTransFromPose (mkP (co * (vx u - px c) + si * (vy u - py c)) (- si * (vx u - px c) + co * (vy u - py c)) (vz u - pth c))).
  { intro u. unfold t2inv. rewrite (rigid_det _ (rigid_pose c)), Rinv_1. unfold vecToMat, getTransFromPose, RegModel.poseOf.
    apply T2_eq; cbn [t2mul ta tb tc td tx ty px py pth vx vy vz]; fold si co; rewrite ?cos_minus, ?sin_minus; fold si co; ring. }
  exists (mkP (co * (vx v - px c) + si * (vy v - py c)) (- si * (vx v - px c) + co * (vy v - py c)) (vz v - pth c)),
         (mkP (co * (vx w - px c) + si * (vy w - py c)) (- si * (vx w - px c) + co * (vy w - py c)) (vz w - pth c)).
  split; [apply K|]. split; [apply K|]. cbn [px py pth]. unfold dist3, vnorm, vdot, vsub. cbn [vx vy vz].
  right. f_equal.
  transitivity ((si * si + co * co) * ((vx w - vx v) * (vx w - vx v) + (vy w - vy v) * (vy w - vy v)) + (vz w - vz v) * (vz w - vz v)); [ring|].
  rewrite Q. ring.
Qed.

Lemma scan_reach {X} merge dflt icovOf search solve left src (win : ngrid X) v :
  exists w, snd (scanP2d merge dflt icovOf search solve left src win (vecToMat v)) = vecToMat w /\ dist3 w v <= 4 / 10.
Proof.
  unfold scanP2d, shown.
  destruct (layersOf _ sizes) as [ls| |] eqn:E; cbn [bind snd];
    try (exists v; split; [reflexivity|rewrite dist3_refl; lra]).
  destruct (two_align solve (1 / 10) (1 / 100) 35 35 ls v fresh ltac:(lra) ltac:(lra) ltac:(lia)) as (r & w & R & F & DD & _).
  change (2 + 35)%nat with 37%nat in R. rewrite R. exists w. split; [exact F|].
  rewrite (layers_len _ _ _ E) in DD. cbn [length sizes] in DD. replace (INR 4) with 4 in DD by (cbn; lra). lra.
Qed.
Lemma differs_refl t r : rigid t -> 0 <= r -> differs r t t.
Proof.
  intros RT RP. exists (getPoseFromTransform t), (getPoseFromTransform t). rewrite (trans_of_pose _ RT). repeat split.
  replace (_ + _) with 0 by ring. rewrite sqrt_0. exact RP.
Qed.

Lemma graph_inc {B W S G D} (e : aenv B W S G D) a i inc cov a' evs t : updateGraph e a i inc cov = Ok (a', evs) -> In (AInc t) evs -> t = inc.
Proof.
  unfold updateGraph. destruct (leftWindow _ _).
  - intros H I. apply bind_ok_inv in H. destruct H as ([a1 ev1] & NN & H). injection H as _ <-. cbn [snd] in I.
    unfold newNode in NN. destruct (addPose _ _ _ _) as [s1 id].
    apply bind_ok_inv in NN. destruct NN as (s2 & _ & NN). apply bind_ok_inv in NN. destruct NN as ([s3 cl] & _ & NN).
    apply bind_ok_inv in NN. destruct NN as (s4 & _ & NN). apply bind_ok_inv in NN. destruct NN as (p & _ & NN).
    injection NN as _ <-. destruct I as [I|I]; [congruence|]. exfalso. cbn [snd fst] in I.
    repeat (apply in_app_or in I; destruct I as [I|I]); destruct cl; cbn in I; intuition congruence.
  - intros H I. injection H as _ <-. cbn in I. intuition congruence.
Qed.
Section System.
Context {X Guess D : Type}.
Notation cell := (ncell X).
Notation grid := (ngrid X).
Notation body := (res grid).
Variable icovOf : cell -> M3.
Variable search : list point -> P2 -> nat -> list nat.
Variable solve : M3 -> V3 -> option V3.
Variable merge : cell -> cell -> cell.
Variable dflt : cell.
Variable addPt : cell -> point -> cell.
Variable compute : cell -> cell.
Variable tcell : qt -> cell -> cell.
Variable occRay : cell -> point -> cell -> cell.
Variable rawOcc : cell -> Q.
Variable btw : qpose -> qpose -> qt.
Variable tp : qt -> point -> point.
Variable noLin : T2.
Variable moveOrigin : qpose -> qt -> qpose.
Variable moveScan : T2 -> point -> point.
Variable dbl : R -> Q.
Variable radius : Q.
Variable le : lenv pose (frame body) M3 Guess D.
Variable se2' : pose -> pose.
Variable odo : M3.
Variable dist : R.
Notation env := (sysEnv merge dflt addPt compute tcell occRay btw tp noLin moveOrigin moveScan dbl radius le se2' odo dist).
Notation yreach := (yreach merge dflt tcell occRay rawOcc btw tp dbl env).
Notation incMatch := (incMatch (D := D) icovOf search solve merge dflt addPt compute tcell occRay btw tp).
Notation followed := (followed icovOf search solve merge dflt addPt compute tcell occRay rawOcc btw tp dbl env).

Lemma followed_reach h y : followed h y -> yreach h y.
Proof. induction 1; [apply yreach_new|]. eapply yreach_step; eassumption. Qed.

Lemma inc_reach left (a : alg body body) i reg : rigid (guessOf a i) -> incMatch left a i = Some reg ->
  exists v w, guessOf a i = vecToMat v /\ reg = vecToMat w /\ dist3 w v <= 4 / 10.
Proof.
  intros RG. unfold IncModel.incMatch. destruct (a_win a) as [[g| |]|]; try discriminate.
  destruct (n_initialize _ _ _ _ _ _ _ _ _ _) as [l| |]; try discriminate. cbv zeta.
  assert (V : guessOf a i = vecToMat (matToVec (guessOf a i))).
  { unfold vecToMat, matToVec, vecOfT, RegModel.poseOf. cbn [vx vy vz]. symmetry. exact (trans_of_pose _ RG). }
  destruct (scan_reach merge dflt icovOf search solve left (meansOf l) g (matToVec (guessOf a i))) as (w & SW & DW). rewrite <- V in SW.
  destruct (fst _); [|discriminate]. intro H. injection H as <-. exists (matToVec (guessOf a i)), w. auto.
Qed.
Theorem inc_near h y : followed h y -> (forall e, In e h -> rigid (i_motion (v_in e))) -> sharp dbl h ->
  forall e inc, In e h -> In (AInc inc) (v_evs e) -> differs (4 / 10) (i_motion (v_in e)) inc.
Proof using All.
  induction 1 as [|h y e y' left F IH IM S]; intros RM SH e0 inc I0 I; [destruct I0|].
  assert (SH' : sharp dbl h) by (intros e1 t1 I1; apply SH; now right).
  destruct I0 as [<-|I0].
  2:{ apply IH; try assumption. intros e1 I1. apply RM. now right. }
  clear IH. specialize (RM e (or_introl eq_refl)). pose proof (followed_reach h y F) as R.
  pose proof (yreach_AI _ _ _ _ _ _ _ _ _ _ _ _ _ _ _ _ _ _ h y R) as A.
  destruct S as [i ts a' evs m' o' U DM]. cbn [v_in v_evs] in *. unfold update in U.
  destruct (a_init (y_alg y)) eqn:AI0.
  2:{ injection U as _ <-. cbn in I. intuition discriminate. }
  specialize (IM eq_refl).
  destruct (a_win (y_alg y)) as [w|] eqn:AW; [|discriminate].
  destruct (movedEnough _).
  2:{ injection U as _ <-. cbn in I. intuition discriminate. }
  destruct (i_match i) as [reg|] eqn:MT.
  - apply bind_ok_inv in U. destruct U as ([a1 ev1] & UG & U). cbn [fst snd] in U.
    destruct (w_move env (w_merge env w (i_scan i) reg) reg) as [w2 c]. injection U as _ <-.
    apply in_app_or in I. destruct I as [I|[I|[]]]; [|discriminate].
    rewrite (graph_inc _ _ _ _ _ _ _ _ UG I). clear UG I.
    assert (WG : exists g, w = Ok g).
    { unfold IncModel.incMatch in IM. rewrite AW in IM. destruct w as [g| |]; [eauto|discriminate|discriminate]. }
    destruct WG as [g ->]. destruct (robot_in_window _ _ _ _ _ _ _ _ _ _ _ _ _ _ _ _ _ _ h y g R SH' AW) as (_ & CM & _).
    pose proof (ai_match _ _ _ A) as MM. cbn [w_origin sysEnv wOrigin].
    assert (RC : rigid (a_cumul (y_alg y))).
    { replace (a_cumul (y_alg y)) with (t2mul (t2inv (getTransFromPose (SysModel.poseOf (n_pose g)))) (last_match (events h))).
      - apply rigid_mul; [apply rigid_inv, rigid_pose|apply rigid_last_match].
      - rewrite <- CM, <- t2mul_assoc, t2inv_l by apply rigid_nz, rigid_pose. apply t2mul_id_l. }
    destruct (inc_reach left (y_alg y) i reg) as (v & w & GV & -> & DW); [|now symmetry|].
    { apply rigid_mul; [exact RC|exact RM]. }
    rewrite MM, trans_of_pose by (apply rigid_mul; apply rigid_pose).
    assert (EI : t2mul (t2inv (last_match (events h))) (t2mul (getTransFromPose (SysModel.poseOf (n_pose g))) (vecToMat w)) =
                 t2mul (t2inv (a_cumul (y_alg y))) (vecToMat w)).
    { rewrite <- CM. set (o := getTransFromPose (SysModel.poseOf (n_pose g))). set (cu := a_cumul (y_alg y)) in *.
      assert (IO : t2inv (t2mul o cu) = t2mul (t2inv cu) (t2inv o)).
      { symmetry. apply t2inv_unique; [apply rigid_nz, rigid_mul; [apply rigid_pose|exact RC]|].
        rewrite t2mul_assoc, <- (t2mul_assoc (t2inv o)), t2inv_l by apply rigid_nz, rigid_pose.
        rewrite t2mul_id_l. apply t2inv_l, rigid_nz, RC. }
      rewrite IO, t2mul_assoc, <- (t2mul_assoc (t2inv o)), t2inv_l by apply rigid_nz, rigid_pose. now rewrite t2mul_id_l. }
    rewrite EI.
    assert (EM : i_motion i = t2mul (t2inv (a_cumul (y_alg y))) (vecToMat v)).
    { rewrite <- GV. unfold guessOf. rewrite <- t2mul_assoc, t2inv_l by apply rigid_nz, RC. symmetry. apply t2mul_id_l. }
    rewrite EM. rewrite <- (trans_of_pose _ RC).
    destruct (turned_diff (getPoseFromTransform (a_cumul (y_alg y))) v w) as (p & q & P & Q & B).
    exists p, q. split; [exact P|]. split; [exact Q|]. lra.
  - apply bind_ok_inv in U. destruct U as ([a1 ev1] & UG & U). cbn [fst snd] in U. injection U as _ <-.
    apply in_app_or in I. destruct I as [I|[I|[]]]; [|discriminate].
    rewrite (graph_inc _ _ _ _ _ _ _ _ UG I). apply differs_refl; [exact RM|lra].
Qed.
End System.
