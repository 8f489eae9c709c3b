(** Proofs about the running window of the whole system. *)
From Coq Require Import Reals Qreals Lra Lqa List ZArith QArith Qabs Qround Bool Lia Arith.
From Verif Require Import Base LinAlg3 GeoModel GeoSpec GeoProofs.
From Verif Require Import GraphModel GraphSpec GraphProofs LoopModel LoopSpec LoopProofs SlamModel SlamSpec SlamProofs.
From Verif Require Import AlgModel AlgSpec AlgProofs.
From Verif Require Import QLemmas VoxelModel VoxelSpec VoxelProofs VoxelOps VoxelAdd VoxelRay GridModel GridSpec GridProofs GridOps ScanSpec MapModel MapSpec SysModel SysSpec SysProofs.
Import ListNotations.
Open Scope nat_scope.
Set Default Proof Using "Type".

(** Whole cells and the rest, along one axis. *)
Lemma axis_rest cs t o : (0 < cs)%Q -> axisMove cs t = Ok o ->
  (axisRest cs t o == t - inject_Z (steps o) * cs)%Q /\ (- cs < axisRest cs t o < cs)%Q.
Proof.
  intros HC E. unfold axisMove in E.
  pose proof (Qdiv_mul t cs HC) as TD. set (u := (t / cs)%Q) in *.
  assert (AB : (Qabs t / cs == Qabs u)%Q).
  { unfold u. unfold Qdiv. rewrite Qabs_Qmult. rewrite (Qabs_pos (/ cs)); [reflexivity|].
    apply Qlt_le_weak, Qinv_lt_0_compat; exact HC. }
  pose proof (Qfloor_spec (Qabs t / cs)%Q) as [F1 F2]. set (q := (Qabs t / cs)%Q) in *.
  assert (SC : forall r, (-(1) < r /\ r < 1)%Q -> (- cs < r * cs < cs)%Q).
  { intros r [R1 R2]. split.
    - setoid_replace (- cs)%Q with (-(1) * cs)%Q by ring. apply Qmult_lt_r; assumption.
    - setoid_replace cs with (1 * cs)%Q at 2 by ring. apply Qmult_lt_r; assumption. }
  destruct (Z.ltb_spec 0 (Qfloor q)) as [FP|FP].
  - apply bind_ok_inv in E. destruct E as (k & EK & E). injection E as <-. cbn [axisRest steps].
    split; [reflexivity|].
    assert (K : k = if Qlt_b u 0 then Qceiling u else Qfloor u).
    { unfold to_int in EK. destruct (_ && _) in EK; [|discriminate]. injection EK as <-. reflexivity. }
    assert (R : (t - inject_Z k * cs == (u - inject_Z k) * cs)%Q) by (rewrite TD at 1; ring).
    rewrite R. apply SC. destruct (Qlt_b u 0).
    + pose proof (Qceiling_spec u) as [C1 C2]. rewrite <- K in C1, C2. lra.
    + pose proof (Qfloor_spec u) as [C1 C2]. rewrite <- K in C1, C2. lra.
  - injection E as <-. cbn [axisRest steps]. split; [change (inject_Z 0) with 0%Q; ring|].
    assert (inject_Z (Qfloor q) <= inject_Z 0)%Q by (apply le_inj; lia).
    change (inject_Z 0) with 0%Q in *. assert (QU : (Qabs u < 1)%Q) by lra.
    apply Qabs_Qlt_condition in QU. setoid_replace t with (u * cs)%Q by exact TD. apply SC. lra.
Qed.

Lemma q2r0 : Q2R 0 = 0%R.
Proof. unfold Q2R. cbn. Lra.lra. Qed.
Lemma trans_flat x y : getTransFromPose (mkP x y 0) = mkT2 1 0 0 1 x y.
Proof. apply T2_eq; cbn; rewrite ?sin_0, ?cos_0; ring. Qed.

Section Alg.
Context {Body Win Scan Guess D : Type}.
Lemma updateGraph_cumul (env : aenv Body Win Scan Guess D) a i inc cov a' evs :
  updateGraph env a i inc cov = Ok (a', evs) -> a_cumul a' = a_cumul a.
Proof.
  unfold updateGraph. destruct (leftWindow _ _).
  - intro H. apply bind_ok_inv in H. destruct H as ([a1 ev1] & NN & H). injection H as <- _. cbn [fst].
    unfold newNode in NN. destruct (addPose _ _ _ _) as [s1 id].
    apply bind_ok_inv in NN. destruct NN as (s2 & _ & NN). apply bind_ok_inv in NN. destruct NN as ([s3 cl] & _ & NN).
    apply bind_ok_inv in NN. destruct NN as (s4 & _ & NN). apply bind_ok_inv in NN. destruct NN as (p & _ & NN).
    injection NN as <- _. reflexivity.
  - intro H. injection H as <- _. reflexivity.
Qed.
End Alg.

Section System.
Context {X Guess D : Type}.
Notation cell := (ncell X).
Notation grid := (ngrid X).
Notation body := (res grid).
Variable merge : cell -> cell -> cell.
Variable dflt : cell.
Variable addPt : cell -> point -> cell.
Variable compute : cell -> cell.
Variable tcell : qt -> cell -> cell.
Variable occRay : cell -> point -> cell -> cell.
Variable rawOcc : cell -> Q.
Variable btw : qpose -> qpose -> qt.
Variable tp : qt -> point -> point.
Variable noLin : T2.
Variable moveOrigin : qpose -> qt -> qpose.
Variable moveScan : T2 -> point -> point.
Variable dbl : R -> Q.
Variable radius : Q.
Variable le : lenv pose (frame body) M3 Guess D.
Variable se2' : pose -> pose.
Variable odo : M3.
Variable dist : R.

Notation env := (sysEnv merge dflt addPt compute tcell occRay btw tp noLin moveOrigin moveScan dbl radius le se2' odo dist).
Notation yreach := (yreach merge dflt tcell occRay rawOcc btw tp dbl env).
Notation sys := (sys X).
Notation yev := (yev D).
Notation wNew := (wNew merge dflt addPt compute tcell occRay btw tp radius).
Notation wMerge := (wMerge merge dflt addPt compute tcell occRay btw tp noLin moveOrigin dbl).
Notation wMove := (@wMove X dbl).

Lemma mergeCells_header (g g' : grid) l b : mergeInCells merge g l b = Ok g' ->
  n_pose g' = n_pose g /\ n_cs g' = n_cs g.
Proof.
  unfold mergeInCells. intro E. destruct (b || negb (n_init g)).
  - destruct (bbox _) as [[[x0 y0] x1] y1]. apply bind_ok_inv in E. destruct E as (v0 & _ & E).
    apply bind_ok_inv in E. destruct E as (v1 & _ & E). injection E as <-. auto.
  - apply bind_ok_inv in E. destruct E as (v1 & _ & E). injection E as <-. auto.
Qed.
Lemma traced_header (g f g' : grid) a b : mergeInTraced merge dflt tcell occRay btw tp g f a b = Ok g' ->
  n_pose g' = n_pose g /\ n_cs g' = n_cs g.
Proof.
  unfold mergeInTraced. intro E. apply bind_ok_inv in E. destruct E as (v & _ & E).
  apply mergeCells_header in E. exact E.
Qed.
Lemma init_header (g g' : grid) s : n_initialize merge dflt addPt compute tcell occRay btw tp g s = Ok g' ->
  n_pose g' = n_pose g /\ n_cs g' = n_cs g.
Proof.
  unfold n_initialize, mergeInTracedPcl. intro E. apply bind_ok_inv in E. destruct E as (l & _ & E).
  apply traced_header in E. exact E.
Qed.
Lemma wNew_header s g : wNew s = Ok g -> n_pose g = mkPose 0 0 0 /\ n_cs g = 1#4.
Proof.
  unfold SysModel.wNew. intro E. apply bind_ok_inv in E. destruct E as (g0 & E0 & E).
  unfold n_enlarge in E0. apply bind_ok_inv in E0. destruct E0 as (v & _ & E0). injection E0 as <-.
  apply init_header in E. exact E.
Qed.
Lemma wMerge_header w s reg g' : wMerge w s reg = Ok g' ->
  exists g, w = Ok g /\ n_pose g' = n_pose g /\ n_cs g' = n_cs g.
Proof.
  unfold SysModel.wMerge. intro E. apply bind_ok_inv in E. destruct E as (g & -> & E).
  apply bind_ok_inv in E. destruct E as (l & _ & E). apply bind_ok_inv in E. destruct E as (l' & _ & E).
  exists g. split; [reflexivity|]. apply traced_header in E. exact E.
Qed.

Lemma wMove_header (g g' : grid) reg c : p_th (n_pose g) = 0%Q -> n_cs g = 1#4 ->
  Q2R (dbl (tx reg)) = tx reg -> Q2R (dbl (ty reg)) = ty reg -> wMove (Ok g) reg = (Ok g', c) ->
  p_th (n_pose g') = 0%Q /\ n_cs g' = 1#4 /\
  t2mul (getTransFromPose (poseOf (n_pose g'))) c = t2mul (getTransFromPose (poseOf (n_pose g))) reg /\
  (Rabs (tx c) < 1/4)%R /\ (Rabs (ty c) < 1/4)%R.
Proof.
  intros TH CS DX DY E. unfold SysModel.wMove in E. cbn [bind] in E.
  destruct (n_move g (toQ dbl reg)) as [r| |] eqn:EM; [|discriminate|discriminate]. injection E as E1 E2.
  destruct r as [g2 t2]. cbn [fst snd] in *. subst g2 c. unfold n_move in EM.
  rewrite TH in EM. change (Qlt_b (1 # 10000000) (Qabs 0)) with false in EM.
  apply bind_ok_inv in EM. destruct EM as (kx & EX & EM). apply bind_ok_inv in EM. destruct EM as (ky & EY & EM).
  rewrite CS in EX, EY. cbn [tr_x tr_y toQ] in EX, EY.
  destruct (axis_rest (1#4) _ _ eq_refl EX) as [RX BX]. destruct (axis_rest (1#4) _ _ eq_refl EY) as [RY BY].
  assert (BD : forall q, (- (1#4) < q < 1#4)%Q -> (Rabs (Q2R q) < 1/4)%R).
  { intros q [A B]. apply Qlt_Rlt in A, B. rewrite Q2R_opp in A.
    assert (Q4 : Q2R (1#4) = (1/4)%R) by (unfold Q2R; cbn; Lra.lra). rewrite Q4 in A, B.
    apply Rabs_def1; Lra.lra. }
  assert (SX : (Q2R (axisRest (1#4) (dbl (tx reg)) kx) = tx reg - Q2R (inject_Z (steps kx) * (1#4)))%R).
  { rewrite (Qeq_eqR _ _ RX), Q2R_minus, DX. reflexivity. }
  assert (SY : (Q2R (axisRest (1#4) (dbl (ty reg)) ky) = ty reg - Q2R (inject_Z (steps ky) * (1#4)))%R).
  { rewrite (Qeq_eqR _ _ RY), Q2R_minus, DY. reflexivity. }
  assert (PO : n_cs g' = 1#4 /\ p_th (n_pose g') = 0%Q /\
     Q2R (p_x (n_pose g')) = (Q2R (p_x (n_pose g)) + Q2R (inject_Z (steps kx) * (1#4)))%R /\
     Q2R (p_y (n_pose g')) = (Q2R (p_y (n_pose g)) + Q2R (inject_Z (steps ky) * (1#4)))%R /\
     t2 = mkTr (tr_lin (toQ dbl reg)) (axisRest (1#4) (dbl (tx reg)) kx) (axisRest (1#4) (dbl (ty reg)) ky)).
  { assert (ST : Q2R (inject_Z 0 * (1#4)) = 0%R) by (unfold Q2R; cbn; Lra.lra).
    rewrite CS in EM. destruct kx as [kx|], ky as [ky|];
      try (apply bind_ok_inv in EM; destruct EM as (v & _ & EM)); injection EM as <- <-;
      cbn [updateMeans n_pose n_cs p_x p_y p_th tr_lin toQ tr_x tr_y steps]; rewrite ?ST, ?Q2R_plus, ?TH, ?Rplus_0_r; repeat split; auto; rewrite ST; apply Rplus_0_r. }
  destruct PO as (CS' & TH' & PX & PY & ->). split; [exact TH'|]. split; [exact CS'|].
  unfold poseOf. rewrite TH, TH', q2r0, !trans_flat, PX, PY.
  unfold ofQ. cbn [tr_lin tr_x tr_y toQ tx ty ta tb tc td]. rewrite SX, SY.
  split; [apply T2_eq; cbn [t2mul ta tb tc td tx ty]; ring|].
  rewrite <- SX, <- SY. split; apply BD; assumption.
Qed.

Record WI (h : list yev) (y : sys) : Prop := {
  wi_none : h = [] -> a_cumul (y_alg y) = t2id;
  wi_ok : sharp dbl h -> forall g, a_win (y_alg y) = Some (Ok g) ->
    p_th (n_pose g) = 0%Q /\ n_cs g = 1#4 /\
    t2mul (getTransFromPose (poseOf (n_pose g))) (a_cumul (y_alg y)) = last_match (events h) /\
    (Rabs (tx (a_cumul (y_alg y))) < 1/4)%R /\ (Rabs (ty (a_cumul (y_alg y))) < 1/4)%R
}.

Lemma WI_reach h y : yreach h y -> WI h y.
Proof.
  induction 1 as [|h y e y' R IH S].
  { split; [reflexivity|]. cbn. discriminate. }
  pose proof (yreach_AI _ _ _ _ _ _ _ _ _ _ _ _ _ _ _ _ _ _ h y R) as A.
  pose proof (FI_reach _ _ _ _ _ _ _ _ _ _ _ _ _ _ _ _ _ _ h y R) as [N _ _ _ _].
  destruct S as [i ts a' evs m' o' U DM]. split; [discriminate|]. cbn [y_alg events v_evs].
  intros SH g EW. destruct IH as [IN IO].
  assert (SH' : sharp dbl h). { intros e t I. apply SH. right. exact I. }
  specialize (IO SH'). destruct (update_ok _ _ _ _ _ _ A U) as (_ & k & r & ER & _ & KF & KS & LM & _).
  rewrite ER. unfold update in U.
  destruct (a_init (y_alg y)) eqn:AI0.
  - destruct (a_win (y_alg y)) as [w|] eqn:AW; [|discriminate].
    destruct (movedEnough _).
    + destruct (i_match i) as [reg|] eqn:MT.
      * apply bind_ok_inv in U. destruct U as ([a1 ev1] & UG & U). cbn [fst snd] in U.
        destruct (w_move env (w_merge env w (i_scan i) reg) reg) as [w2 c] eqn:WM. injection U as <- <-.
        cbn [setWindow a_win a_cumul] in *. injection EW as ->.
        assert (MS : exists g1, w_merge env w (i_scan i) reg = Ok g1).
        { cbn [w_move sysEnv] in WM. unfold SysModel.wMove in WM.
          destruct (w_merge env w (i_scan i) reg) as [g1| |]; [eauto|discriminate|discriminate]. }
        destruct MS as [g1 EG1]. rewrite EG1 in WM. cbn [w_merge sysEnv] in EG1.
        destruct (wMerge_header _ _ _ _ EG1) as (g0 & -> & PO & CS). destruct (IO g0 eq_refl) as (TH & C4 & _).
        destruct (SH (mkYE i ts _) reg (or_introl eq_refl) MT) as (RG & DX & DY).
        cbn [w_move sysEnv] in WM.
        destruct (wMove_header g1 g reg c) as (TH' & CS' & CM & BX & BY); try assumption; try congruence.
        split; [exact TH'|]. split; [exact CS'|]. split; [|auto].
        rewrite rev_app_distr in ER. cbn [rev app] in ER. injection ER as <- _ _.
        cbn [app last_match]. rewrite CM, PO. cbn [w_origin sysEnv wOrigin].
        symmetry. apply trans_of_pose. apply rigid_mul; [apply rigid_pose|exact RG].
      * apply bind_ok_inv in U. destruct U as ([a1 ev1] & UG & U). cbn [fst snd] in U. injection U as <- <-.
        assert (WC : a_win a1 = Some w /\ a_cumul a1 = a_cumul (y_alg y)).
        { split; [|apply updateGraph_cumul in UG; exact UG].
          destruct A as [C _ _ _].
          assert (C' : AC env (setUnused (y_alg y) t2id) (events h)) by (destruct C; split; assumption).
          destruct (updateGraph_ok _ _ _ _ _ _ _ _ C' UG) as (_ & _ & _ & _ & W & _).
          rewrite W. exact AW. }
        destruct WC as [W1 C1]. rewrite W1 in EW. rewrite C1. rewrite EW in IO. specialize (IO g eq_refl).
        rewrite rev_app_distr in ER. cbn [rev app] in ER. injection ER as <- _ _.
        cbn [app last_match]. rewrite LM. exact IO.
    + injection U as <- <-. cbn [setUnused a_win a_cumul] in *. rewrite AW in EW. injection EW as ->.
      specialize (IO g eq_refl). cbn [rev app] in ER. injection ER as <- _ <-. cbn [app last_match]. exact IO.
  - injection U as <- <-. cbn [firstScan a_win a_cumul w_new sysEnv] in *. injection EW as EW.
    destruct (wNew_header _ _ EW) as [PO CS].
    assert (H0 : h = []) by (apply N; reflexivity). rewrite (IN H0). subst h.
    cbn [rev app] in ER. injection ER as <- _ <-. cbn [app last_match events].
    rewrite PO. unfold poseOf. cbn [p_x p_y p_th]. split; [reflexivity|]. split; [exact CS|].
    rewrite q2r0, trans_flat. cbn [tx ty t2id]. rewrite Rabs_R0.
    split; [apply T2_eq; cbn; ring|]. split; Lra.lra.
Qed.

(** Stamp and number of the published window. *)
Lemma tick_reach h y : yreach h y -> y_seq y = matches (events h) /\ y_time y = window_time h.
Proof.
  induction 1 as [|h y e y' R [IS IT] S]; [split; reflexivity|].
  pose proof (yreach_AI _ _ _ _ _ _ _ _ _ _ _ _ _ _ _ _ _ _ h y R) as A.
  pose proof (FI_reach _ _ _ _ _ _ _ _ _ _ _ _ _ _ _ _ _ _ h y R) as [N _ _ _ _].
  destruct S as [i ts a' evs m' o' U DM]. cbn [y_seq y_time events window_time v_evs v_time].
  destruct (update_ok _ _ _ _ _ _ A U) as (_ & k & r & ER & NR & KF & _).
  unfold kindOf. rewrite ER.
  assert (M0 : forall l l', (forall k' p, ~ In (ARep k' p) l) -> matches (l ++ l') = matches l').
  { induction l as [|x t IH]; intros l' H; [reflexivity|].
    assert (IH' := IH l' (fun k' p I => H k' p (or_intror I))).
    destruct x; cbn [app matches]; try exact IH'. exfalso. eapply H. left. reflexivity. }
  assert (WD : windowed evs = match k with KFirst | KMatch _ _ => true | _ => false end).
  { unfold windowed. rewrite <- (rev_involutive evs), ER. cbn [rev]. rewrite existsb_app.
    replace (existsb _ (rev r)) with false.
    - cbn. destruct k; reflexivity.
    - symmetry. apply not_true_is_false. intro Y. apply existsb_exists in Y. destruct Y as (x & I & Y).
      apply in_rev in I. destruct x as [| | | | |k' p]; try discriminate. apply (NR k' p I). }
  rewrite WD. cbn [app]. destruct k as [| |w reg|]; cbn [tick fst snd matches].
  - assert (h = []) by (apply N; apply KF; reflexivity). subst h. rewrite M0 by exact NR. split; reflexivity.
  - rewrite M0 by exact NR. auto.
  - rewrite M0 by exact NR. auto.
  - rewrite M0 by exact NR. auto.
Qed.

(** Scans that are skipped or not matched leave the start of the matcher alone. *)
Lemma guess_kept (a : alg body body) i a' evs k p (j : ainput (option point) D) : update env a i = Ok (a', evs) ->
  In (ARep k p) evs -> (forall w t, k <> KMatch w t) -> a_init a = true ->
  guessOf a' j = guessOf a j.
Proof. clear rawOcc.
  intros U I NM IN. unfold guessOf. f_equal. unfold update in U. rewrite IN in U.
  destruct (a_win a) as [w|]; [|discriminate]. destruct (movedEnough _).
  - destruct (i_match i) as [reg|].
    + apply bind_ok_inv in U. destruct U as ([a1 ev1] & UG & U). cbn [fst snd] in U.
      destruct (w_move env (w_merge env w (i_scan i) reg) reg) as [w2 c]. injection U as <- <-.
      apply in_app_or in I. destruct I as [I|[I|[]]].
      * exfalso. unfold updateGraph in UG. destruct (leftWindow _ _).
        -- apply bind_ok_inv in UG. destruct UG as ([a2 ev2] & NN & UG). injection UG as _ <-.
           unfold newNode in NN. destruct (addPose _ _ _ _) as [s1 id].
           apply bind_ok_inv in NN. destruct NN as (s2 & _ & NN). apply bind_ok_inv in NN. destruct NN as ([s3 cl] & _ & NN).
           apply bind_ok_inv in NN. destruct NN as (s4 & _ & NN). apply bind_ok_inv in NN. destruct NN as (q & _ & NN).
           injection NN as _ <-. cbn [snd] in I. destruct cl; cbn in I; intuition discriminate.
        -- injection UG as _ <-. cbn in I. intuition discriminate.
      * injection I as <- _. exfalso. eapply NM. reflexivity.
    + apply bind_ok_inv in U. destruct U as ([a1 ev1] & UG & U). cbn [fst snd] in U. injection U as <- <-.
      apply updateGraph_cumul in UG. exact UG.
  - injection U as <- _. reflexivity.
Qed.
End System.
