(** A robot whose matcher finds nothing receives three messages half a metre apart. *)
From Coq Require Import Reals Qreals Lra List ZArith QArith Bool Lia Arith.
From Verif Require Import Base LinAlg3 GeoModel GeoSpec GeoProofs OptModel RegModel.
From Verif Require Import GraphModel LoopModel SlamModel AlgModel AlgSpec AlgProofs AlgCases NodeModel NodeSpec.
From Verif Require Import VoxelModel GridModel GridSpec GridProofs ScanSpec ScanInit MapModel MapSpec ExportModel SysModel SysSpec.
From Verif Require Import SysCases RunModel RunSpec RunProofs RunCases RealModel RealProofs RealCases IncModel IncProofs IncCases.
From Verif Require Import IncRun.
Import ListNotations.
Open Scope nat_scope.

Definition nosolve (h : M3) (b : V3) : option V3 := None.
Lemma ilost left g : fst (scanP2d pmerge pdflt icov isearch nosolve left (meansOf il) iw0 g) = false.
Proof.
  unfold scanP2d. destruct (ilayers left) as ([|ly ls] & -> & F & L); [discriminate|]. reflexivity.
Qed.
(** messages with the scan of IncCases.v *)
Definition imsg (t : Z) (x : R) : nmsg (option point) := NodeModel.mkMsg t (Some (vecToMat3d (at_ x))) (Some iscan) None.
Definition ishort (t : Z) (x : R) : nmsg (option point) := NodeModel.mkMsg t (Some (vecToMat3d (at_ x))) (Some (firstn 7 iscan)) None.
Lemma iprepare t x : prepareAllData (imsg t x) = Some (at_ x, iscan) /\ prepareAllData (ishort t x) = None.
Proof.
  unfold prepareAllData, imsg, ishort. cbn [ms_tf ms_scan]. rewrite zpose_of.
  assert (L : (Z.of_nat (length iscan) <? 400)%Z = false) by (vm_compute; reflexivity).
  assert (L7 : (Z.of_nat (length (firstn 7 iscan)) <? 400)%Z = true) by (vm_compute; reflexivity).
  rewrite L, L7. auto.
Qed.
Lemma lost_step (env : aenv (res zgrid) (res zgrid) (option point) unit Z) a i w u x d :
  gen_dist env = (15 / 10)%R -> (2 / 10 < u + d)%R -> (0 <= x + d <= 15 / 10)%R ->
  a_init a = true -> a_win a = Some w -> a_unused a = along u -> a_temp a = along x -> a_pos a = along x ->
  i_motion i = along d -> i_match i = None ->
  exists a', update env a i = Ok (a', [AInc (along d); ADraw (f_origin (a_frame a)) (along (x + d)); ARep KOdo (at_ (x + d))]) /\
    a_init a' = true /\ a_win a' = Some w /\ a_unused a' = t2id /\ a_temp a' = along (x + d) /\ a_pos a' = along (x + d) /\
    a_slam a' = a_slam a /\ f_origin (a_frame a') = f_origin (a_frame a).
Proof.
  intros G DP XD E4 E5 E6 E7 E8 I3 I4.
  unfold update. rewrite E4, E5, E6, I3, I4, along_mul, enough_along by lra.
  unfold updateGraph. cbn [setUnused a_temp a_pos]. rewrite E7, E8, !along_mul.
  assert (L : leftWindow env (along (x + d)) = false).
  { unfold leftWindow. rewrite disp_along, Rabs_Rabsolu, G, Rabs_pos_eq by lra. destruct (Rlt_dec _ _); [lra|auto]. }
  rewrite L. cbn [bind fst snd app a_pos]. rewrite pose_along. eexists. split; [reflexivity|].
  cbn [a_init a_win a_unused a_temp a_pos a_slam a_frame f_origin setUnused]. auto 10.
Qed.
Notation irun := (RunModel.rreach pmerge pdflt ztrans pray zraw zbtw ztp zdbl (Some false) true zenv).
Notation nfollowed := (followed icov isearch nosolve pmerge pdflt padd pcompute ztrans pray zraw zbtw ztp zdbl zenv).
Definition lcalls : list (yev Z) :=
  [mkYE (iin (1 / 2) None 7) 3 [AInc (along (1 / 2)); ADraw (at_ 0) (along (0 + 1 / 2 + 1 / 2)); ARep KOdo (at_ (0 + 1 / 2 + 1 / 2))];
   mkYE (iin (1 / 2) None 7) 2 [AInc (along (1 / 2)); ADraw (at_ 0) (along (0 + 1 / 2)); ARep KOdo (at_ (0 + 1 / 2))];
   mkYE (iin 0 None 0) 1 [ADraw (at_ 0) t2id; ARep KFirst (at_ 0)]].
Lemma inc_run_case : exists o2 o1 o r, irun ((imsg 3 (10 + 1), o2) :: [(ishort 2 17, o)] ++ (imsg 2 (10 + 1 / 2), o1) :: [(imsg 1 10, [RTf 1 None])]) lcalls r /\
  nfollowed lcalls (r_sys r) /\ sharp zdbl lcalls /\
  accepted (imsg 2 (10 + 1 / 2)) = Some (at_ (10 + 1 / 2)) /\ accepted (imsg 3 (10 + 1)) = Some (at_ (10 + 1)) /\ accepted (ishort 2 17) = None /\
  took (X := list point) [(imsg 1 10, [RTf 1 None])] <> [] /\
  (forall e, hd_error lcalls = Some e -> no_loop (v_evs e)) /\ (forall e, hd_error (tl lcalls) = Some e -> ~ skipped e).
Proof.
  assert (W0 : a_win ia0 = Some (Ok iw0)).
  { unfold ia0, firstScan. cbn [a_win sysEnv w_new iin i_scan]. rewrite iw0_ok. reflexivity. }
  destruct (lost_step zenv ia0 (iin (1 / 2) None 7) (Ok iw0) 0 0 (1 / 2)) as (a1 & U1 & I1 & W1 & N1 & T1 & P1 & SL1 & F1);
    try reflexivity; try exact W0; try lra; try exact along_zero; try exact (eq_sym along_zero).
  destruct (lost_step zenv a1 (iin (1 / 2) None 7) (Ok iw0) 0 (0 + 1 / 2) (1 / 2)) as (a2 & U2 & I2 & W2 & N2 & T2 & P2 & SL2 & F2);
    try reflexivity; try assumption; try lra; try (rewrite N1; exact along_zero).
  rewrite F1 in U2. change (f_origin (a_frame ia0)) with (at_ 0) in U1, U2.
  pose (y0 := mkSys ia0 (m_new pdflt) [] 0 1). pose (y1 := mkSys a1 (m_new pdflt) [] 0 1). pose (y2 := mkSys a2 (m_new pdflt) [] 0 1).
  assert (S0 : ystep pmerge pdflt ztrans pray zraw zbtw ztp zdbl zenv (sys_new pdflt zenv)
                 (mkYE (iin 0 None 0) 1 [ADraw (at_ 0) t2id; ARep KFirst (at_ 0)]) y0).
  { eapply (ystep_intro _ _ _ _ _ _ _ _ zenv (sys_new pdflt zenv) (iin 0 None 0) 1%Q ia0).
    - unfold update. cbn [sys_new y_alg alg_new a_init]. rewrite pose_id. reflexivity.
    - apply draw_none. intros id [H|[H|[]]]; discriminate. }
  assert (S1 : ystep pmerge pdflt ztrans pray zraw zbtw ztp zdbl zenv y0 (hd (mkYE (iin 0 None 0) 1 []) (tl lcalls)) y1).
  { apply (ystep_intro _ _ _ _ _ _ _ _ zenv y0 (iin (1 / 2) None 7) 2%Q a1 _ (m_new pdflt) [] U1).
    apply draw_none. intros id H. cbn in H. intuition discriminate. }
  assert (S2 : ystep pmerge pdflt ztrans pray zraw zbtw ztp zdbl zenv y1 (hd (mkYE (iin 0 None 0) 1 []) lcalls) y2).
  { apply (ystep_intro _ _ _ _ _ _ _ _ zenv y1 (iin (1 / 2) None 7) 3%Q a2 _ (m_new pdflt) [] U2).
    apply draw_none. intros id H. cbn in H. intuition discriminate. }
  assert (TT : forall a, a_win a = Some (Ok iw0) -> a_slam a = a_slam ia0 ->
     exists l, topics pdflt zbtw ztp (Some false) true (mkSys a (m_new pdflt) [] 0 1) = Ok l).
  { intros a W SL. unfold topics, graphOut, getNDTMap, getPclMap2. cbn [y_alg y_time y_seq bind y_map]. rewrite W, SL.
    eexists. cbn [bind]. reflexivity. }
  destruct (TT a1 W1 SL1) as (l1 & TO1). destruct (TT a2 W2 (eq_trans SL2 SL1)) as (l2 & TO2). fold y1 in TO1. fold y2 in TO2.
  cbn [lcalls hd tl] in S1, S2.
  pose proof (rstep_first pmerge pdflt ztrans pray zraw zbtw ztp zdbl (Some false) true zenv (run_new pdflt zenv)
    (imsg 1 10) (at_ 10) iscan (iin 0 None 0) _ y0 (proj1 (iprepare 1 10)) eq_refl (eq_sym along_zero) eq_refl S0) as R1.
  assert (M : forall a b, (b - a = 1 / 2)%R -> along (1 / 2) = t2mul (t2inv (getTransFromPose (at_ a))) (getTransFromPose (at_ b))).
  { intros a b E. rewrite !along_pose, along_inv, along_mul. f_equal. lra. }
  pose proof (rstep_next pmerge pdflt ztrans pray zraw zbtw ztp zdbl (Some false) true zenv
    (mkRun y0 true (at_ 10) None) (imsg 2 (10 + 1 / 2)) (at_ (10 + 1 / 2)) iscan (iin (1 / 2) None 7) _ y1 (at_ (0 + 1 / 2)) l1
    (proj1 (iprepare 2 (10 + 1 / 2))) eq_refl (M 10%R (10 + 1 / 2)%R ltac:(lra)) eq_refl S1 eq_refl TO1) as R2.
  pose (rr := mkRun y1 true (at_ (10 + 1 / 2)) (Some (tfTrans (at_ (10 + 1 / 2)) (at_ (0 + 1 / 2))))). fold rr in R2.
  pose proof (rstep_reject pmerge pdflt ztrans pray zraw zbtw ztp zdbl (Some false) true zenv
    rr (ishort 2 17) (proj2 (iprepare 2 17))) as R3.
  pose proof (rstep_next pmerge pdflt ztrans pray zraw zbtw ztp zdbl (Some false) true zenv
    rr (imsg 3 (10 + 1)) (at_ (10 + 1)) iscan (iin (1 / 2) None 7) _ y2 (at_ (0 + 1 / 2 + 1 / 2)) l2
    (proj1 (iprepare 3 (10 + 1))) eq_refl (M (10 + 1 / 2)%R (10 + 1)%R ltac:(lra)) eq_refl S2 eq_refl TO2) as R4.
  pose proof (RunModel.rreach_step _ _ _ _ _ _ _ _ _ _ _ _ _ _ _ _ _ _ (RunModel.rreach_new pmerge pdflt ztrans pray zraw zbtw ztp zdbl (Some false) true zenv) R1) as Q1.
  pose proof (RunModel.rreach_step _ _ _ _ _ _ _ _ _ _ _ _ _ _ _ _ _ _ Q1 R2) as Q2.
  pose proof (RunModel.rreach_step _ _ _ _ _ _ _ _ _ _ _ _ _ _ _ _ _ _ Q2 R3) as Q3.
  pose proof (RunModel.rreach_step _ _ _ _ _ _ _ _ _ _ _ _ _ _ _ _ _ _ Q3 R4) as Q4.
  eexists _, _, _, _. split; [exact Q4|]. cbn [r_sys].
  assert (MN : forall a, a_win a = Some (Ok iw0) ->
    incMatch icov isearch nosolve pmerge pdflt padd pcompute ztrans pray zbtw ztp (fun _ _ => sdzero) a (iin (1 / 2) None 7) = None).
  { intros a W. unfold incMatch. rewrite W. cbn [iin i_scan]. rewrite il_ok. cbv zeta. rewrite ilost. reflexivity. }
  split; [|split; [|split; [|split; [|split; [|split; [|split]]]]]].
  - assert (G0 : nfollowed [mkYE (iin 0 None 0) 1 [ADraw (at_ 0) t2id; ARep KFirst (at_ 0)]] y0).
    { refine (followed_step _ _ _ _ _ _ _ _ _ _ _ _ _ _ [] (sys_new pdflt zenv) _ y0 (fun _ _ => sdzero) _ _ S0).
      - apply followed_new.
      - cbn [sys_new y_alg alg_new a_init]. discriminate. }
    assert (G1 : nfollowed (tl lcalls) y1).
    { refine (followed_step _ _ _ _ _ _ _ _ _ _ _ _ _ _ _ y0 _ y1 (fun _ _ => sdzero) G0 _ S1).
      intros _. cbn [v_in]. change (y_alg y0) with ia0. rewrite MN by exact W0. reflexivity. }
    refine (followed_step _ _ _ _ _ _ _ _ _ _ _ _ _ _ _ y1 _ y2 (fun _ _ => sdzero) G1 _ S2).
    intros _. cbn [v_in]. change (y_alg y1) with a1. rewrite MN by exact W1. reflexivity.
  - intros e t I H. destruct I as [<-|[<-|[<-|[]]]]; discriminate H.
  - pose proof (NodeProofs.prepare_accepted (imsg 2 (10 + 1 / 2))) as PA. rewrite (proj1 (iprepare _ _)) in PA. symmetry. exact PA.
  - pose proof (NodeProofs.prepare_accepted (imsg 3 (10 + 1))) as PA. rewrite (proj1 (iprepare _ _)) in PA. symmetry. exact PA.
  - pose proof (NodeProofs.prepare_accepted (ishort 2 17)) as PA. rewrite (proj2 (iprepare _ _)) in PA. symmetry. exact PA.
  - unfold took. cbn [map fst]. rewrite taken_cons, (proj1 (iprepare 1 10)). discriminate.
  - intros e E. injection E as <-. intros b H. cbn in H. intuition discriminate.
  - intros e E. injection E as <-. intros (p & H). discriminate H.
Qed.

(** The robot moves 0.1, then 0.5. *)
Lemma inc_skip_case : exists e2 sk e1 y, nfollowed (e2 :: [sk] ++ [e1]) y /\
  Forall (fun e => rigid (i_motion (v_in e))) (e2 :: [sk] ++ [e1]) /\ sharp zdbl (e2 :: [sk] ++ [e1]) /\
  last_report (events [e1]) = Some (KFirst, at_ 0) /\ skipped sk /\ i_motion (v_in sk) = along (1 / 10) /\
  last_report (events (e2 :: [sk] ++ [e1])) = Some (KOdo, at_ (0 + 1 / 2)) /\ no_loop (v_evs e2).
Proof.
  assert (W0 : a_win ia0 = Some (Ok iw0)).
  { unfold ia0, firstScan. cbn [a_win sysEnv w_new iin i_scan]. rewrite iw0_ok. reflexivity. }
  pose (i1 := iin (1 / 10) None 7). pose (i2 := iin (1 / 2) None 7).
  assert (UU : a_unused ia0 = t2id) by reflexivity.
  assert (U1 : update zenv ia0 i1 = Ok (setUnused ia0 (along (0 + 1 / 10)), [ARep KSkip (at_ (0 + 1 / 10))])).
  { unfold update. change (a_init ia0) with true. rewrite W0, UU. change (i_motion i1) with (along (1 / 10)).
    rewrite along_zero, along_mul, enough_not by lra. change (a_pos (setUnused ia0 (along (0 + 1 / 10)))) with t2id.
    change (a_pos ia0) with t2id. rewrite along_zero, ?along_mul, pose_along. reflexivity. }
  set (a1 := setUnused ia0 (along (0 + 1 / 10))) in *.
  destruct (lost_step zenv a1 i2 (Ok iw0) (0 + 1 / 10) 0 (1 / 2)) as (a2 & U2 & I2 & W2 & N2 & T2 & P2 & SL2 & F2);
    try reflexivity; try exact W0; try lra; try exact along_zero; try exact (eq_sym along_zero).
  change (f_origin (a_frame a1)) with (at_ 0) in U2.
  pose (y0 := mkSys ia0 (m_new pdflt) [] 0 1). pose (y1 := mkSys a1 (m_new pdflt) [] 0 1). pose (y2 := mkSys a2 (m_new pdflt) [] 0 1).
  assert (S0 : ystep pmerge pdflt ztrans pray zraw zbtw ztp zdbl zenv (sys_new pdflt zenv)
                 (mkYE (iin 0 None 0) 1 [ADraw (at_ 0) t2id; ARep KFirst (at_ 0)]) y0).
  { eapply (ystep_intro _ _ _ _ _ _ _ _ zenv (sys_new pdflt zenv) (iin 0 None 0) 1%Q ia0).
    - unfold update. cbn [sys_new y_alg alg_new a_init]. rewrite pose_id. reflexivity.
    - apply draw_none. intros id [H|[H|[]]]; discriminate. }
  pose (e1 := mkYE i1 2%Q [ARep KSkip (at_ (0 + 1 / 10))]).
  pose (e2 := mkYE i2 3%Q [AInc (along (1 / 2)); ADraw (at_ 0) (along (0 + 1 / 2)); ARep KOdo (at_ (0 + 1 / 2))]).
  assert (S1 : ystep pmerge pdflt ztrans pray zraw zbtw ztp zdbl zenv y0 e1 y1).
  { apply (ystep_intro _ _ _ _ _ _ _ _ zenv y0 i1 2%Q a1 _ (m_new pdflt) [] U1).
    apply draw_none. intros id H. cbn in H. intuition discriminate. }
  assert (S2 : ystep pmerge pdflt ztrans pray zraw zbtw ztp zdbl zenv y1 e2 y2).
  { apply (ystep_intro _ _ _ _ _ _ _ _ zenv y1 i2 3%Q a2 _ (m_new pdflt) [] U2).
    apply draw_none. intros id H. cbn in H. intuition discriminate. }
  exists e2, e1, (mkYE (iin 0 None 0) 1 [ADraw (at_ 0) t2id; ARep KFirst (at_ 0)]), y2.
  assert (MN : forall a d, a_win a = Some (Ok iw0) ->
    incMatch icov isearch nosolve pmerge pdflt padd pcompute ztrans pray zbtw ztp (fun _ _ => sdzero) a (iin d None 7) = None).
  { intros a d W. unfold incMatch. rewrite W. cbn [iin i_scan]. rewrite il_ok. cbv zeta. rewrite ilost. reflexivity. }
  split; [|split; [|split; [|split; [|split; [|split; [|split]]]]]].
  - assert (G0 : nfollowed [mkYE (iin 0 None 0) 1 [ADraw (at_ 0) t2id; ARep KFirst (at_ 0)]] y0).
    { refine (followed_step _ _ _ _ _ _ _ _ _ _ _ _ _ _ [] (sys_new pdflt zenv) _ y0 (fun _ _ => sdzero) _ _ S0).
      - apply followed_new.
      - cbn [sys_new y_alg alg_new a_init]. discriminate. }
    assert (G1 : nfollowed [e1; mkYE (iin 0 None 0) 1 [ADraw (at_ 0) t2id; ARep KFirst (at_ 0)]] y1).
    { refine (followed_step _ _ _ _ _ _ _ _ _ _ _ _ _ _ _ y0 _ y1 (fun _ _ => sdzero) G0 _ S1).
      intros _. cbn [v_in e1]. change (y_alg y0) with ia0. unfold i1. rewrite MN by exact W0. reflexivity. }
    refine (followed_step _ _ _ _ _ _ _ _ _ _ _ _ _ _ _ y1 _ y2 (fun _ _ => sdzero) G1 _ S2).
    intros _. cbn [v_in e2]. change (y_alg y1) with a1. unfold i2. rewrite MN by exact W0. reflexivity.
  - repeat constructor; apply along_rigid.
  - intros e t I H. destruct I as [<-|[<-|[<-|[]]]]; discriminate H.
  - reflexivity.
  - eexists. reflexivity.
  - reflexivity.
  - reflexivity.
  - intros b H. cbn in H. intuition discriminate.
Qed.
