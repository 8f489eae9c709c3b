(** A concrete run of the whole program: the robot of SysCases.v. *)
From Coq Require Import Reals Qreals Lra List ZArith QArith Bool Lia Arith.
From Verif Require Import Base LinAlg3 GeoModel GeoSpec GeoProofs.
From Verif Require Import GraphModel LoopModel SlamModel AlgModel AlgSpec AlgProofs AlgCases NodeModel NodeSpec.
From Verif Require Import VoxelModel GridModel GridSpec GridProofs ScanSpec ScanInit MapModel MapSpec ExportModel SysModel SysSpec.
From Verif Require Import SysCases RunModel RunSpec.
Import ListNotations.
Open Scope nat_scope.

Notation zrun := (rreach pmerge pdflt ztrans pray zraw zbtw ztp zdbl (Some false) true zenv).
Definition zmsg (t : Z) (x : R) : nmsg (option point) := NodeModel.mkMsg t (Some (vecToMat3d (at_ x))) (Some zscan) None.
(** a scan with too few points *)
Definition zshort (t : Z) (x : R) : nmsg (option point) :=
  NodeModel.mkMsg t (Some (vecToMat3d (at_ x))) (Some (firstn 7 zscan)) None.
Lemma zpose_of x : getPoseFromTransform (convertToTransform (vecToMat3d (at_ x))) = at_ x.
Proof.
  change (convertToTransform (vecToMat3d (at_ x))) with (getTransFromPose (at_ x)). rewrite along_pose. apply pose_along.
Qed.
Lemma zprepare t x : prepareAllData (zmsg t x) = Some (at_ x, zscan) /\ prepareAllData (zshort t x) = None.
Proof.
  unfold prepareAllData, zmsg, zshort. cbn [ms_tf ms_scan]. rewrite zpose_of.
  assert (L : (Z.of_nat (length zscan) <? 400)%Z = false) by (vm_compute; reflexivity).
  assert (L7 : (Z.of_nat (length (firstn 7 zscan)) <? 400)%Z = true) by (vm_compute; reflexivity).
  rewrite L, L7. auto.
Qed.
Definition red (p : point) : point := (Qred (fst p), Qred (snd p)).

(** win_ndt, map_pcl and win_pcl after the second accepted message *)
Definition zgmsg : grid_msg := Eval vm_compute in n_serialize zbtw ztp zw1.
Lemma zgmsg_ok : n_serialize zbtw ztp zw1 = zgmsg.
Proof. vm_compute. reflexivity. Qed.
Definition zwcloud : list point := Eval vm_compute in get (getMeansTransformed zbtw ztp zw1) [].
Lemma zwcloud_ok : getMeansTransformed zbtw ztp zw1 = Ok zwcloud.
Proof. vm_compute. reflexivity. Qed.

Definition zout : list (rout (list point)) :=
  [RTf 2 (Some (tfTrans (at_ 12) (at_ 2))); RWin (2%Q, 1, zgmsg); RMap (calcOccupancyGridMsg zm1);
   RWinPcl zwcloud; RPcl (getPclMap zm1); RGraph []].
Definition ztrace : list (nmsg (option point) * list (rout (list point))) :=
  [(zmsg 2 12, zout); (zshort 1 11, [RTf 1 None]); (zmsg 1 10, [RTf 1 None])].

Definition zcalls : list (yev Z) :=
  [mkYE (zin 2 (Some 2%R) 7) 2 [AInc (along 2); ANode 0; ALoop false; ADraw (at_ 2) t2id; ARep (KMatch (at_ 0) (along 2)) (at_ 2)];
   mkYE (zin 0 None 0) 1 [ADraw (at_ 0) t2id; ARep KFirst (at_ 0)]].

Lemma zrun_ok : exists r, zrun ztrace zcalls r /\ r_tf r = Some (tfTrans (at_ 12) (at_ 2)) /\
  getPoseLocation (a_slam (y_alg (r_sys r))) 0 = Ok (at_ 0).
Proof.
  assert (F0 : a_frame za0 = mkFrame (at_ 0) (Ok zb0)).
  { unfold za0, firstScan. cbn [a_frame sysEnv b_init alg_new b_new f_body zin i_scan].
    rewrite bInit_gen, zb0_ok. reflexivity. }
  assert (W0 : a_win za0 = Some (Ok zw0)).
  { unfold za0, firstScan. cbn [a_win sysEnv w_new zin i_scan]. rewrite zw0_ok. reflexivity. }
  destruct (z_step2 zenv za0 (zin 2 (Some 2%R) 7) (Ok zw0) (Ok zw1) (along 0)) as (c1 & U1);
    try reflexivity; try exact W0.
  { exact worigin0. }
  { exact zw1_win. }
  set (a1 := mkAlg _ _ _ _ _ _ _ _ _ _ _ _ _ _ _ _) in U1.
  pose (e2 := [AInc (along 2); ANode 0; ALoop false; ADraw (at_ 2) t2id; ARep (KMatch (at_ 0) (along 2)) (at_ 2)]).
  pose (y0 := mkSys za0 (m_new pdflt) [] 0 1).
  pose (y1 := mkSys a1 zm1 [(0, 2%Q)] 1 2).
  assert (S0 : ystep pmerge pdflt ztrans pray zraw zbtw ztp zdbl zenv (sys_new pdflt zenv)
                 (mkYE (zin 0 None 0) 1 [ADraw (at_ 0) t2id; ARep KFirst (at_ 0)]) y0).
  { eapply (ystep_intro _ _ _ _ _ _ _ _ zenv (sys_new pdflt zenv) (zin 0 None 0) 1%Q za0); [exact z_first|].
    apply draw_none. intros id [H|[H|[]]]; discriminate. }
  assert (S1 : ystep pmerge pdflt ztrans pray zraw zbtw ztp zdbl zenv y0 (mkYE (zin 2 (Some 2%R) 7) 2 e2) y1).
  { apply (ystep_intro _ _ _ _ _ _ _ _ zenv y0 (zin 2 (Some 2%R) 7) 2%Q a1 e2 zm1 _ U1).
    apply (draw_add _ _ _ _ _ _ _ _ y0 a1 e2 2%Q 0 (n_setOrigin zb0 (mkPose 0 0 0)) zm1).
    - right; left; reflexivity.
    - intros H. cbn in H. intuition discriminate.
    - unfold y0. cbn [y_alg]. unfold gridOf. rewrite F0. cbn [f_body f_origin bind]. rewrite (zpose0 0). reflexivity.
    - exact zm1_ok. }
  assert (T1 : topics pdflt zbtw ztp (Some false) true y1 = Ok (tl zout)).
  { unfold topics, getNDTMap, getPclMap2, y1. cbn [y_alg y_time y_seq a_win a1 bind y_map].
    rewrite zgmsg_ok, zwcloud_ok. reflexivity. }
  pose proof (rstep_first pmerge pdflt ztrans pray zraw zbtw ztp zdbl (Some false) true zenv (run_new pdflt zenv)
    (zmsg 1 10) (at_ 10) zscan (zin 0 None 0) _ y0 (proj1 (zprepare 1 10)) eq_refl (eq_sym along_zero) eq_refl S0) as R1.
  pose proof (rstep_reject pmerge pdflt ztrans pray zraw zbtw ztp zdbl (Some false) true zenv
    (mkRun y0 true (at_ 10) None) (zshort 1 11) (proj2 (zprepare 1 11))) as R2.
  assert (M : along 2 = t2mul (t2inv (getTransFromPose (at_ 10))) (getTransFromPose (at_ 12))).
  { rewrite !along_pose, along_inv, along_mul. f_equal. ring. }
  pose proof (rstep_next pmerge pdflt ztrans pray zraw zbtw ztp zdbl (Some false) true zenv
    (mkRun y0 true (at_ 10) None) (zmsg 2 12) (at_ 12) zscan (zin 2 (Some 2%R) 7) e2 y1 (at_ 2) (tl zout)
    (proj1 (zprepare 2 12)) eq_refl M eq_refl S1 eq_refl T1) as R3.
  exists (mkRun y1 true (at_ 12) (Some (tfTrans (at_ 12) (at_ 2)))). split; [|split; reflexivity].
  pose proof (rreach_step _ _ _ _ _ _ _ _ _ _ _ _ _ _ _ _ _ _ (rreach_new pmerge pdflt ztrans pray zraw zbtw ztp zdbl (Some false) true zenv) R1) as Q1.
  pose proof (rreach_step _ _ _ _ _ _ _ _ _ _ _ _ _ _ _ _ _ _ Q1 R2) as Q2.
  exact (rreach_step _ _ _ _ _ _ _ _ _ _ _ _ _ _ _ _ _ _ Q2 R3).
Qed.
Lemma zout_shown : map red (getPclMap zm1) = [(3, 1)]%Q /\ map red zwcloud = [(3, 1); (5, 1)]%Q /\
  map red (map nc_mean (filter nc_gauss (gm_cells zgmsg))) = [(1, 1); (3, 1)]%Q.
Proof. vm_compute. auto. Qed.

(** A robot whose matcher finds nothing. *)
Lemma z_lost (env : aenv (res zgrid) (res zgrid) (option point) unit Z) a i w :
  gen_dist env = (15 / 10)%R ->
  a_init a = true -> a_win a = Some w -> a_unused a = t2id -> a_temp a = t2id -> a_pos a = t2id ->
  i_motion i = along 1 -> i_match i = None ->
  exists a', update env a i = Ok (a', [AInc (along 1); ADraw (f_origin (a_frame a)) (along 1); ARep KOdo (at_ 1)]) /\
    a_win a' = Some w /\ a_slam a' = a_slam a.
Proof.
  intros G E4 E5 E6 E7 E8 I3 I4.
  unfold update. rewrite E4, E5, E6, I3, I4, t2mul_id_l, enough_along by lra.
  unfold updateGraph. cbn [setUnused a_temp a_pos]. rewrite E7, E8, !t2mul_id_l.
  assert (L : leftWindow env (along 1) = false).
  { unfold leftWindow. rewrite disp_along, Rabs_Rabsolu, G, Rabs_pos_eq by lra. destruct (Rlt_dec _ _); [lra|auto]. }
  rewrite L. cbn [bind fst snd app a_pos]. rewrite pose_along. eexists. split; [reflexivity|]. split; [exact E5|reflexivity].
Qed.
Definition zlcalls : list (yev Z) :=
  [mkYE (zin 1 None 7) 2 [AInc (along 1); ADraw (at_ 0) (along 1); ARep KOdo (at_ 1)];
   mkYE (zin 0 None 0) 1 [ADraw (at_ 0) t2id; ARep KFirst (at_ 0)]].
Lemma zlost_ok : exists o r, zrun [(zmsg 2 11, o); (zmsg 1 10, [RTf 1 None])] zlcalls r /\
  hd_error o = Some (RTf 2 (Some (tfTrans (at_ 11) (at_ 1)))) /\
  no_loop (events zlcalls) /\ Forall (fun e => i_match (v_in e) = None /\ AlgSpec.moved (i_motion (v_in e))) (removelast zlcalls).
Proof.
  assert (W0 : a_win za0 = Some (Ok zw0)).
  { unfold za0, firstScan. cbn [a_win sysEnv w_new zin i_scan]. rewrite zw0_ok. reflexivity. }
  destruct (z_lost zenv za0 (zin 1 None 7) (Ok zw0)) as (a1 & U1 & W1 & SL); try reflexivity; try exact W0.
  pose (y0 := mkSys za0 (m_new pdflt) [] 0 1). pose (y1 := mkSys a1 (m_new pdflt) [] 0 1).
  assert (S0 : ystep pmerge pdflt ztrans pray zraw zbtw ztp zdbl zenv (sys_new pdflt zenv)
                 (mkYE (zin 0 None 0) 1 [ADraw (at_ 0) t2id; ARep KFirst (at_ 0)]) y0).
  { eapply (ystep_intro _ _ _ _ _ _ _ _ zenv (sys_new pdflt zenv) (zin 0 None 0) 1%Q za0); [exact z_first|].
    apply draw_none. intros id [H|[H|[]]]; discriminate. }
  assert (S1 : ystep pmerge pdflt ztrans pray zraw zbtw ztp zdbl zenv y0
                 (mkYE (zin 1 None 7) 2 [AInc (along 1); ADraw (at_ 0) (along 1); ARep KOdo (at_ 1)]) y1).
  { apply (ystep_intro _ _ _ _ _ _ _ _ zenv y0 (zin 1 None 7) 2%Q a1 _ (m_new pdflt) [] U1).
    apply draw_none. intros id H. cbn in H. intuition discriminate. }
  assert (T1 : exists l, topics pdflt zbtw ztp (Some false) true y1 = Ok l).
  { unfold topics, graphOut, getNDTMap, getPclMap2, y1. cbn [y_alg y_time y_seq bind y_map]. rewrite W1, SL.
    eexists. cbn [bind]. reflexivity. }
  destruct T1 as (l & T1).
  pose proof (rstep_first pmerge pdflt ztrans pray zraw zbtw ztp zdbl (Some false) true zenv (run_new pdflt zenv)
    (zmsg 1 10) (at_ 10) zscan (zin 0 None 0) _ y0 (proj1 (zprepare 1 10)) eq_refl (eq_sym along_zero) eq_refl S0) as R1.
  assert (M : along 1 = t2mul (t2inv (getTransFromPose (at_ 10))) (getTransFromPose (at_ 11))).
  { rewrite !along_pose, along_inv, along_mul. f_equal. ring. }
  pose proof (rstep_next pmerge pdflt ztrans pray zraw zbtw ztp zdbl (Some false) true zenv
    (mkRun y0 true (at_ 10) None) (zmsg 2 11) (at_ 11) zscan (zin 1 None 7) _ y1 (at_ 1) l
    (proj1 (zprepare 2 11)) eq_refl M eq_refl S1 eq_refl T1) as R3.
  pose proof (rreach_step _ _ _ _ _ _ _ _ _ _ _ _ _ _ _ _ _ _ (rreach_new pmerge pdflt ztrans pray zraw zbtw ztp zdbl (Some false) true zenv) R1) as Q1.
  eexists _, _. split; [exact (rreach_step _ _ _ _ _ _ _ _ _ _ _ _ _ _ _ _ _ _ Q1 R3)|]. split; [reflexivity|].
  split.
  - cbn. unfold no_loop. cbn. intuition discriminate.
  - constructor; [|constructor]. cbn [v_in zin i_match option_map i_motion]. split; [reflexivity|].
    apply moved_along. rewrite Rabs_pos_eq; lra.
Qed.
