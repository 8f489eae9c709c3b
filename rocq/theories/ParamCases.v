(** A concrete configured program: the robot of CloseCases.v, which closes a loop. *)
From Coq Require Import Reals Qreals List ZArith QArith Bool Ascii String Lra Lia Arith.
From Verif Require Import Base LinAlg3 GeoModel GeoSpec GeoProofs RegModel CorrModel MatchModel MatchSpec.
From Verif Require Import GraphModel LoopModel SlamModel AlgModel AlgSpec AlgProofs AlgCases NodeModel NodeSpec.
From Verif Require Import VoxelModel GridModel GridSpec ScanInit MapModel ExportModel SysModel SysSpec SysCases.
From Verif Require Import RunModel RunSpec RunCases CloseModel CloseCases ParamModel ParamSpec ParamProofs.
Import ListNotations.
Open Scope list_scope.
Open Scope nat_scope.

(** A small window, a node every 1.5 m, loops after 1 m, no graph. *)
Definition qstore : store := fun k =>
  if (k =? "scanmatch_window_radius")%string then Some (PInt 1)
  else if (k =? "node_gen_distance")%string then Some (PDbl (15 / 10))
  else if (k =? "loop_min_distance")%string then Some (PInt 1)
  else if (k =? "serialize_graph")%string then Some (PBool false)
  else if (k =? "odom_frame_id")%string then Some (PStr "wheels")
  else if (k =? "map_farme_id")%string then Some (PStr "world")
  else if (k =? "subscribe_mode")%string then Some (PStr "ODOM")
  else None.
Definition qflt (r : R) : Q :=
  if Req_EM_T r 1 then 1 else if Req_EM_T r (15 / 10) then 15 # 10 else
  if Req_EM_T r 30 then 30 else if Req_EM_T r (6 / 10) then 6 # 10 else 0.
Lemma qflt_1 : qflt 1 = 1%Q. Proof. unfold qflt. destruct (Req_EM_T 1 1); [reflexivity|exfalso; lra]. Qed.
Lemma qflt_gen : qflt (15 / 10) = 15 # 10.
Proof. unfold qflt. destruct (Req_EM_T (15 / 10) 1); [exfalso; lra|]. destruct (Req_EM_T (15 / 10) (15 / 10)); [reflexivity|exfalso; lra]. Qed.
Lemma qflt_max : qflt 30 = 30%Q.
Proof.
  unfold qflt. destruct (Req_EM_T 30 1); [exfalso; lra|]. destruct (Req_EM_T 30 (15 / 10)); [exfalso; lra|].
  destruct (Req_EM_T 30 30); [reflexivity|exfalso; lra].
Qed.
Lemma qflt_thr : qflt (6 / 10) = 6 # 10.
Proof.
  unfold qflt. destruct (Req_EM_T (6 / 10) 1); [exfalso; lra|]. destruct (Req_EM_T (6 / 10) (15 / 10)); [exfalso; lra|].
  destruct (Req_EM_T (6 / 10) 30); [exfalso; lra|]. destruct (Req_EM_T (6 / 10) (6 / 10)); [reflexivity|exfalso; lra].
Qed.
Definition qfound : option pval := Some (PStr "robot1").
Definition qconfig : config :=
  mkConfig "robot1/base_link" "robot1/odom" "robot1/world" "ODOM" "/scan" 1 (15 # 10) 30 1 (Q2R (6 # 10)) false.
Lemma qinit : initParameters qflt qstore qfound = Ok qconfig.
Proof.
  assert (L : (0 < Q2R (6 # 10) < 1)%R) by (unfold Q2R; cbn; lra).
  assert (E : setRejectionLimit (Q2R (6 # 10)) = Ok (Q2R (6 # 10))) by (apply limit_ok; auto).
  unfold initParameters. change (paramD qstore "loop_score_threshold" (6 / 10)) with (6 / 10)%R.
  change (paramD qstore "scanmatch_window_radius" 40) with 1%R.
  change (paramD qstore "node_gen_distance" 2) with (15 / 10)%R.
  change (paramD qstore "loop_max_distance" 30) with 30%R.
  change (paramD qstore "loop_min_distance" 14) with 1%R.
  rewrite qflt_thr, qflt_1, qflt_gen, qflt_max, E. reflexivity.
Qed.

Notation qruns := (runs kd2d kcorr (Some false) pmerge pdflt padd pcompute ztrans pray zraw zbtw ztp t2id zorigin zmove zdbl
                     (fun p => p) mid (Some false)).
Lemma qenv : envOf kd2d kcorr (Some false) pmerge pdflt padd pcompute ztrans pray zbtw ztp t2id zorigin zmove zdbl
    (fun p => p) mid qconfig = kenv.
Proof.
  unfold envOf, qconfig. cbn [c_radius c_limit c_min c_max c_gen].
  replace (Q2R (6 # 10)) with (6 / 10)%R by (unfold Q2R; cbn; lra).
  replace (Q2R (15 # 10)) with (15 / 10)%R by (unfold Q2R; cbn; lra).
  replace (Q2R 1) with 1%R by (unfold Q2R; cbn; lra).
  replace (Q2R 30) with 30%R by (unfold Q2R; cbn; lra). reflexivity.
Qed.
Definition qmsg (t : Z) (x : R) : nmsg (option point) := NodeModel.mkMsg t (Some (vecToMat3d (at_ x))) (Some kscan) None.
Lemma qprepare t x : prepareAllData (qmsg t x) = Some (at_ x, kscan).
Proof.
  unfold prepareAllData, qmsg. cbn [ms_tf ms_scan]. rewrite zpose_of.
  assert (L : (Z.of_nat (List.length kscan) <? 400)%Z = false) by (vm_compute; reflexivity).
  rewrite L. auto.
Qed.
Definition qwin : ngrid (list point) := Eval vm_compute in
  get (wNew pmerge pdflt padd pcompute ztrans pray zbtw ztp 1 kscan) (newFrame pdflt).
Lemma qwin_ok : wNew pmerge pdflt padd pcompute ztrans pray zbtw ztp 1 kscan = Ok qwin.
Proof. vm_compute. reflexivity. Qed.
Definition qcloud : list point := Eval vm_compute in get (getMeansTransformed zbtw ztp qwin) [].
Lemma qcloud_ok : getMeansTransformed zbtw ztp qwin = Ok qcloud.
Proof. vm_compute. reflexivity. Qed.

Lemma qrun_ok : exists t r, qruns qconfig t kh r /\ map fst t = [qmsg 3 14; qmsg 2 12; qmsg 1 10] /\
  a_win (y_alg (r_sys r)) = Some (Ok qwin) /\
  exists e, getEdge (s_graph (a_slam (y_alg (r_sys r)))) 1 = Ok e /\ e_from e = 1 /\ e_to e = 0 /\ e_loop e = true.
Proof.
  unfold runs. rewrite qenv. cbn [c_graph qconfig].
  destruct ksteps as (a1 & a2 & S0 & S1 & S2 & (W1 & W2) & _ & _ & _ & _ & (e & GE & EF & ET & _ & EL)).
  rewrite qwin_ok in W1, W2.
  assert (T : forall a m o s q, a_win a = Some (Ok qwin) -> exists l, topics pdflt zbtw ztp (Some false) false (mkSys a m o s q) = Ok l).
  { intros a m o s q W. unfold topics, graphOut, getNDTMap, getPclMap2. cbn [y_alg y_time y_seq bind y_map]. rewrite W.
    cbn [bind]. rewrite qcloud_ok. cbn [bind]. eexists. reflexivity. }
  destruct (T a1 km1 [(0, 2%Q)] 0 1%Q W1) as (l1 & T1). destruct (T a2 km3 [(0, 2%Q); (1, 3%Q)] 0 1%Q W2) as (l2 & T2).
  assert (M : forall x, along 2 = t2mul (t2inv (getTransFromPose (at_ x))) (getTransFromPose (at_ (x + 2)))).
  { intro x. rewrite !along_pose, along_inv, along_mul. f_equal. ring. }
  pose proof (M 10%R) as M1. pose proof (M 12%R) as M2.
  replace (10 + 2)%R with 12%R in M1 by ring. replace (12 + 2)%R with 14%R in M2 by ring.
  pose proof (rstep_first pmerge pdflt ztrans pray zraw zbtw ztp zdbl (Some false) false kenv (run_new pdflt kenv)
    (qmsg 1 10) (at_ 10) kscan (kin 0 0) _ ky0 (qprepare 1 10) eq_refl (eq_sym along_zero) eq_refl S0) as R1.
  pose proof (rstep_next pmerge pdflt ztrans pray zraw zbtw ztp zdbl (Some false) false kenv
    (mkRun ky0 true (at_ 10) None) (qmsg 2 12) (at_ 12) kscan (kin 2 7) _ _ (at_ 2) l1
    (qprepare 2 12) eq_refl M1 eq_refl S1 eq_refl T1) as R2.
  pose proof (rstep_next pmerge pdflt ztrans pray zraw zbtw ztp zdbl (Some false) false kenv
    (mkRun (mkSys a1 km1 [(0, 2%Q)] 0 1%Q) true (at_ 12) (Some (tfTrans (at_ 12) (at_ 2)))) (qmsg 3 14) (at_ 14) kscan (kin 2 8) _ _ (at_ 2) l2
    (qprepare 3 14) eq_refl M2 eq_refl S2 eq_refl T2) as R3.
  pose proof (RunModel.rreach_step _ _ _ _ _ _ _ _ _ _ _ _ _ _ _ _ _ _ (RunModel.rreach_new pmerge pdflt ztrans pray zraw zbtw ztp zdbl (Some false) false kenv) R1) as Q1.
  pose proof (RunModel.rreach_step _ _ _ _ _ _ _ _ _ _ _ _ _ _ _ _ _ _ Q1 R2) as Q2.
  pose proof (RunModel.rreach_step _ _ _ _ _ _ _ _ _ _ _ _ _ _ _ _ _ _ Q2 R3) as Q3.
  eexists _, _. split; [exact Q3|]. split; [reflexivity|]. split; [exact W2|]. exists e. auto.
Qed.
