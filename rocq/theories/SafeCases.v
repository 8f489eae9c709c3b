(** A run in general position, and two scans that stop the program: the robot of
    SysCases.v. *)
From Coq Require Import Reals Qreals Lra List ZArith QArith Qabs Bool Lia Arith.
From Verif Require Import Base LinAlg3 GeoModel GeoSpec GeoProofs.
From Verif Require Import GraphModel LoopModel SlamModel AlgModel AlgSpec AlgProofs AlgCases NodeModel NodeSpec NodeProofs.
From Verif Require Import VoxelModel VoxelSpec VoxelProofs GridModel GridSpec GridProofs ScanSpec ScanInit GridCases MapModel MapSpec ExportModel SysModel SysSpec SysProofs SysFacts.
From Verif Require Import SysCases RunModel RunSpec RunProofs RunCases SafeSpec SafeGrid SafeProofs.
Import ListNotations.
Open Scope nat_scope.

Notation zquiet := (quiet pmerge pdflt padd pcompute ztrans pray zraw zbtw ztp t2id zorigin zmove zdbl (Some false) true zenv).
Notation zcalm := (calm pmerge pdflt padd pcompute ztrans pray zbtw ztp t2id zorigin zmove zdbl).
Notation zstroke := (stroke_apart pdflt padd pcompute zbtw ztp zmove zdbl).
Notation zstep := (rstep pmerge pdflt ztrans pray zraw zbtw ztp zdbl (Some false) true zenv).

Definition near_b (p s : point) : bool := Qeq_bool (fst p) (fst s) && Qeq_bool (snd p) (snd s).
Lemma near_b_ok p s : near_b p s = false -> ~ peq p s.
Proof.
  unfold near_b, peq. intros H [A B]. apply Qeq_bool_iff in A, B. rewrite A, B in H. discriminate.
Qed.
Definition apart_b cs s (l : list zcell) : bool :=
  forallb (fun v => negb (nc_gauss v) || (off_b cs (nc_mean v) && negb (near_b (nc_mean v) s))) l.
Lemma apart_b_ok cs s l : (0 < cs)%Q -> apart_b cs s l = true -> apart cs s l.
Proof.
  intros H F v I G. unfold apart_b in F. rewrite forallb_forall in F. specialize (F v I). cbn beta in F. rewrite G in F.
  cbn [negb orb] in F. apply andb_true_iff in F. destruct F as [F1 F2]. split; [apply off_b_ok; assumption|].
  apply near_b_ok. apply negb_true_iff. exact F2.
Qed.
Definition scan_b cs s (l : list (option point)) : bool :=
  scan_off_b cs l &&
  forallb (fun o => match o with
                    | Some p => match scan_cell pdflt padd pcompute cs l (cell_of cs p) with
                                | Some x => negb (near_b (nc_mean x) s)
                                | None => true
                                end
                    | None => true
                    end) l.
Lemma scan_b_ok cs s l : (0 < cs)%Q -> scan_b cs s l = true -> scan_apart pdflt padd pcompute cs s l.
Proof.
  intros H F. unfold scan_b in F. apply andb_true_iff in F. destruct F as [F1 F2]. split.
  - apply scan_off_ok; assumption.
  - intros c x E. destruct (scan_cell_point _ _ _ _ _ _ _ pmeans H E) as (p & I & ->).
    rewrite forallb_forall in F2. specialize (F2 _ I). cbn beta iota in F2. rewrite E in F2.
    apply near_b_ok. apply negb_true_iff. exact F2.
Qed.

Lemma zin_frame z x : in_frame zbtw ztp zmove zdbl (at_ (IZR z), along (IZR x), zscan) =
    map (option_map (fun p => ztp (zbtw (mkPose (inject_Z z) 0 0) (mkPose (inject_Z z) 0 0))
                                     (fst p + inject_Z x, snd p + 0)%Q)) zscan.
Proof.
  unfold in_frame. rewrite zpose0. apply map_ext. intros [p|]; [|reflexivity]. cbn [option_map]. unfold zmove.
  cbn [along tx ty]. rewrite !zdbl_int. reflexivity.
Qed.
Lemma zstroke_of z : zstroke (at_ (IZR z), t2id, zscan) <->
  scan_apart pdflt padd pcompute (1#4) (ztp (zbtw (mkPose (inject_Z z) 0 0) (mkPose (inject_Z z) 0 0)) (0, 0)%Q)
    (map (option_map (fun p => ztp (zbtw (mkPose (inject_Z z) 0 0) (mkPose (inject_Z z) 0 0)) (fst p + inject_Z 0, snd p + 0)%Q)) zscan).
Proof.
  unfold stroke_apart, sensor_of. rewrite along_zero. cbn [fst]. rewrite (zin_frame z 0), zpose0. reflexivity.
Qed.
Lemma zstroke0 : zstroke (at_ 0, t2id, zscan).
Proof. apply (zstroke_of 0). apply scan_b_ok; [reflexivity|]. vm_compute. reflexivity. Qed.
Lemma zstroke2 : zstroke (at_ 2, t2id, zscan).
Proof. apply (zstroke_of 2). apply scan_b_ok; [reflexivity|]. vm_compute. reflexivity. Qed.
Lemma zframe0 : frame_apart ztrans zbtw ztp (n_setOrigin zb0 (mkPose 0 0 0)).
Proof.
  split; [apply off_b_ok; [reflexivity|]; vm_compute; reflexivity|].
  apply apart_b_ok; [reflexivity|]. vm_compute. reflexivity.
Qed.
Notation zlone := (n_initialize pmerge pdflt padd pcompute ztrans pray zbtw ztp (n_setOrigin (newFrame pdflt) (n_pose zw0)) zscan).
Definition zl0 : zgrid := Eval vm_compute in get zlone (newFrame pdflt).
Lemma zl0_ok : zlone = Ok zl0.
Proof. vm_compute. reflexivity. Qed.
Definition zl1 : zgrid := Eval vm_compute in get (n_transform pmerge ztrans t2id zorigin zl0 (mkTr t2id 2 0)) (newFrame pdflt).
Lemma zl1_ok l : n_transform pmerge ztrans t2id zorigin zl0 (mkTr l (inject_Z 2) 0) = Ok zl1.
Proof. vm_compute. reflexivity. Qed.
Lemma zmatch0 : match_apart pmerge pdflt padd pcompute ztrans pray zbtw ztp t2id zorigin zdbl zw0 zscan (along 2).
Proof.
  unfold match_apart. cbv zeta. split; [|split; [|split]].
  - apply scan_b_ok; [reflexivity|]. vm_compute. reflexivity.
  - intros l E. rewrite zl0_ok in E. injection E as <-. split.
    + intros v I _. apply off_b_ok; [reflexivity|].
      assert (F : forall t, forallb (fun v => off_b (1#4) (nc_mean v)) (map (ztrans (mkTr t 0 0)) (getValidCells (n_vox zl0))) = true)
        by (intro t; vm_compute; reflexivity).
      specialize (F (along 2)). rewrite forallb_forall in F. apply F. exact I.
    + intros l' E. rewrite (toQ_along 2), zl1_ok in E. injection E as <-. split.
      * apply off_b_ok; [reflexivity|]. vm_compute. reflexivity.
      * apply apart_b_ok; [reflexivity|]. vm_compute. reflexivity.
  - cbn [along tx]. rewrite (zdbl_int 2). reflexivity.
  - cbn [along ty]. rewrite (zdbl_int 0). reflexivity.
Qed.

Definition zy0 : sys (list point) := mkSys za0 (m_new pdflt) [] 0 1.
Definition zr0 : run (list point) := mkRun zy0 true (at_ 10) None.
Lemma za0_frame : a_frame za0 = mkFrame (at_ 0) (Ok zb0).
Proof.
  unfold za0, firstScan. cbn [a_frame sysEnv b_init alg_new b_new f_body zin i_scan]. rewrite bInit_gen, zb0_ok. reflexivity.
Qed.
Lemma za0_win : a_win za0 = Some (Ok zw0).
Proof. unfold za0, firstScan. cbn [a_win sysEnv w_new zin i_scan]. rewrite zw0_ok. reflexivity. Qed.
Definition zt0 : list (nmsg (option point) * list (rout (list point))) := [(zmsg 1 10, [RTf 1 None])].
Definition zh0 : list (yev Z) := [mkYE (zin 0 None 0) 1 [ADraw (at_ 0) t2id; ARep KFirst (at_ 0)]].
Lemma zquiet0 : zquiet zt0 zh0 zr0.
Proof.
  assert (S0 : ystep pmerge pdflt ztrans pray zraw zbtw ztp zdbl zenv (sys_new pdflt zenv)
                 (mkYE (zin 0 None 0) 1 [ADraw (at_ 0) t2id; ARep KFirst (at_ 0)]) zy0).
  { eapply (ystep_intro _ _ _ _ _ _ _ _ zenv (sys_new pdflt zenv) (zin 0 None 0) 1%Q za0); [exact z_first|].
    apply draw_none. intros id [H|[H|[]]]; discriminate. }
  pose proof (rstep_first pmerge pdflt ztrans pray zraw zbtw ztp zdbl (Some false) true zenv (run_new pdflt zenv)
    (zmsg 1 10) (at_ 10) zscan (zin 0 None 0) _ zy0 (proj1 (zprepare 1 10)) eq_refl (eq_sym along_zero) eq_refl S0) as R1.
  refine (quiet_step _ _ _ _ _ _ _ _ _ _ _ _ _ _ _ _ [] [] _ _ _ _ _ (quiet_new _ _ _ _ _ _ _ _ _ _ _ _ _ _ _ _) R1 _).
  intros e [<-|[]]. split.
  - intros s [<-|[]]. exact zstroke0.
  - intros w reg p g I. cbn in I. intuition discriminate.
  - intros id f I. cbn in I. intuition discriminate.
  - intros k f g I. cbn in I. intuition discriminate.
Qed.
Lemma zcall2 : call_of zr0 (zmsg 2 12) (zin 2 (Some 2%R) 7).
Proof.
  exists (at_ 12), zscan. split; [rewrite <- prepare_accepted, (proj1 (zprepare 2 12)); reflexivity|].
  split; [reflexivity|]. split; [reflexivity|]. cbn [zr0 r_ready r_odom zin i_motion].
  rewrite !along_pose, along_inv, along_mul. f_equal. ring.
Qed.
Lemma zfresh2 : fresh_input (y_alg (r_sys zr0)) (zin 2 (Some 2%R) 7).
Proof.
  split; [reflexivity|]. split.
  - intro k. split; [reflexivity|]. cbn [zin i_fresh i_addr]. lia.
  - intros j k H. cbn [zin i_fresh] in H. lia.
Qed.
Lemma zupdate2 : exists a1, update zenv za0 (zin 2 (Some 2%R) 7) =
  Ok (a1, [AInc (along 2); ANode 0; ALoop false; ADraw (at_ 2) t2id; ARep (KMatch (at_ 0) (along 2)) (at_ 2)]).
Proof.
  destruct (z_step2 zenv za0 (zin 2 (Some 2%R) 7) (Ok zw0) (Ok zw1) (along 0)) as (c1 & U1);
    try reflexivity; try exact za0_win.
  { exact worigin0. }
  { exact zw1_win. }
  eexists. exact U1.
Qed.
Lemma zcalm2 a' evs ts : update zenv (y_alg (r_sys zr0)) (zin 2 (Some 2%R) 7) = Ok (a', evs) ->
  zcalm (r_sys zr0) a' (mkYE (zin 2 (Some 2%R) 7) ts evs).
Proof.
  destruct zupdate2 as (a1 & U). intro E. cbn [zr0 zy0 r_sys y_alg] in E. rewrite U in E. injection E as <- <-. split.
  - intros s [<-|[]]. exact zstroke2.
  - intros w reg p g I E. cbn [zr0 zy0 r_sys y_alg] in E. rewrite za0_win in E. injection E as <-.
    destruct I as [I|[I|[I|[I|[I|[]]]]]]; try discriminate. injection I as _ <- _. exact zmatch0.
  - intros id f _ E. cbn [zr0 zy0 r_sys y_alg] in E. unfold gridOf in E. rewrite za0_frame in E.
    cbn [f_body f_origin bind] in E. rewrite (zpose0 0) in E. injection E as <-. exact zframe0.
  - intros k f g I. cbn in I. intuition discriminate.
Qed.

(** *** scans that stop the program *)
Section Stuck.
Variable s : list (option point).
Hypothesis LS : (Z.of_nat (length s) <? 400)%Z = false.
Hypothesis WS : wNew pmerge pdflt padd pcompute ztrans pray zbtw ztp 1 s = UB.
Definition smsg (t : Z) (x : R) : nmsg (option point) := NodeModel.mkMsg t (Some (vecToMat3d (at_ x))) (Some s) None.
Definition sin : ainput (option point) Z := mkIn t2id s None 0 (mkLChoice 0%Z (fun _ _ => 0)) (fun k => 1000 + k) zest.
Lemma stuck_win h y e y' : yreach pmerge pdflt ztrans pray zraw zbtw ztp zdbl zenv h y ->
  ystep pmerge pdflt ztrans pray zraw zbtw ztp zdbl zenv y e y' ->
  a_init (y_alg y) = true -> a_win (y_alg y) = Some UB -> a_win (y_alg y') = Some UB.
Proof.
  intros R S AI0 AW. pose proof (yreach_AI _ _ _ _ _ _ _ _ _ _ _ _ _ _ _ _ _ _ h y R) as A.
  destruct S as [i ts a' evs m o U _]. cbn [y_alg]. unfold update in U. rewrite AI0, AW in U.
  assert (KEEP : forall b a1 ev1 inc cov, AC zenv b (events h) -> a_win b = Some UB ->
    updateGraph zenv b i inc cov = Ok (a1, ev1) -> a_win a1 = Some UB).
  { intros b a1 ev1 inc cov C' W' UG.
    destruct (updateGraph_ok _ _ _ _ _ _ _ _ C' UG) as (_ & _ & _ & _ & W & _). rewrite W. exact W'. }
  destruct A as [C _ _ _].
  assert (C1 : AC zenv (setUnused (y_alg y) t2id) (events h)) by (destruct C; split; assumption).
  destruct (movedEnough _).
  - destruct (i_match i) as [reg|].
    + apply bind_ok_inv in U. destruct U as ([a1 ev1] & UG & U). cbn [fst snd] in U.
      cbn [w_move w_merge sysEnv] in U. unfold wMove, wMerge in U. cbn [bind fst snd] in U.
      injection U as <- _. reflexivity.
    + apply bind_ok_inv in U. destruct U as ([a1 ev1] & UG & U). cbn [fst snd] in U. injection U as <- _.
      eapply KEEP; [exact C1|exact AW|exact UG].
  - injection U as <- _. exact AW.
Qed.
Lemma stuck t0 x0 : exists h r, zrun [(smsg t0 x0, [RTf t0 None])] h r /\ ~ whole (r_sys r) /\
  forall m r' o c, accepted m <> None -> ~ zstep r m r' o c.
Proof using LS WS.
  assert (P : prepareAllData (smsg t0 x0) = Some (at_ x0, s)).
  { unfold prepareAllData, smsg. cbn [ms_tf ms_scan]. rewrite zpose_of, LS. reflexivity. }
  set (a0 := firstScan zenv (alg_new zenv) sin).
  assert (U : update zenv (alg_new zenv) sin = Ok (a0, [ADraw (at_ 0) t2id; ARep KFirst (at_ 0)])).
  { unfold update. cbn [alg_new a_init]. rewrite pose_id. reflexivity. }
  assert (W0 : a_win a0 = Some UB).
  { unfold a0, firstScan. cbn [a_win sysEnv w_new sin i_scan]. rewrite WS. reflexivity. }
  pose (y0 := mkSys a0 (m_new pdflt) [] 0 (inject_Z t0)).
  assert (S0 : ystep pmerge pdflt ztrans pray zraw zbtw ztp zdbl zenv (sys_new pdflt zenv)
                 (mkYE sin (inject_Z t0) [ADraw (at_ 0) t2id; ARep KFirst (at_ 0)]) y0).
  { eapply (ystep_intro _ _ _ _ _ _ _ _ zenv (sys_new pdflt zenv) sin (inject_Z t0) a0); [exact U|].
    apply draw_none. intros id [H|[H|[]]]; discriminate. }
  pose proof (rstep_first pmerge pdflt ztrans pray zraw zbtw ztp zdbl (Some false) true zenv (run_new pdflt zenv)
    (smsg t0 x0) (at_ x0) s sin _ y0 P eq_refl eq_refl eq_refl S0) as R1.
  pose proof (RunModel.rreach_step _ _ _ _ _ _ _ _ _ _ _ _ _ _ _ _ _ _ (RunModel.rreach_new pmerge pdflt ztrans pray zraw zbtw ztp zdbl (Some false) true zenv) R1) as Q1.
  eexists _, _. split; [exact Q1|]. split.
  - intros (_ & _ & H). cbn [r_sys y0 y_alg] in H. destruct (H _ W0) as (g & E). discriminate.
  - intros m r' o c AC0 ST. apply run_calls in Q1. destruct Q1 as [Q1 _].
    inversion ST; subst.
    + apply AC0. rewrite <- prepare_accepted. match goal with H : prepareAllData m = None |- _ => rewrite H end. reflexivity.
    + match goal with H : r_ready _ = false |- _ => cbn [r_ready] in H; discriminate end.
    + match goal with H : SysModel.ystep _ _ _ _ _ _ _ _ _ _ _ ?y |- _ => rename H into SY end.
      match goal with H : topics _ _ _ _ _ _ = Ok _ |- _ => rename H into TP end.
      cbn [r_sys] in Q1, SY. pose proof (stuck_win _ _ _ _ Q1 SY eq_refl W0) as W.
      unfold topics, getNDTMap, getPclMap2 in TP. rewrite W in TP. discriminate.
Qed.
End Stuck.
(** six beams that end at (1, -3.125), a border between two squares *)
Definition zborder : list (option point) := repeat (Some (1, -25#8)%Q) 6 ++ repeat None 394.
(** six beams whose ends surround the robot *)
Definition zaround : list (option point) :=
  [Some (1#20, 0); Some (-1#20, 0); Some (0, 1#20); Some (0, -1#20); Some (1#10, 0); Some (-1#10, 0)]%Q ++ repeat None 394.
Lemma zborder_stuck : wNew pmerge pdflt padd pcompute ztrans pray zbtw ztp 1 zborder = UB.
Proof. vm_compute. reflexivity. Qed.
Lemma zaround_stuck : wNew pmerge pdflt padd pcompute ztrans pray zbtw ztp 1 zaround = UB.
Proof. vm_compute. reflexivity. Qed.
