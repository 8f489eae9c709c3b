(** A run in which the incremental matcher of the program answers. *)
From Coq Require Import Reals Qreals Lra List ZArith QArith Bool Lia Arith Sorting.Permutation Sorting.Sorted.
From Verif Require Import Base LinAlg3 GeoModel GeoSpec GeoProofs OptModel RegModel RegSpec RegStep RegFit RegD2D RegP2D RegNewton RegCases.
From Verif Require Import GraphModel GraphSpec LoopModel SlamModel AlgModel AlgSpec AlgProofs AlgCases.
From Verif Require Import VoxelModel VoxelSpec GridModel GridSpec GridProofs ScanSpec ScanInit GridCases MapModel MapSpec SysModel SysSpec SysMap SysCases.
From Verif Require Import RealModel RealSpec RealProofs RealCases IncModel IncProofs.
Import ListNotations.
Open Scope R_scope.

(** the neighbour of a point is the first distribution, all are round *)
Definition isearch (ms : list point) (p : P2) (k : nat) : list nat := [0%nat].
Definition icov (_ : ncell (list point)) : M3 := mid.
(** a solver that looks along the first axis only *)
Definition isolve (h : M3) (b : V3) : option V3 := Some (mkV (vx b) 0 0).

(** the score rises towards the left of every place to the right of the start *)
Definition leftward (ly : layer) : Prop := forall x, 0 < x -> vx (sd_grad (ly_score ly (mkV x 0 0))) < 0.

Lemma along_vec x : along x = vecToMat (mkV x 0 0).
Proof. rewrite <- along_pose. reflexivity. Qed.
Lemma vec_along x : matToVec (vecToMat (mkV x 0 0)) = mkV x 0 0.
Proof. rewrite <- along_vec. unfold matToVec, vecOfT. rewrite pose_along. reflexivity. Qed.

(** ** staying *)
Lemma stay_step eps step ly v : 0 < eps -> sd_grad (ly_score ly v) <> vzero ->
  exists a, newtonStep rsolve eps step ly v = Some (Some (v, a)).
Proof.
  intros HE N. unfold newtonStep. cbv zeta.
  destruct (rsolve_level (sd_hess (ly_score ly v)) (vscale (-1) (sd_grad (ly_score ly v)))) as (d & ED & ND & O).
  { intro H. apply N. destruct (sd_grad (ly_score ly v)) as [x y z]. unfold vscale, vzero in *. cbn in H. injection H as A B C. f_equal; lra. }
  rewrite ED. destruct (Req_EM_T (vnorm d) 0); [contradiction|].
  destruct (step_length (ly_search ly) v (vscale (/ vnorm d) d) (vnorm d) step (eps / 2) (ly_score ly v) ltac:(lra)) as [Z _].
  rewrite Z.
  2:{ replace (vdot (sd_grad (ly_score ly v)) (vscale (/ vnorm d) d)) with
        (- / vnorm d * vdot (vscale (-1) (sd_grad (ly_score ly v))) d) by (destruct d; mcomp; ring). rewrite O. ring. }
  cbn [fst snd]. replace (vadd v (vscale 0 (vscale (/ vnorm d) d))) with v by (generalize (/ vnorm d); intro; destruct v, d; apply V3_eq; mcomp; ring).
  eexists. reflexivity.
Qed.
Lemma stay_run ls : Forall leftward ls -> forall s, exists r,
  runLayers (p2dLoop rsolve (1 / 10) (1 / 100) 35 37) ls (vecToMat (mkV 2 0 0)) s = Some (Some r) /\
  rs_conv r = true /\ rs_final r = vecToMat (mkV 2 0 0).
Proof.
  induction 1 as [|ly ls L _ IH]; intro s; cbn [runLayers].
  - eexists. split; [reflexivity|]. split; reflexivity.
  - rewrite vec_along. change 37%nat with (2 + 35)%nat. rewrite two_rounds by (lra || lia).
    assert (N : sd_grad (ly_score ly (mkV 2 0 0)) <> vzero).
    { intro E. specialize (L 2 ltac:(lra)). rewrite E in L. cbn in L. lra. }
    destruct (stay_step (1 / 10) (1 / 100) ly (mkV 2 0 0) ltac:(lra) N) as (a & ->).
    destruct (stay_step (1 / 10) (1 / 100) ly (mkV 2 0 0) ltac:(lra) N) as (b & ->). apply IH.
Qed.
(** ** going *)
Lemma go_step step ly x : step <= 1 / 10 / 2 -> 0 < x -> leftward ly ->
  newtonStep isolve (1 / 10) step ly (mkV x 0 0) = Some (Some (mkV (x - 1 / 20) 0 0, 1 / 20)).
Proof.
  intros ST PX L. specialize (L x PX). unfold newtonStep, isolve. cbv zeta.
  set (sc := ly_score ly (mkV x 0 0)) in *. set (g := vx (sd_grad sc)) in *. change (vx (vscale (-1) (sd_grad sc))) with (-1 * g).
  assert (NV : vnorm (mkV (-1 * g) 0 0) = - g).
  { unfold vnorm, vdot. cbn [vx vy vz]. replace (-1 * g * (-1 * g) + 0 * 0 + 0 * 0) with (- g * - g) by ring. apply sqrt_square. lra. }
  rewrite NV. destruct (Req_EM_T (- g) 0); [lra|]. change (vscale (/ - g) (mkV (-1 * g) 0 0)) with (mkV (/ - g * (-1 * g)) (/ - g * 0) (/ - g * 0)).
  assert (GD : vdot (sd_grad sc) (mkV (/ - g * (-1 * g)) (/ - g * 0) (/ - g * 0)) = g).
  { unfold vdot. cbn [vx vy vz]. fold g. field. lra. }
  destruct (step_length (ly_search ly) (mkV x 0 0) (mkV (/ - g * (-1 * g)) (/ - g * 0) (/ - g * 0)) (- g) step (1 / 10 / 2) sc ltac:(lra)) as [_ S1].
  rewrite GD in S1. rewrite (S1 ltac:(lra)). destruct (Rlt_dec 0 g); [lra|]. cbn [fst snd].
  rewrite Rmax_right by (apply Rle_trans with step; [apply Rmin_r|exact ST]).
  assert (EQ : 1 / 10 / 2 = 1 / 20) by lra. rewrite EQ. do 3 f_equal. apply V3_eq; mcomp; field; lra.
Qed.
Lemma go_run ls : Forall leftward ls -> forall x s, INR (length ls) * (1 / 10) < x -> exists r,
  runLayers (p2dLoop isolve (1 / 10) (1 / 100) 35 37) ls (vecToMat (mkV x 0 0)) s = Some (Some r) /\
  rs_conv r = true /\ rs_final r = vecToMat (mkV (x - INR (length ls) * (1 / 10)) 0 0).
Proof.
  induction 1 as [|ly ls L _ IH]; intros x s B; cbn [runLayers].
  - eexists. split; [reflexivity|]. split; [reflexivity|]. cbn. do 2 f_equal. lra.
  - change (length (ly :: ls)) with (S (length ls)) in *. rewrite S_INR in *. pose proof (pos_INR (length ls)).
    rewrite vec_along. change 37%nat with (2 + 35)%nat. rewrite two_rounds by (lra || lia).
    rewrite go_step by (lra || assumption). rewrite go_step by (lra || assumption).
    replace (x - 1 / 20 - 1 / 20) with (x - 1 / 10) by lra.
    destruct (IH (x - 1 / 10) (mkRS true (vecToMat (mkV (x - 1 / 10) 0 0)) 2 mid mid) ltac:(lra)) as (r & R & C & F).
    edestruct IH as (r' & R' & C' & F'); [|eexists; split; [exact R'|]; split; [exact C'|]; rewrite F'; do 2 f_equal; lra]. lra.
Qed.

(** ** the layers of an obstacle around (13/4, 3/4) *)
Definition iscan : list (option point) :=
  [Some (320#100, 70#100); Some (330#100, 80#100); None; Some (315#100, 75#100); Some (335#100, 75#100);
   Some (325#100, 65#100); Some (325#100, 85#100)]%Q ++ repeat None 393.
Definition iw0 : zgrid := Eval vm_compute in
  get (wNew pmerge pdflt padd pcompute ztrans pray zbtw ztp 1 iscan) (newFrame pdflt).
Lemma iw0_ok : wNew pmerge pdflt padd pcompute ztrans pray zbtw ztp 1 iscan = Ok iw0.
Proof. vm_compute. reflexivity. Qed.
Definition il : zgrid := Eval vm_compute in
  get (n_initialize pmerge pdflt padd pcompute ztrans pray zbtw ztp (n_setOrigin (newFrame pdflt) (n_pose iw0)) iscan) (newFrame pdflt).
Lemma il_ok : n_initialize pmerge pdflt padd pcompute ztrans pray zbtw ztp (n_setOrigin (newFrame pdflt) (n_pose iw0)) iscan = Ok il.
Proof. vm_compute. reflexivity. Qed.
Definition alone (b : zgrid) : bool :=
  match n_means il with
  | Some [p] => match n_means b with
                | Some (m :: _) => match getCellPtr (n_vox b) m with
                                   | Ok (Some c) => Qeq_bool (fst (nc_mean c)) (fst p)
                                   | _ => false
                                   end
                | _ => false
                end
  | _ => false
  end.
Lemma alone_left ratio res b se : 0 < ratio < 1 -> 0 < res -> alone b = true ->
  leftward (mkL (fun q => calcScoreP (fun p k => map (icellOf icov) (knn isearch b p k)) (meansOf il) q (calcParams ratio res)) se).
Proof.
  intros HR HS A x PX. unfold alone in A. unfold meansOf.
  destruct (n_means il) as [[|pt [|? ?]]|]; try discriminate.
  destruct (n_means b) as [[|m ms]|] eqn:EM; try discriminate.
  destruct (getCellPtr (n_vox b) m) as [[c|]| |] eqn:EC; try discriminate.
  apply Qeq_bool_iff, Qeq_eqR in A.
  assert (K : forall p k, knn isearch b p k = [c]).
  { intros p k. unfold knn, isearch. rewrite EM. cbn. rewrite EC. reflexivity. }
  cbn [ly_score map]. rewrite calcScoreP_sum. unfold pmatches. cbn [flat_map]. rewrite K. cbn [map app].
  rewrite sdsum_cons, sdsum_nil, sdadd_0_r. unfold ptSad. cbn [fst snd].
  destruct (fit ratio res HR HS) as (D1 & D2 & HF).
  rewrite point_code; [|exact HF|exact D2|apply id_proper|now left].
  cbn [sd_grad G vx]. unfold ax, f1, icellOf, icov, meanOf, wx, RegP2D.E. cbn [ic_icov ic_mean fst snd vx vy vz]. rewrite cos_0, sin_0.
  rewrite A. set (y := wy _ _ _). set (ex := exp _). assert (EP : 0 < ex) by apply exp_pos.
  replace (m11 mid) with 1 by reflexivity. replace (m21 mid) with 0 by reflexivity.
  replace ((1 * Q2R (fst pt) - 0 * Q2R (snd pt) + x - Q2R (fst pt)) * 1 + y * 0) with x by ring.
  assert (0 < x * (g_d2 (calcParams ratio res) * ex)) by (apply Rmult_lt_0_compat; [exact PX|apply Rmult_lt_0_compat; tauto]).
  replace (x * (g_d1 (calcParams ratio res) * (g_d2 (calcParams ratio res) * ex))) with
    (g_d1 (calcParams ratio res) * (x * (g_d2 (calcParams ratio res) * ex))) by ring. nra.
Qed.
Lemma icoarse : Forall (fun s => createCoarserGrid pmerge pdflt iw0 s = Ok (coarse iw0 s) /\ alone (coarse iw0 s) = true) sizes.
Proof. unfold sizes. repeat (apply Forall_cons; [split; vm_compute; reflexivity|]). apply Forall_nil. Qed.
Lemma ilayers left : exists ls, layersOf (p2dLayer pmerge pdflt icov isearch left (7 / 10) (meansOf il) iw0) sizes = Ok ls /\
  Forall leftward ls /\ length ls = 4%nat.
Proof.
  assert (P : Forall (fun s => 0 < Q2R s) sizes).
  { unfold sizes, Q2R. repeat (apply Forall_cons; [cbn; lra|]). apply Forall_nil. }
  change 4%nat with (length sizes). pose proof icoarse as Z. revert P Z. generalize sizes.
  induction l as [|s l IH]; intros P Z; [exists []; repeat split; constructor|].
  inversion P as [|? ? PS P']; subst. inversion Z as [|? ? (EB & AB) Z']; subst.
  destruct (IH P' Z') as (ls & E & F & L). cbn [layersOf]. unfold p2dLayer at 1. rewrite EB. cbn [bind]. rewrite E. cbn [bind].
  eexists. split; [reflexivity|]. split; [|cbn; now rewrite L]. constructor; [|exact F].
  apply alone_left; [lra| |exact AB]. apply Rmult_lt_0_compat; [lra|]. now apply Rinv_0_lt_compat.
Qed.

(** The matcher agrees with the guess, or corrects it by all it can. *)
Lemma istay left : scanP2d pmerge pdflt icov isearch rsolve left (meansOf il) iw0 (along 2) = (true, along 2).
Proof.
  unfold scanP2d. destruct (ilayers left) as (ls & -> & F & _). cbn [bind]. unfold p2dAlign. rewrite along_vec.
  destruct (stay_run ls F (mkRS false t2id (rs_iter fresh) (rs_cov fresh) (rs_inf fresh))) as (r & -> & C & R).
  cbn [shown]. now rewrite C, R.
Qed.
Lemma igo left : scanP2d pmerge pdflt icov isearch isolve left (meansOf il) iw0 (along 2) = (true, along (16 / 10)).
Proof.
  unfold scanP2d. destruct (ilayers left) as (ls & -> & F & L). cbn [bind]. unfold p2dAlign. rewrite along_vec.
  assert (L4 : INR (length ls) = 4) by (rewrite L; cbn; lra).
  destruct (go_run ls F 2 (mkRS false t2id (rs_iter fresh) (rs_cov fresh) (rs_inf fresh)) ltac:(lra)) as (r & -> & C & R).
  cbn [shown]. rewrite C, R, L4, along_vec. do 3 f_equal. lra.
Qed.

(** ** the run: the second call is matched *)
Close Scope R_scope.
Open Scope nat_scope.
Definition iin (d : R) (m : option R) (addr : nat) : ainput (option point) Z :=
  mkIn (along d) iscan (option_map along m) addr (mkLChoice 0%Z (fun _ _ => 0)) (fun k => 1000 + k) zest.
Notation iadd g o := (mergeInTracedPcl pmerge pdflt padd pcompute ztrans pray zbtw ztp (n_setOrigin g o) iscan o true).
Notation iafter g l x := (
  do l' <- n_initialize pmerge pdflt padd pcompute ztrans pray zbtw ztp (n_setOrigin (newFrame pdflt) (n_pose g)) iscan;
  do l'' <- n_transform pmerge ztrans t2id zorigin l' (mkTr l x 0);
  do g' <- mergeInTraced pmerge pdflt ztrans pray zbtw ztp g l'' true true;
  n_move g' (mkTr l x 0)).
Definition iw1 : zgrid := Eval vm_compute in fst (get (iafter iw0 t2id 2) (newFrame pdflt, mkTr t2id 0 0)).
Lemma iw1_ok l : iafter iw0 l (inject_Z 2) = Ok (iw1, mkTr l (0#4) 0).
Proof. vm_compute. reflexivity. Qed.
Lemma iw1_win : wMove zdbl (wMerge pmerge pdflt padd pcompute ztrans pray zbtw ztp t2id zorigin zdbl (Ok iw0) iscan (along 2))
    (along 2) = (Ok iw1, along 0).
Proof.
  rewrite (win_gen _ _ _ _ _ _ _ _ _ _ _ iw0 iscan (along 2) iw1 (mkTr (along 2) (0#4) 0)).
  - unfold ofQ. cbn [tr_lin tr_x tr_y along ta tb tc td]. rewrite zero_four, zero_one. reflexivity.
  - rewrite (toQ_along 2). pose proof (iw1_ok (along 2)) as H. exact H.
Qed.
Definition ib0 : zgrid := Eval vm_compute in
  get (n_initialize pmerge pdflt padd pcompute ztrans pray zbtw ztp (newFrame pdflt) iscan) (newFrame pdflt).
Lemma ib0_ok : n_initialize pmerge pdflt padd pcompute ztrans pray zbtw ztp (newFrame pdflt) iscan = Ok ib0.
Proof. vm_compute. reflexivity. Qed.
Definition im1 : mapper (list point) := Eval vm_compute in
  get (zaddFrame (m_new pdflt) (n_setOrigin ib0 (mkPose 0 0 0)) 2) (m_new pdflt).
Lemma im1_ok : zaddFrame (m_new pdflt) (n_setOrigin ib0 (mkPose 0 0 0)) 2 = Ok im1.
Proof. vm_compute. reflexivity. Qed.

Definition ia0 : alg (res zgrid) (res zgrid) := firstScan zenv (alg_new zenv) (iin 0 None 0).
Definition ih : list (yev Z) :=
  [mkYE (iin 2 (Some 2%R) 7) 2 [AInc (along 2); ANode 0; ALoop false; ADraw (at_ 2) t2id; ARep (KMatch (at_ 0) (along 2)) (at_ 2)];
   mkYE (iin 0 None 0) 1 [ADraw (at_ 0) t2id; ARep KFirst (at_ 0)]].
Notation ifollowed := (followed icov isearch rsolve pmerge pdflt padd pcompute ztrans pray zraw zbtw ztp zdbl zenv).
Lemma i_match2 left : incMatch icov isearch rsolve pmerge pdflt padd pcompute ztrans pray zbtw ztp left ia0 (iin 2 (Some 2%R) 7) = Some (along 2).
Proof.
  unfold incMatch. assert (W0 : a_win ia0 = Some (Ok iw0)).
  { unfold ia0, firstScan. cbn [a_win sysEnv w_new iin i_scan]. rewrite iw0_ok. reflexivity. }
  rewrite W0. cbn [iin i_scan]. rewrite il_ok. cbv zeta.
  assert (G : guessOf ia0 (iin 2 (Some 2%R) 7) = along 2).
  { unfold guessOf, ia0, firstScan. cbn [a_cumul alg_new i_motion iin]. apply t2mul_id_l. }
  rewrite G, istay. reflexivity.
Qed.
Lemma i_run : exists y, ifollowed ih y /\ a_win (y_alg y) = Some (Ok iw1).
Proof.
  assert (F0 : a_frame ia0 = mkFrame (at_ 0) (Ok ib0)).
  { unfold ia0, firstScan. cbn [a_frame sysEnv b_init alg_new b_new f_body iin i_scan].
    rewrite bInit_gen, ib0_ok. reflexivity. }
  assert (W0 : a_win ia0 = Some (Ok iw0)).
  { unfold ia0, firstScan. cbn [a_win sysEnv w_new iin i_scan]. rewrite iw0_ok. reflexivity. }
  destruct (z_step2 zenv ia0 (iin 2 (Some 2%R) 7) (Ok iw0) (Ok iw1) (along 0)) as (c1 & U1);
    try reflexivity; try exact W0.
  { cbn [w_origin sysEnv]. unfold wOrigin, SysModel.poseOf. cbn [iw0 n_pose p_x p_y p_th]. rewrite zero_one. reflexivity. }
  { exact iw1_win. }
  set (a1 := mkAlg _ _ _ _ _ _ _ _ _ _ _ _ _ _ _ _) in U1.
  pose (e2 := [AInc (along 2); ANode 0; ALoop false; ADraw (at_ 2) t2id; ARep (KMatch (at_ 0) (along 2)) (at_ 2)]).
  pose (y0 := mkSys ia0 (m_new pdflt) [] 0 1).
  pose (y1 := mkSys a1 im1 [(0, 2%Q)] 1 2).
  assert (S0 : ystep pmerge pdflt ztrans pray zraw zbtw ztp zdbl zenv (sys_new pdflt zenv)
                 (mkYE (iin 0 None 0) 1 [ADraw (at_ 0) t2id; ARep KFirst (at_ 0)]) y0).
  { eapply (ystep_intro _ _ _ _ _ _ _ _ zenv (sys_new pdflt zenv) (iin 0 None 0) 1%Q ia0).
    - unfold update. cbn [sys_new y_alg alg_new a_init]. rewrite pose_id. reflexivity.
    - apply draw_none. intros id [H|[H|[]]]; discriminate. }
  assert (S1 : ystep pmerge pdflt ztrans pray zraw zbtw ztp zdbl zenv y0 (mkYE (iin 2 (Some 2%R) 7) 2 e2) y1).
  { apply (ystep_intro _ _ _ _ _ _ _ _ zenv y0 (iin 2 (Some 2%R) 7) 2%Q a1 e2 im1 _ U1).
    apply (draw_add _ _ _ _ _ _ _ _ y0 a1 e2 2%Q 0 (n_setOrigin ib0 (mkPose 0 0 0)) im1).
    - right; left; reflexivity.
    - intros H. cbn in H. intuition discriminate.
    - unfold y0. cbn [y_alg]. unfold gridOf. rewrite F0. cbn [f_body f_origin bind]. rewrite (zpose0 0). reflexivity.
    - exact im1_ok. }
  exists y1. split; [|reflexivity].
  assert (R0 : ifollowed (tl ih) y0).
  { refine (followed_step _ _ _ _ _ _ _ _ _ _ _ _ _ _ [] (sys_new pdflt zenv) _ y0 (fun _ _ => sdzero) _ _ S0).
    - apply followed_new.
    - cbn [sys_new y_alg alg_new a_init]. discriminate. }
  refine (followed_step _ _ _ _ _ _ _ _ _ _ _ _ _ _ (tl ih) y0 _ y1 (fun _ _ => sdzero) R0 _ S1).
  intros _. cbn [v_in]. change (y_alg y0) with ia0. rewrite i_match2. reflexivity.
Qed.
