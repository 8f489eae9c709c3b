(** A concrete run of the whole system, with the registrations of the program, that
    closes a loop: four obstacles, two nodes. *)
From Coq Require Import Reals Qreals Lra List ZArith QArith Bool Lia Arith Sorting.Permutation Sorting.Sorted.
From Verif Require Import Base LinAlg3 GeoModel GeoSpec GeoProofs OptModel RegModel RegSpec RegStep RegFit RegD2D RegDeriv RegPose RegNewton RegCases CorrModel CorrSpec CorrBuild CorrInit MatchModel MatchSpec.
From Verif Require Import GraphModel GraphSpec LoopModel SlamModel AlgModel AlgSpec AlgProofs AlgCases.
From Verif Require Import VoxelModel VoxelSpec GridModel GridSpec GridProofs ScanSpec ScanInit GridCases MapModel MapSpec SysModel SysSpec SysMap SysCases.
From Verif Require Import CloseModel CloseCases.
From Verif Require Import RealModel RealSpec.
Import ListNotations.
Open Scope nat_scope.

(** ** the parts from outside *)
Open Scope R_scope.
(** a solver whose direction is level: it answers zero for zero *)
Definition rsolve (h : M3) (b : V3) : option V3 :=
  if Req_EM_T (vx b) 0 then
    if Req_EM_T (vy b) 0 then
      if Req_EM_T (vz b) 0 then Some vzero else Some (mkV 1 0 0)
    else Some (mkV (- vy b) (vx b) 0)
  else Some (mkV (- vy b) (vx b) 0).
Lemma rsolve_zero : solves_zero rsolve.
Proof.
  intro h. unfold rsolve, vzero. cbn [vx vy vz]. destruct (Req_EM_T 0 0); [reflexivity|congruence].
Qed.
Lemma rsolve_level h b : b <> vzero -> exists d, rsolve h b = Some d /\ vnorm d <> 0 /\ vdot b d = 0.
Proof.
  intro N. unfold rsolve.
  assert (NZ : forall x y, x <> 0 \/ y <> 0 -> vnorm (mkV x y 0) <> 0).
  { intros x y H E. unfold vnorm in E. apply sqrt_eq_0 in E; [|apply vdot_pos]. unfold vdot in E. cbn [vx vy vz] in E.
    assert (x * x = 0 /\ y * y = 0) as [A B].
    { pose proof (Rle_0_sqr x). pose proof (Rle_0_sqr y). unfold Rsqr in *. split; lra. }
    destruct H as [H|H]; apply H; [destruct (Rmult_integral _ _ A)|destruct (Rmult_integral _ _ B)]; assumption. }
  destruct (Req_EM_T (vx b) 0) as [X|X]; [destruct (Req_EM_T (vy b) 0) as [Y|Y]; [destruct (Req_EM_T (vz b) 0) as [Z|Z]|]|].
  - exfalso. apply N. destruct b. cbn in *. unfold vzero. congruence.
  - eexists. split; [reflexivity|]. split; [apply NZ; left; lra|]. unfold vdot. cbn [vx vy vz]. rewrite X, Y. ring.
  - eexists. split; [reflexivity|]. split; [apply NZ; left; lra|]. unfold vdot. cbn [vx vy vz]. ring.
  - eexists. split; [reflexivity|]. split; [apply NZ; right; exact X|]. unfold vdot. cbn [vx vy vz]. ring.
Qed.
(** a sort: the first of the best elements *)
Definition rpick (l : list voxel) : voxel :=
  match l with
  | [] => mkVox vzero NaN
  | v :: t => fold_left (fun b v => if xlt (vo_score b) (vo_score v) then v else b) t v
  end.
Lemma xlt_up a b c : xlt a b = true -> xlt a c = false -> xlt b c = false.
Proof.
  destruct a, b, c; cbn; try discriminate; try reflexivity;
    repeat match goal with |- context [Rlt_dec ?x ?y] => destruct (Rlt_dec x y) end; try discriminate; try reflexivity; intros; lra.
Qed.
Lemma rpick_sorts : sorts rpick.
Proof.
  intros [|v t] NE; [congruence|]. clear NE. unfold rpick.
  assert (K : forall t b (l : list voxel), In b l -> (forall u, In u l -> xlt (vo_score b) (vo_score u) = false) ->
     sortedBack (l ++ t) (fold_left (fun b v => if xlt (vo_score b) (vo_score v) then v else b) t b)).
  { clear v t. induction t as [|v t IH]; intros b l I B; cbn [fold_left].
    - rewrite app_nil_r. split; assumption.
    - change (l ++ v :: t) with (l ++ [v] ++ t). rewrite app_assoc. destruct (xlt (vo_score b) (vo_score v)) eqn:E.
      + apply IH; [apply in_or_app; right; now left|]. intros u U. apply in_app_or in U. destruct U as [U|[<-|[]]].
        * eapply xlt_up; [exact E|]. apply B. exact U.
        * destruct (vo_score v); cbn; try reflexivity. match goal with |- context [Rlt_dec ?x ?x] => destruct (Rlt_dec x x) end; [lra|reflexivity].
      + apply IH; [apply in_or_app; now left|]. intros u U. apply in_app_or in U. destruct U as [U|[<-|[]]]; auto. }
  apply (K t v [v]); [now left|]. intros u [<-|[]]. destruct (vo_score v); cbn; try reflexivity.
  match goal with |- context [Rlt_dec ?x ?x] => destruct (Rlt_dec x x) end; [lra|reflexivity].
Qed.
(** one thread does it all *)
Definition rsched (_ _ : list P2) (_ : T2) : list (nat * nat) := map (fun k => (0%nat, k)) (seq 0 30).
Lemma rsched_shares : shares rsched.
Proof.
  intros a b g. unfold rsched, scheduled. rewrite map_map, map_id. split; [apply Permutation_refl|].
  intros e I. apply in_map_iff in I. destruct I as (k & <- & _). cbn. lia.
Qed.
(** a neighbour search that finds one neighbour for the obstacle at (2, 1) *)
Definition rsearch (ms : list point) (p : P2) (k : nat) : list nat :=
  if Req_EM_T (fst p) 2 then if Req_EM_T (snd p) 1 then [0%nat] else [] else [].
Lemma rsearch_hit ms k : rsearch ms (2, 1) k = [0%nat].
Proof. unfold rsearch. cbn [fst snd]. destruct (Req_EM_T 2 2); [|congruence]. destruct (Req_EM_T 1 1); congruence. Qed.
Lemma rsearch_miss ms p k : fst p <> 2 \/ snd p <> 1 -> rsearch ms p k = [].
Proof.
  intro H. unfold rsearch. destruct (Req_EM_T (fst p) 2); [|reflexivity]. destruct (Req_EM_T (snd p) 1); [|reflexivity].
  destruct H; contradiction.
Qed.
Definition rcov (_ : ncell (list point)) : M3 := halfcov.

(** ** a layer that stays where it is *)
Lemma stays ly v eps step mi fuel : 0 < eps -> sd_grad (ly_score ly v) <> vzero ->
  exists i sc, d2dLoop rsolve eps step mi (S fuel) ly v 0 = Some (LOk v i sc).
Proof.
  intros HE N. cbn [d2dLoop]. unfold newtonStep. cbv zeta.
  destruct (rsolve_level (sd_hess (ly_score ly v)) (vscale (-1) (sd_grad (ly_score ly v)))) as (d & E & ND & O).
  { intro H. apply N. destruct (sd_grad (ly_score ly v)) as [x y z]. unfold vscale, vzero in *. cbn in H. injection H as A B C. f_equal; lra. }
  rewrite E. destruct (Req_EM_T (vnorm d) 0); [contradiction|].
  destruct (step_length (ly_search ly) v (vscale (/ vnorm d) d) (vnorm d) step (eps / 2) (ly_score ly v) ltac:(lra)) as [Z _].
  rewrite Z.
  2:{ replace (vdot (sd_grad (ly_score ly v)) (vscale (/ vnorm d) d)) with
        (- / vnorm d * vdot (vscale (-1) (sd_grad (ly_score ly v))) d) by (destruct d; mcomp; ring). rewrite O. ring. }
  cbn [fst snd]. rewrite Rabs_R0. destruct (Rlt_dec 0 eps); [|lra]. rewrite orb_true_r.
  replace (vadd v (vscale 0 (vscale (/ vnorm d) d))) with v by (generalize (/ vnorm d); intro; destruct v, d; apply V3_eq; mcomp; ring).
  eexists _, _. reflexivity.
Qed.
Lemma id_vec : matToVec t2id = vzero.
Proof. apply matToVec_id. Qed.
Lemma vec_id : vecToMat vzero = t2id.
Proof.
  unfold vecToMat, getTransFromPose, RegModel.poseOf, vzero, t2id. cbn [px py pth vx vy vz]. rewrite cos_0, sin_0.
  apply T2_eq; cbn; ring.
Qed.
Lemma stay_layers eps step mi fuel : 0 < eps -> forall ls s, (forall ly, In ly ls -> sd_grad (ly_score ly vzero) <> vzero) ->
  exists r, runLayers (d2dLoop rsolve eps step mi (S fuel)) ls t2id s = Some (Some r) /\ rs_conv r = true /\ rs_final r = t2id.
Proof.
  intros HE. induction ls as [|ly ls IH]; intros s N.
  - cbn [runLayers]. eexists. split; [reflexivity|]. split; reflexivity.
  - cbn [runLayers]. rewrite id_vec.
    destruct (stays ly vzero eps step mi fuel HE (N ly (or_introl eq_refl))) as (i & sc & ->).
    rewrite vec_id. apply IH. intros l I. apply N. now right.
Qed.

(** ** the pull of one other obstacle *)
Notation zcell := (ncell (list point)).
Definition hit (c : zcell) : bool := Qeq_bool (fst (nc_mean c)) 2 && Qeq_bool (snd (nc_mean c)) 1.
Definition pulled (a b : zgrid) : bool :=
  match n_means b with
  | Some (m :: _) => match getCellPtr (n_vox b) m with
                     | Ok (Some c) => negb (Qeq_bool (fst (nc_mean c)) 2) && (length (filter hit (getGaussianCells a)) =? 1)%nat
                     | _ => false
                     end
  | _ => false
  end.
Lemma hit_iff c : hit c = true <-> meanOf c = (2, 1).
Proof.
  unfold hit, meanOf. rewrite andb_true_iff, !Qeq_bool_iff.
  assert (E2 : Q2R 2 = 2) by (unfold Q2R; cbn; lra). assert (E1 : Q2R 1 = 1) by (unfold Q2R; cbn; lra).
  split.
  - intros [A B]. apply Qeq_eqR in A, B. congruence.
  - intro H. injection H as A B. split; apply eqR_Qeq; congruence.
Qed.
Lemma moved_zero c : RegSpec.moved vzero (gcellOf rcov c) = cellAt (fst (meanOf c)) (snd (meanOf c)).
Proof.
  unfold gcellOf, rcov. fold (cellAt (fst (meanOf c)) (snd (meanOf c))). rewrite moved_cell. cbn [vx vy vz vzero]. rewrite turn_0.
  unfold cellAt. f_equal. apply V3_eq; mcomp; ring.
Qed.
Lemma pull ratio res a b : 0 < ratio < 1 -> 0 < res -> pulled a b = true ->
  sd_grad (calcScore (fun p k => map (gcellOf rcov) (knn rsearch b p k)) (calcParams ratio res)
             (map (gcellOf rcov) (getGaussianCells a)) vzero true) <> vzero.
Proof.
  intros HR HS P. unfold pulled in P.
  destruct (n_means b) as [[|m ms]|] eqn:EM; try discriminate.
  destruct (getCellPtr (n_vox b) m) as [[c|]| |] eqn:EC; try discriminate.
  apply andb_true_iff in P. destruct P as [NE L]. apply Nat.eqb_eq in L.
  assert (K2 : forall k, knn rsearch b (2, 1) k = [c]).
  { intro k. unfold knn. rewrite EM, rsearch_hit. cbn. rewrite EC. reflexivity. }
  assert (K0 : forall x y k, (x, y) <> (2, 1) -> knn rsearch b (x, y) k = []).
  { intros x y k N. unfold knn. rewrite EM, rsearch_miss; [reflexivity|]. cbn [fst snd].
    destruct (Req_EM_T x 2) as [-> |]; [|now left]. right. intros ->. now apply N. }
  assert (M : RegSpec.matches (fun p k => map (gcellOf rcov) (knn rsearch b p k)) (map (gcellOf rcov) (getGaussianCells a)) vzero =
              map (fun s => (RegSpec.moved vzero (gcellOf rcov s), gcellOf rcov c)) (filter hit (getGaussianCells a))).
  { clear L. unfold RegSpec.matches. induction (getGaussianCells a) as [|s l IH]; [reflexivity|]. cbn [map flat_map filter]. cbv zeta.
    rewrite IH. clear IH. rewrite moved_zero. cbn [gc_mean cellAt vx vy].
    destruct (hit s) eqn:H.
    - apply hit_iff in H. rewrite H. cbn [fst snd]. rewrite K2. cbn [map app]. rewrite moved_zero, H. reflexivity.
    - rewrite K0; [reflexivity|]. intro X. rewrite <- surjective_pairing in X. apply hit_iff in X. congruence. }
  rewrite calcScore_sum, M. clear M K0 K2.
  assert (HA : forall s, In s (filter hit (getGaussianCells a)) -> meanOf s = (2, 1)).
  { intros s I. apply filter_In in I. apply hit_iff. apply I. }
  destruct (filter hit (getGaussianCells a)) as [|s [|? ?]]; try discriminate. cbn [map].
  rewrite sdsum_cons, sdsum_nil, sdadd_0_r, moved_zero, (HA s (or_introl eq_refl)). cbn [fst snd].
  unfold gcellOf, rcov. fold (cellAt (fst (meanOf c)) (snd (meanOf c))). rewrite score_round. cbn [sd_grad].
  destruct (fit ratio res HR HS) as (D1 & D2 & HF).
  pose proof (factor_pos _ ((2 - fst (meanOf c)) * (2 - fst (meanOf c)) + (1 - snd (meanOf c)) * (1 - snd (meanOf c))) D1 (proj1 D2) HF) as F.
  set (k := - g_half _ * _) in *. clearbody k. intro Z. apply (f_equal vx) in Z. cbn [vx vscale vzero] in Z.
  apply Rmult_integral in Z. destruct Z as [Z|Z]; [lra|].
  apply negb_true_iff in NE. apply Qeq_bool_neq in NE. apply NE. apply eqR_Qeq. unfold meanOf in Z. cbn [fst] in Z.
  unfold Q2R at 2. cbn. lra.
Qed.

(** ** the scans *)
Definition rscan : list (option point) := kring 2 1 ++ kring 3 1 ++ kring 3 (3 # 2) ++ kring 4 2 ++ repeat None 376.
Notation radd g o := (mergeInTracedPcl pmerge pdflt padd pcompute ztrans pray zbtw ztp (n_setOrigin g o) rscan o true).
Definition rb0 : zgrid := Eval vm_compute in
  get (n_initialize pmerge pdflt padd pcompute ztrans pray zbtw ztp (newFrame pdflt) rscan) (newFrame pdflt).
Lemma rb0_ok : n_initialize pmerge pdflt padd pcompute ztrans pray zbtw ztp (newFrame pdflt) rscan = Ok rb0.
Proof. vm_compute. reflexivity. Qed.
Definition rb1 : zgrid := Eval vm_compute in get (radd (newFrame pdflt) (mkPose 2 0 0)) (newFrame pdflt).
Lemma rb1_ok : radd (newFrame pdflt) (mkPose 2 0 0) = Ok rb1.
Proof. vm_compute. reflexivity. Qed.
Definition rmeans : list point := [(4, 2); (3, 3 # 2); (2, 1); (3, 1)]%Q.
Lemma rmeans_ok b : b = rb0 \/ b = rb1 -> exists l, n_means b = Some l /\
  map (fun p : point => (Qred (fst p), Qred (snd p))) l = rmeans /\ n_cs b = 1#4.
Proof. intros [-> | ->]; eexists; vm_compute; repeat split. Qed.

Definition coarse (b : zgrid) (s : Q) : zgrid := get (createCoarserGrid pmerge pdflt b s) (newFrame pdflt).
Lemma coarse_ok : Forall (fun s => createCoarserGrid pmerge pdflt rb0 s = Ok (coarse rb0 s) /\
                                   createCoarserGrid pmerge pdflt rb1 s = Ok (coarse rb1 s) /\
                                   pulled (coarse rb0 s) (coarse rb1 s) = true) sizes.
Proof. unfold sizes. repeat (apply Forall_cons; [repeat split; vm_compute; reflexivity|]). apply Forall_nil. Qed.
Lemma layers_pull ratio : 0 < ratio < 1 -> forall l, Forall (fun s => (0 < Q2R s)) l ->
  Forall (fun s => createCoarserGrid pmerge pdflt rb0 s = Ok (coarse rb0 s) /\
                   createCoarserGrid pmerge pdflt rb1 s = Ok (coarse rb1 s) /\
                   pulled (coarse rb0 s) (coarse rb1 s) = true) l ->
  exists ls, layersOf (d2dLayer pmerge pdflt rcov rsearch ratio rb0 rb1) l = Ok ls /\
             forall ly, In ly ls -> sd_grad (ly_score ly vzero) <> vzero.
Proof.
  intro HR. induction l as [|s l IH]; intros PO F.
  - exists []. split; [reflexivity|]. intros ly [].
  - inversion PO as [|? ? P0 PO']; subst. inversion F as [|? ? (E0 & E1 & PU) F']; subst.
    destruct (IH PO' F') as (ls & EL & NL). cbn [layersOf]. unfold d2dLayer at 1. rewrite E0, E1. cbn [bind]. rewrite EL. cbn [bind].
    eexists. split; [reflexivity|]. intros ly [<-|I]; [|auto]. cbn [ly_score].
    apply pull; [exact HR| |exact PU]. apply Rmult_lt_0_compat; [lra|]. now apply Rinv_0_lt_compat.
Qed.
Lemma rd2d o0 o1 : frameD2d pmerge pdflt rcov rsearch rsolve (mkFrame o0 (Ok rb0)) (mkFrame o1 (Ok rb1)) t2id = (true, t2id).
Proof.
  unfold frameD2d. cbn [f_body]. unfold loopD2d.
  destruct (layers_pull (55 / 100) ltac:(lra) sizes) as (ls & -> & NL); [|exact coarse_ok|].
  { unfold sizes, Q2R. repeat (apply Forall_cons; [cbn; lra|]). apply Forall_nil. }
  cbn [bind]. unfold d2dAlign.
  destruct (stay_layers (1 / 10) (1 / 10) 10 9 ltac:(lra) ls
     (mkRS false t2id (rs_iter fresh) (rs_cov fresh) (rs_inf fresh)) NL) as (r & -> & C & F).
  cbn [shown]. now rewrite C, F.
Qed.

(** ** the match *)
Definition rtarget : list P2 := [(4, 2); (3, 3 / 2); (2, 1); (3, 1)].
Lemma rcloud o b : b = rb0 \/ b = rb1 -> cloudOf (mkFrame o (Ok b)) = rtarget /\ sizeOf (mkFrame o (Ok b)) = 1 / 4.
Proof.
  intro B. unfold cloudOf, sizeOf. cbn [f_body]. destruct (rmeans_ok b B) as (l & -> & H & ->). split; [|unfold Q2R; cbn; lra].
  assert (E : map (fun p : point => (Q2R (fst p), Q2R (snd p))) l =
              map (fun p => (Q2R (fst p), Q2R (snd p))) (map (fun p : point => (Qred (fst p), Qred (snd p))) l)).
  { rewrite map_map. apply map_ext. intro p. cbn [fst snd].
    rewrite (Qeq_eqR _ _ (Qred_correct (fst p))), (Qeq_eqR _ _ (Qred_correct (snd p))). reflexivity. }
  etransitivity; [exact E|]. rewrite H. unfold rmeans. cbn [map fst snd]. unfold rtarget, Q2R. cbn [Qnum Qden]. repeat f_equal; lra.
Qed.
Lemma rbox t : boxOf t rtarget -> l_minx t = 0 /\ l_maxx t = 4 /\ l_miny t = 0 /\ l_maxy t = 2.
Proof.
  intros (A & (p1 & P1 & Q1) & (p2 & P2 & Q2) & (p3 & P3 & Q3) & (p4 & P4 & Q4)).
  pose proof (A (0, 0) (or_introl eq_refl)) as O.
  pose proof (A (4, 2) (or_intror (or_introl eq_refl))) as U. cbn [fst snd] in O, U.
  assert (K : forall p, p = (0, 0) \/ In p rtarget -> 0 <= fst p <= 4 /\ 0 <= snd p <= 2).
  { intros p [-> |[<-|[<-|[<-|[<-|[]]]]]]; cbn; lra. }
  pose proof (K _ P1). pose proof (K _ P2). pose proof (K _ P3). pose proof (K _ P4). lra.
Qed.
Lemma rscore : exists t, initGrid rtarget (1 / 4) (1 / 2) = Ok t /\
  getScorePts t rtarget = Ok (Fin (3 / 4)).
Proof.
  destruct (init_good rtarget (1 / 4) (1 / 2)) as (t & E & G); [lra|lra|]. exists t. split; [exact E|].
  pose proof G as (_ & (G1 & G2 & G3 & _ & _ & _ & G7) & _ & V).
  destruct (rbox t G3) as (B1 & B2 & B3 & B4).
  assert (IN : forall p, In p rtarget -> CorrSpec.strictly t p -> ptScore t p = Ok 100%Z).
  { intros p I S. destruct (ptScore_ok _ _ _ _ p G) as [EP IB]. pose proof (proj2 (insideBox_spec t p) S) as IS.
    rewrite IS in EP. rewrite EP. f_equal. apply (V _ _ (IB IS)). exists p. split; [exact I|]. split; [exact S|].
    apply falls_iff; [|auto]. split; [rewrite G1; lra|rewrite G2, G1; lra]. }
  assert (P0 : ptScore t (3, 3 / 2) = Ok 100%Z).
  { apply IN; [now right; left|]. unfold CorrSpec.strictly. rewrite B1, B2, B3, B4. cbn. lra. }
  assert (P1 : ptScore t (2, 1) = Ok 100%Z).
  { apply IN; [now right; right; left|]. unfold CorrSpec.strictly. rewrite B1, B2, B3, B4. cbn. lra. }
  assert (P2 : ptScore t (3, 1) = Ok 100%Z).
  { apply IN; [now right; right; right; left|]. unfold CorrSpec.strictly. rewrite B1, B2, B3, B4. cbn. lra. }
  assert (P3 : ptScore t (4, 2) = Ok 0%Z).
  { destruct (ptScore_ok _ _ _ _ (4, 2) G) as [EP _]. destruct (insideBox t (4, 2)) eqn:I; [|exact EP].
    apply insideBox_spec in I. unfold CorrSpec.strictly in I. rewrite B1, B2, B3, B4 in I. cbn in I. lra. }
  unfold getScorePts, scoreOf. unfold rtarget at 1. cbn [foldM]. rewrite P3. cbn [bind]. rewrite P0. cbn [bind]. rewrite P1. cbn [bind].
  rewrite P2. cbn [bind length rtarget Nat.eqb]. rewrite G7. cbn [length rtarget]. unfold OCCUPIED.
  replace (IZR 100 * INR 4) with 400 by (cbn; ring). unfold xdiv. destruct (Req_EM_T 400 0); [exfalso; lra|].
  do 2 f_equal. replace (0 + 0 + 100 + 100 + 100)%Z with 300%Z by reflexivity. lra.
Qed.
Notation rdd := (frameD2d pmerge pdflt rcov rsearch rsolve).
Notation rcorr := (corrAlign rsched rpick).
Lemma rmatch o0 o1 : exists s, matchFrames cloudOf sizeOf rdd rcorr (matcherWith (6 / 10))
    (mkFrame o0 (Ok rb0)) (mkFrame o1 (Ok rb1)) t2id =
  Ok (s, mkMR true (Fin (3 / 4)) (mkM 5000 0 0 0 5000 0 0 0 10000) t2id).
Proof.
  destruct (rcloud o0 rb0 (or_introl eq_refl)) as [C0 S0]. destruct (rcloud o1 rb1 (or_intror eq_refl)) as [C1 S1].
  pose proof (rd2d o0 o1) as DR.
  set (f0 := mkFrame o0 (Ok rb0)) in *. set (f1 := mkFrame o1 (Ok rb1)) in *. clearbody f0 f1.
  generalize (rcorr). intro cc.
  destruct rscore as (t & E & SC).
  unfold matchFrames, matcherWith, setScoreThreshold, setRejectionLimit, newMatcher.
  destruct (Rlt_dec 0 (6 / 10)) as [_|N]; [|exfalso; lra]. destruct (Rlt_dec (6 / 10) 1) as [_|N]; [|exfalso; lra].
  unfold setInputSource. cbn [ms_limit ms_src ms_tgt ms_in ms_target ms_cell ms_conv ms_final ms_quality].
  unfold setInputTarget. cbn [ms_limit ms_src ms_tgt ms_in ms_target ms_cell ms_conv ms_final ms_quality].
  rewrite C0, C1, S1. unfold rtarget at 1 2. cbn [pclSet]. fold rtarget.
  set (s := mkMS _ _ _ _ _ _ _ _ _).
  assert (DD : runD2d rdd s t2id = (true, t2id)).
  { unfold runD2d, s. cbn [ms_src ms_tgt]. exact DR. }
  assert (PT : proofTransform s t2id = Ok (Fin (3 / 4))).
  { unfold proofTransform, s. cbn [ms_in ms_target ms_cell]. rewrite E. cbn [bind]. rewrite apply_id. exact SC. }
  unfold align. cbn [ms_in ms_target s]. fold s. unfold robustRun. rewrite DD. cbn [fst snd]. rewrite PT. cbn [bind].
  assert (G7 : xgt (Fin (3 / 4)) (Fin (7 / 10)) = true).
  { cbn. destruct (Rlt_dec (7 / 10) (3 / 4)); [reflexivity|exfalso; lra]. }
  rewrite G7. cbn [andb]. unfold finishAlign. rewrite PT. cbn [bind].
  assert (L6 : xlt (Fin (3 / 4)) (Fin (ms_limit s)) = false).
  { cbn. destruct (Rlt_dec (3 / 4) (6 / 10)); [exfalso; lra|reflexivity]. }
  rewrite L6. cbn [bind]. eexists. reflexivity.
Qed.
Lemma rguess : startGuess (at_ 2) (at_ 0) = t2id.
Proof.
  unfold startGuess. rewrite !along_pose, along_inv, along_mul. reflexivity.
Qed.
Close Scope R_scope.

(** ** the run *)
Notation rle := (detector rdd rcorr (6 / 10) 1 30 (Some false)).
Notation renv := (sysEnv pmerge pdflt padd pcompute ztrans pray zbtw ztp t2id zorigin zmove zdbl 1 rle
                    (fun p => p) mid (15 / 10)).
Notation rreach := (yreach pmerge pdflt ztrans pray zraw zbtw ztp zdbl renv).
Definition rin (d : R) (addr : nat) : ainput (option point) R :=
  mkIn (along d) rscan None addr (mkLChoice 0%R (fun _ _ => 0)) (fun k => 1000 + k) kest.
Definition rfs : list zgrid :=
  [n_setTimestamp (n_setOrigin rb0 (mkPose 0 0 0)) 2; n_setTimestamp (n_setOrigin rb1 (mkPose 0 0 0)) 3].
Definition rm1 : mapper (list point) := Eval vm_compute in
  get (kaddFrame (m_new pdflt) (n_setOrigin rb0 (mkPose 0 0 0)) 2) (m_new pdflt).
Lemma rm1_ok : kaddFrame (m_new pdflt) (n_setOrigin rb0 (mkPose 0 0 0)) 2 = Ok rm1.
Proof. vm_compute. reflexivity. Qed.
Definition rm2 : mapper (list point) := Eval vm_compute in
  get (kaddFrame rm1 (n_setOrigin rb1 (mkPose 2 0 0)) 3) (m_new pdflt).
Lemma rm2_ok : kaddFrame rm1 (n_setOrigin rb1 (mkPose 2 0 0)) 3 = Ok rm2.
Proof. vm_compute. reflexivity. Qed.
Definition rm3 : mapper (list point) := Eval vm_compute in get (krecalc rm2 rfs 3) (m_new pdflt).
Lemma rm3_ok : krecalc rm2 rfs 3 = Ok rm3.
Proof. vm_compute. reflexivity. Qed.
Lemma rb1_merge : bMerge pmerge pdflt padd pcompute ztrans pray zbtw ztp zdbl (Ok (newFrame pdflt)) (at_ 2) rscan = Ok rb1.
Proof. unfold bMerge. cbn [bind]. rewrite (proj1 (zpose 2 0)). exact rb1_ok. Qed.

Definition rh : list (yev R) :=
  [mkYE (rin 2 8) 3 [AInc (along 2); ANode 1; ALoop true; ARedraw; ADraw (at_ 2) t2id; ARep KOdo (at_ 2)];
   mkYE (rin 2 7) 2 [AInc (along 2); ANode 0; ALoop false; ADraw (at_ 2) t2id; ARep KOdo (at_ 2)];
   mkYE (rin 0 0) 1 [ADraw (at_ 0) t2id; ARep KFirst (at_ 0)]].
Definition ra0 : alg (res zgrid) (res zgrid) := firstScan renv (alg_new renv) (rin 0 0).
Lemma r_first : update renv (alg_new renv) (rin 0 0) = Ok (ra0, [ADraw (at_ 0) t2id; ARep KFirst (at_ 0)]).
Proof. unfold update. cbn [alg_new a_init]. rewrite pose_id. reflexivity. Qed.

Lemma rreach_h : exists y, rreach rh y /\ y_order y = [(0, 2%Q); (1, 3%Q)] /\
  getPoseData (a_slam (y_alg y)) 0 = Ok (mkFrame (at_ 0) (Ok rb0)) /\
  getPoseData (a_slam (y_alg y)) 1 = Ok (mkFrame (at_ 0) (Ok rb1)) /\
  getPoseLocation (a_slam (y_alg y)) 0 = Ok (at_ 0) /\ getPoseLocation (a_slam (y_alg y)) 1 = Ok (at_ 0) /\
  exists e, getEdge (s_graph (a_slam (y_alg y))) 1 = Ok e /\ e_from e = 1 /\ e_to e = 0 /\ e_trans e = at_ 0 /\ e_loop e = true.
Proof.
  assert (F0 : a_frame ra0 = mkFrame (at_ 0) (Ok rb0)).
  { unfold ra0, firstScan. cbn [a_frame sysEnv b_init alg_new b_new f_body rin i_scan].
    rewrite bInit_gen, rb0_ok. reflexivity. }
  destruct (k_step1 renv eq_refl eq_refl eq_refl ra0 (rin 2 7) (wNew pmerge pdflt padd pcompute ztrans pray zbtw ztp 1 rscan)) as (c1 & U1);
    try reflexivity.
  set (a1 := mkAlg _ _ _ _ _ _ _ _ _ _ _ _ _ _ _ _) in U1.
  assert (F1 : a_frame a1 = mkFrame (at_ 2) (Ok rb1)).
  { unfold a1. cbn [a_frame sysEnv b_merge b_new rin i_scan]. rewrite rb1_merge. reflexivity. }
  destruct (k_step2 renv eq_refl eq_refl eq_refl a1 (rin 2 8) (wNew pmerge pdflt padd pcompute ztrans pray zbtw ztp 1 rscan)
              (a_frame ra0) (mkM 5000 0 0 0 5000 0 0 0 10000) (at_ 0)) as (c2 & s4 & U2 & D0 & D1 & L0 & L1 & GE); try reflexivity.
  { cbn [e_lenv sysEnv detector dlt euclid max_dist]. unfold ltR, nodeDist, at_. cbn [px py].
    replace (2 - 0)%R with 2%R by ring. replace (0 - 0)%R with 0%R by ring. rewrite ksqrt by lra.
    destruct (Rlt_dec 2 30); [reflexivity|exfalso; lra]. }
  { cbn [e_lenv sysEnv detector dlt dadd elen min_dist rin i_choice d0]. unfold ltR, edgeLen.
    rewrite along_pose, along_inv. cbn [along tx ty].
    replace ((- (2)) ^ 2 + 0 ^ 2)%R with (2 ^ 2 + 0 ^ 2)%R by ring. rewrite ksqrt by lra.
    destruct (Rlt_dec (0 + 2) 1); [exfalso; lra|reflexivity]. }
  { rewrite F0, F1. cbn [e_lenv sysEnv detector matcher guess]. rewrite rguess. unfold loopMatch.
    destruct (rmatch (at_ 0) (at_ 2)) as (s & ->). cbn [mr_success mr_inform mr_transform].
    rewrite pose_id. reflexivity. }
  rewrite F0 in D0. rewrite F1 in D1. cbn [f_body] in D0, D1.
  set (a2 := mkAlg _ _ _ _ _ _ _ _ _ _ _ _ _ _ _ _) in U2.
  assert (Y0 : rreach [mkYE (rin 0 0) 1 [ADraw (at_ 0) t2id; ARep KFirst (at_ 0)]]
                 (mkSys ra0 (m_new pdflt) [] 0 1)).
  { eapply yreach_step; [apply yreach_new|].
    eapply (ystep_intro _ _ _ _ _ _ _ _ renv (sys_new pdflt renv) (rin 0 0) 1%Q ra0); [exact r_first|].
    apply draw_none. intros id [H|[H|[]]]; discriminate. }
  pose (h1 := [mkYE (rin 0 0) 1 [ADraw (at_ 0) t2id; ARep KFirst (at_ 0)]]).
  pose (e2 := [AInc (along 2); ANode 0; ALoop false; ADraw (at_ 2) t2id; ARep KOdo (at_ 2)]).
  pose (e3 := [AInc (along 2); ANode 1; ALoop true; ARedraw; ADraw (at_ 2) t2id; ARep KOdo (at_ 2)]).
  assert (Y1 : rreach (mkYE (rin 2 7) 2 e2 :: h1) (mkSys a1 rm1 [(0, 2%Q)] 0 1)).
  { eapply yreach_step; [exact Y0|].
    apply (ystep_intro _ _ _ _ _ _ _ _ renv (mkSys ra0 (m_new pdflt) [] 0 1) (rin 2 7) 2%Q a1 e2 rm1 _ U1).
    apply (draw_add _ _ _ _ _ _ _ _ (mkSys ra0 (m_new pdflt) [] 0 1) a1 e2 2%Q 0 (n_setOrigin rb0 (mkPose 0 0 0)) rm1).
    - right; left; reflexivity.
    - intros H. cbn in H. intuition discriminate.
    - cbn [y_alg]. unfold gridOf. rewrite F0. cbn [f_body f_origin bind]. rewrite (zpose0 0). reflexivity.
    - exact rm1_ok. }
  assert (Y2 : rreach rh (mkSys a2 rm3 [(0, 2%Q); (1, 3%Q)] 0 1)).
  { eapply yreach_step; [exact Y1|].
    apply (ystep_intro _ _ _ _ _ _ _ _ renv (mkSys a1 rm1 [(0, 2%Q)] 0 1) (rin 2 8) 3%Q a2 e3 rm3 _ U2).
    apply (draw_again _ _ _ _ _ _ _ _ (mkSys a1 rm1 [(0, 2%Q)] 0 1) a2 e3 3%Q 1 (n_setOrigin rb1 (mkPose 2 0 0)) rm2
         rfs (combine [(0, 2%Q); (1, 3%Q)] rfs) rm3).
    - right; left; reflexivity.
    - right; right; right; left; reflexivity.
    - cbn [y_alg]. unfold gridOf. rewrite F1. cbn [f_body f_origin bind]. rewrite (zpose0 2). reflexivity.
    - exact rm2_ok.
    - cbn [y_order app map]. unfold frameNow. cbn [fst snd a_slam a2]. rewrite D0, D1. unfold gridOf.
      cbn [f_body f_origin bind]. rewrite !(zpose0 0). reflexivity.
    - apply Permutation_refl.
    - cbn [combine map snd rfs]. repeat constructor; unfold earlier; cbn [n_time n_setTimestamp]; discriminate.
    - exact rm3_ok. }
  eexists. split; [exact Y2|]. split; [reflexivity|]. split; [exact D0|]. split; [exact D1|]. split; [exact L0|]. split; [exact L1|]. exact GE.
Qed.
