(** A concrete run of the whole system with the real scan matcher behind the loop
    detector: three obstacles, two nodes, and a closed loop. *)
From Coq Require Import Reals Qreals Lra List ZArith QArith Bool Lia Arith Sorting.Permutation Sorting.Sorted.
From Verif Require Import Base LinAlg3 GeoModel GeoSpec GeoProofs OptModel RegModel RegSpec CorrModel CorrSpec CorrBuild CorrInit MatchModel MatchSpec.
From Verif Require Import GraphModel GraphSpec LoopModel SlamModel AlgModel AlgSpec AlgProofs AlgCases.
From Verif Require Import VoxelModel VoxelSpec GridModel GridSpec GridProofs ScanSpec ScanInit GridCases MapModel MapSpec SysModel SysSpec SysMap SysCases.
From Verif Require Import CloseModel.
Import ListNotations.
Open Scope nat_scope.

Notation kframe := (frame (res zgrid)).
(** A registration that always answers the identity, unless a cloud is empty. *)
Definition kd2d (a b : kframe) (g : T2) : bool * T2 :=
  match cloudOf a, cloudOf b with _ :: _, _ :: _ => (true, t2id) | _, _ => (false, t2id) end.
Lemma kd2d_empty : empty_fails (@cloudOf (list point)) kd2d.
Proof. intros a b g [E|E]; unfold kd2d; rewrite E; [|destruct (cloudOf a)]; reflexivity. Qed.
Lemma kd2d_rigid a b g : rigid (snd (kd2d a b g)).
Proof. unfold kd2d. destruct (cloudOf a), (cloudOf b); apply rigid_id. Qed.
Definition kcorr (_ : R) (_ _ : list P2) (_ : T2) : res (bool * T2) := Ok (true, t2id).

(** Six beams around each of (2, 1), (3, 1) and (4, 2). *)
Definition kring (x y : Q) : list (option point) :=
  map (fun d => Some (x + fst d, y + snd d)%Q)
    [(-5#100, -5#100); (5#100, 5#100); (-1#10, 0); (1#10, 0); (0, -1#10); (0, 1#10)]%Q.
Definition kscan : list (option point) := kring 2 1 ++ kring 3 1 ++ kring 4 2 ++ repeat None 382.
(** The optimiser brings the nodes together. *)
Definition kest (_ : nat) : pose := at_ 0.
Definition kin (d : R) (addr : nat) : ainput (option point) R :=
  mkIn (along d) kscan None addr (mkLChoice 0%R (fun _ _ => 0)) (fun k => 1000 + k) kest.

Notation kadd g o := (mergeInTracedPcl pmerge pdflt padd pcompute ztrans pray zbtw ztp (n_setOrigin g o) kscan o true).
Definition kb0 : zgrid := Eval vm_compute in
  get (n_initialize pmerge pdflt padd pcompute ztrans pray zbtw ztp (newFrame pdflt) kscan) (newFrame pdflt).
Lemma kb0_ok : n_initialize pmerge pdflt padd pcompute ztrans pray zbtw ztp (newFrame pdflt) kscan = Ok kb0.
Proof. vm_compute. reflexivity. Qed.
Definition kb1 : zgrid := Eval vm_compute in get (kadd (newFrame pdflt) (mkPose 2 0 0)) (newFrame pdflt).
Lemma kb1_ok : kadd (newFrame pdflt) (mkPose 2 0 0) = Ok kb1.
Proof. vm_compute. reflexivity. Qed.
Lemma kmeans0 : exists l, n_means kb0 = Some l /\
  map (fun p : point => (Qred (fst p), Qred (snd p))) l = [(4, 2); (2, 1); (3, 1)]%Q /\ n_cs kb0 = 1#4.
Proof. eexists. vm_compute. repeat split. Qed.
Lemma kmeans1 : exists l, n_means kb1 = Some l /\
  map (fun p : point => (Qred (fst p), Qred (snd p))) l = [(4, 2); (2, 1); (3, 1)]%Q /\ n_cs kb1 = 1#4.
Proof. eexists. vm_compute. repeat split. Qed.

(** ** the match *)
Definition ktarget : list P2 := [(4, 2); (2, 1); (3, 1)]%R.
Lemma red_cloud l : map (fun p : point => (Qred (fst p), Qred (snd p))) l = [(4, 2); (2, 1); (3, 1)]%Q ->
  map (fun p => (Q2R (fst p), Q2R (snd p))) l = ktarget.
Proof.
  intro H.
  assert (E : map (fun p : point => (Q2R (fst p), Q2R (snd p))) l =
              map (fun p => (Q2R (fst p), Q2R (snd p))) (map (fun p : point => (Qred (fst p), Qred (snd p))) l)).
  { rewrite map_map. apply map_ext. intro p. cbn [fst snd].
    rewrite (Qeq_eqR _ _ (Qred_correct (fst p))), (Qeq_eqR _ _ (Qred_correct (snd p))). reflexivity. }
  etransitivity; [exact E|]. rewrite H. cbn [map fst snd]. unfold ktarget, Q2R. cbn [Qnum Qden]. repeat f_equal; lra.
Qed.
Lemma kcloud o b : b = kb0 \/ b = kb1 -> cloudOf (mkFrame o (Ok b)) = ktarget /\ sizeOf (mkFrame o (Ok b)) = (1 / 4)%R.
Proof.
  intros [-> | ->]; unfold cloudOf, sizeOf; cbn [f_body].
  - destruct kmeans0 as (l & -> & E & ->). split; [exact (red_cloud l E)|]. unfold Q2R. cbn. lra.
  - destruct kmeans1 as (l & -> & E & ->). split; [exact (red_cloud l E)|]. unfold Q2R. cbn. lra.
Qed.
Open Scope R_scope.
Lemma kbox t : boxOf t ktarget -> l_minx t = 0 /\ l_maxx t = 4 /\ l_miny t = 0 /\ l_maxy t = 2.
Proof.
  intros (A & (p1 & P1 & Q1) & (p2 & P2 & Q2) & (p3 & P3 & Q3) & (p4 & P4 & Q4)).
  pose proof (A (0, 0) (or_introl eq_refl)) as O.
  pose proof (A (4, 2) (or_intror (or_introl eq_refl))) as U. cbn [fst snd] in O, U.
  assert (K : forall p, p = (0, 0) \/ In p ktarget -> 0 <= fst p <= 4 /\ 0 <= snd p <= 2).
  { intros p [-> |[<-|[<-|[<-|[]]]]]; cbn; lra. }
  pose proof (K _ P1). pose proof (K _ P2). pose proof (K _ P3). pose proof (K _ P4). lra.
Qed.
Lemma kscore : exists t, initGrid ktarget (1 / 4) (1 / 2) = Ok t /\
  getScorePts t ktarget = Ok (Fin (2 / 3)).
Proof.
  destruct (init_good ktarget (1 / 4) (1 / 2)) as (t & E & G); [lra|lra|]. exists t. split; [exact E|].
  pose proof G as (_ & (G1 & G2 & G3 & _ & _ & _ & G7) & _ & V).
  destruct (kbox t G3) as (B1 & B2 & B3 & B4).
  assert (IN : forall p, In p ktarget -> CorrSpec.strictly t p -> ptScore t p = Ok 100%Z).
  { intros p I S. destruct (ptScore_ok _ _ _ _ p G) as [EP IB]. pose proof (proj2 (insideBox_spec t p) S) as IS.
    rewrite IS in EP. rewrite EP. f_equal. apply (V _ _ (IB IS)). exists p. split; [exact I|]. split; [exact S|].
    apply falls_iff; [|auto]. split; [rewrite G1; lra|rewrite G2, G1; lra]. }
  assert (P1 : ptScore t (2, 1) = Ok 100%Z).
  { apply IN; [now right; left|]. unfold CorrSpec.strictly. rewrite B1, B2, B3, B4. cbn. lra. }
  assert (P2 : ptScore t (3, 1) = Ok 100%Z).
  { apply IN; [now right; right; left|]. unfold CorrSpec.strictly. rewrite B1, B2, B3, B4. cbn. lra. }
  assert (P3 : ptScore t (4, 2) = Ok 0%Z).
  { destruct (ptScore_ok _ _ _ _ (4, 2) G) as [EP _]. destruct (insideBox t (4, 2)) eqn:I; [|exact EP].
    apply insideBox_spec in I. unfold CorrSpec.strictly in I. rewrite B1, B2, B3, B4 in I. cbn in I. lra. }
  unfold getScorePts, scoreOf. unfold ktarget at 1. cbn [foldM]. rewrite P3. cbn [bind]. rewrite P1. cbn [bind].
  rewrite P2. cbn [bind length ktarget Nat.eqb]. rewrite G7. cbn [length ktarget]. unfold OCCUPIED.
  replace (IZR 100 * INR 3) with 300 by (cbn; ring). unfold xdiv. destruct (Req_EM_T 300 0); [exfalso; lra|].
  do 2 f_equal. replace (0 + 0 + 100 + 100)%Z with 200%Z by reflexivity. lra.
Qed.
Lemma apply_id l : map (t2apply t2id) l = l.
Proof. rewrite <- (map_id l) at 2. apply map_ext. intros [x y]. unfold t2apply, t2id. cbn. f_equal; ring. Qed.
Lemma kmatch o0 o1 g : exists s, matchFrames cloudOf sizeOf kd2d kcorr (matcherWith (6 / 10))
    (mkFrame o0 (Ok kb0)) (mkFrame o1 (Ok kb1)) g =
  Ok (s, mkMR true (Fin (2 / 3)) (mkM 5000 0 0 0 5000 0 0 0 10000) t2id).
Proof.
  destruct (kcloud o0 kb0 (or_introl eq_refl)) as [C0 S0]. destruct (kcloud o1 kb1 (or_intror eq_refl)) as [C1 S1].
  set (f0 := mkFrame o0 (Ok kb0)) in *. set (f1 := mkFrame o1 (Ok kb1)) in *. clearbody f0 f1.
  destruct kscore as (t & E & SC).
  unfold matchFrames, matcherWith, setScoreThreshold, setRejectionLimit, newMatcher.
  destruct (Rlt_dec 0 (6 / 10)) as [_|N]; [|exfalso; lra]. destruct (Rlt_dec (6 / 10) 1) as [_|N]; [|exfalso; lra].
  unfold setInputSource. cbn [ms_limit ms_src ms_tgt ms_in ms_target ms_cell ms_conv ms_final ms_quality].
  unfold setInputTarget. cbn [ms_limit ms_src ms_tgt ms_in ms_target ms_cell ms_conv ms_final ms_quality].
  rewrite C0, C1, S1. unfold ktarget at 1 2. cbn [pclSet]. fold ktarget.
  set (s := mkMS _ _ _ _ _ _ _ _ _).
  assert (DD : forall g', runD2d kd2d s g' = (true, t2id)).
  { intro g'. unfold runD2d, s. cbn [ms_src ms_tgt]. unfold kd2d. rewrite C0, C1. reflexivity. }
  assert (PT : proofTransform s t2id = Ok (Fin (2 / 3))).
  { unfold proofTransform, s. cbn [ms_in ms_target ms_cell]. rewrite E. cbn [bind]. rewrite apply_id. exact SC. }
  unfold align. cbn [ms_in ms_target s]. fold s. unfold robustRun. rewrite DD. cbn [fst snd]. rewrite PT. cbn [bind].
  assert (G7 : xgt (Fin (2 / 3)) (Fin (7 / 10)) = false).
  { cbn. destruct (Rlt_dec (7 / 10) (2 / 3)); [exfalso; lra|reflexivity]. }
  rewrite G7. cbn [andb]. unfold runCorr. cbn [ms_in ms_target s]. unfold kcorr. cbn [bind fst snd negb].
  rewrite DD. cbn [fst snd negb]. unfold finishAlign. rewrite PT. cbn [bind].
  assert (L6 : xlt (Fin (2 / 3)) (Fin (ms_limit s)) = false).
  { cbn. destruct (Rlt_dec (2 / 3) (6 / 10)); [exfalso; lra|reflexivity]. }
  rewrite L6. cbn [bind]. eexists. reflexivity.
Qed.
Close Scope R_scope.

(** ** the run *)
Notation kle := (detector kd2d kcorr (6 / 10) 1 30 (Some false)).
Notation kenv := (sysEnv pmerge pdflt padd pcompute ztrans pray zbtw ztp t2id zorigin zmove zdbl 1 kle
                    (fun p => p) mid (15 / 10)).
Notation kreach := (yreach pmerge pdflt ztrans pray zraw zbtw ztp zdbl kenv).

Section Steps.
Context {Body Win Scan Guess D : Type}.
Variable env : aenv Body Win Scan Guess D.
Notation le := (e_lenv env).
Hypothesis HS : e_se2 env = fun p => p.
Hypothesis HG : gen_dist env = (15 / 10)%R.
Hypothesis HO : oob le = Some false.

Lemma k_left : leftWindow env (along 2) = true.
Proof using HG. unfold leftWindow. rewrite disp_along, Rabs_Rabsolu, HG, Rabs_pos_eq by lra. destruct (Rlt_dec _ _); [auto|lra]. Qed.

Lemma k_close0 (f : frame Body) ch fresh :
  tryLoopCloseLast (e_senv env) ch fresh (fst (addPose (e_senv env) slam_init (at_ 0) f)) =
  Ok (fst (addPose (e_senv env) slam_init (at_ 0) f), false).
Proof using HO.
  lazy -[oob at_ e_lenv e_se2 e_odo]. rewrite HO. reflexivity.
Qed.
Lemma k_step1 (a : alg Body Win) (i : ainput Scan D) w :
  a_slam a = slam_init -> a_first a = false -> f_origin (a_frame a) = at_ 0 ->
  a_init a = true -> a_win a = Some w -> a_unused a = t2id -> a_temp a = t2id ->
  a_map a = [] -> a_frames a = [] -> i_motion i = along 2 -> i_match i = None ->
  exists ct, update env a i =
  Ok (mkAlg true true 0 ct (along 2) t2id (along 2) (a_cumul a) t2id (a_matcher a) covar_new [0]
        (Some w) (mkFrame (at_ 2) (b_merge env (b_new env) (at_ 2) (i_scan i)))
        (fst (addPose (e_senv env) slam_init (at_ 0) (a_frame a))) [0],
      [AInc (along 2); ANode 0; ALoop false; ADraw (at_ 2) t2id; ARep KOdo (at_ 2)]).
Proof using HS HG HO.
  intros E1 E2 E3 E4 E5 E6 E7 E8 E9 I1 I2. unfold update. rewrite E4, E5, E6, I1, I2, t2mul_id_l, enough_along by lra.
  unfold updateGraph. cbn [setUnused a_temp]. rewrite E7, t2mul_id_l, k_left.
  unfold newNode. cbn [setUnused a_slam a_frame a_first a_ltrans a_lcov a_init a_unused a_cumul a_matcher a_map a_win a_frames].
  rewrite E1, E2, E3.
  assert (AP : exists s1, addPose (e_senv env) slam_init (at_ 0) (a_frame a) = (s1, 0)) by (eexists; reflexivity).
  destruct AP as (s1 & AP). pose proof (k_close0 (a_frame a) (i_choice i) (i_fresh i)) as L.
  assert (G : getPoseLocation (fst (addPose (e_senv env) slam_init (at_ 0) (a_frame a))) 0 = Ok (at_ 0)).
  { lazy -[at_]. reflexivity. }
  rewrite AP in *. cbn [fst] in *. cbn [bind]. rewrite L. cbn [bind]. rewrite G. cbn [bind fst snd].
  rewrite along_pose, along_mul. replace (0 + 2)%R with 2%R by ring. rewrite pose_along.
  rewrite E4, E5, E8, E9. cbn [a_pos app]. rewrite pose_along. eexists. reflexivity.
Qed.

Lemma k_graph f0 f1 inf inf' tr ch :
  d0 ch = d0 ch -> pick ch = (fun _ _ => 0) ->
  dlt le (euclid le (at_ 2) (at_ 0)) (max_dist le) = true ->
  dlt le (dadd le (d0 ch) (elen le (at_ 2))) (min_dist le) = false ->
  matcher le f0 f1 (guess le (at_ 2) (at_ 0)) = Some (inf', tr) -> exists s1 s2 e2 s3 s4 b4,
  addPose (e_senv env) (fst (addPose (e_senv env) slam_init (at_ 0) f0)) (at_ 2) f1 = (s1, 1) /\
  addLastConstrain (e_senv env) s1 8 (at_ 2) inf = Ok (s2, e2) /\
  tryLoopCloseLast (e_senv env) ch (fun k => 1000 + k) s2 = Ok (s3, true) /\
  optimalizeIterationaly (e_senv env) s3 kest = Ok (s4, b4) /\
  getPoseLocation s4 0 = Ok (at_ 0) /\ getPoseLocation s4 1 = Ok (at_ 0) /\
  getPoseData s4 0 = Ok (mkFrame (at_ 0) (f_body f0)) /\ getPoseData s4 1 = Ok (mkFrame (at_ 0) (f_body f1)) /\
  exists e, getEdge (s_graph s4) 1 = Ok e /\ e_from e = 1 /\ e_to e = 0 /\ e_trans e = tr /\ e_loop e = true.
Proof using HS HO.
  clear HG. intros _ PK C1 C2 M. destruct ch as [dd pk]. cbn [d0 pick] in *. subst pk.
  destruct env as [l s o g a1 a2 a3 a4 a5 a6 a7 a8]. cbn [e_lenv e_se2] in *. subst s.
  eexists _, _, _, _, _, _.
  split; [lazy -[IZR at_ mid f_body]; reflexivity|].
  split; [lazy -[IZR at_ mid f_body]; reflexivity|].
  split.
  { lazy -[IZR at_ mid f_body dlt euclid max_dist dadd elen min_dist matcher guess oob].
    rewrite C1, C2, M, HO. lazy -[IZR at_ mid f_body dlt euclid max_dist dadd elen min_dist matcher guess oob].
    reflexivity. }
  split; [lazy -[IZR at_ mid f_body kest]; reflexivity|].
  split; [lazy -[IZR at_ f_body]; reflexivity|].
  split; [lazy -[IZR at_ f_body]; reflexivity|].
  split; [lazy -[IZR at_ f_body]; reflexivity|].
  split; [lazy -[IZR at_ f_body]; reflexivity|].
  eexists. split; [lazy -[IZR at_ f_body]; reflexivity|]. repeat split.
Qed.

Lemma k_step2 (a : alg Body Win) (i : ainput Scan D) w f0 inf' tr :
  a_slam a = fst (addPose (e_senv env) slam_init (at_ 0) f0) -> a_first a = true -> f_origin (a_frame a) = at_ 2 ->
  a_ltrans a = along 2 -> a_init a = true -> a_win a = Some w -> a_unused a = t2id -> a_temp a = t2id ->
  a_map a = [0] -> a_frames a = [0] ->
  pick (i_choice i) = (fun _ _ => 0) -> i_fresh i = (fun k => 1000 + k) -> i_est i = kest -> i_addr i = 8 ->
  i_motion i = along 2 -> i_match i = None ->
  dlt le (euclid le (at_ 2) (at_ 0)) (max_dist le) = true ->
  dlt le (dadd le (d0 (i_choice i)) (elen le (at_ 2))) (min_dist le) = false ->
  matcher le f0 (a_frame a) (guess le (at_ 2) (at_ 0)) = Some (inf', tr) ->
  exists ct s, update env a i =
  Ok (mkAlg true true 1 ct (along 2) t2id (along 2) (a_cumul a) t2id (a_matcher a) covar_new [0; 1]
        (Some w) (mkFrame (at_ 2) (b_merge env (b_new env) (at_ 2) (i_scan i))) s [0; 1],
      [AInc (along 2); ANode 1; ALoop true; ARedraw; ADraw (at_ 2) t2id; ARep KOdo (at_ 2)]) /\
  getPoseData s 0 = Ok (mkFrame (at_ 0) (f_body f0)) /\ getPoseData s 1 = Ok (mkFrame (at_ 0) (f_body (a_frame a))) /\
  getPoseLocation s 0 = Ok (at_ 0) /\ getPoseLocation s 1 = Ok (at_ 0) /\
  exists e, getEdge (s_graph s) 1 = Ok e /\ e_from e = 1 /\ e_to e = 0 /\ e_trans e = tr /\ e_loop e = true.
Proof using HS HG HO.
  intros E1 E2 E3 E4 E5 E6 E7 E8 E9 E10 I1 I2 I3 I4 I5 I6 C1 C2 M.
  unfold update. rewrite E5, E6, E7, I5, I6, t2mul_id_l, enough_along by lra.
  unfold updateGraph. cbn [setUnused a_temp]. rewrite E8, t2mul_id_l, k_left.
  unfold newNode. cbn [setUnused a_slam a_frame a_first a_ltrans a_lcov a_init a_unused a_cumul a_matcher a_map a_win a_frames].
  rewrite E1, E2, E3, E4, I2, I3, I4, pose_along.
  destruct (k_graph f0 (a_frame a) (minv (a_lcov a)) inf' tr (i_choice i) eq_refl I1 C1 C2 M)
    as (s1 & s2 & e2 & s3 & s4 & b4 & AP & H2 & H3 & H4 & G0 & G1 & D0 & D1 & GE).
  rewrite AP, H2. cbn [bind fst]. rewrite H3. cbn [bind fst]. rewrite H4. cbn [bind fst]. rewrite G1. cbn [bind fst snd].
  rewrite along_pose, along_mul. replace (0 + 2)%R with 2%R by ring. rewrite pose_along.
  cbn [a_pos]. rewrite E5, E6, E9, E10, pose_along. eexists _, s4. split; [reflexivity|]. auto 10.
Qed.
End Steps.

Notation kaddFrame := (addFrame pmerge pdflt ztrans pray zraw zbtw ztp).
Notation krecalc := (recalc pmerge pdflt ztrans pray zraw zbtw ztp).
Definition kfs : list zgrid :=
  [n_setTimestamp (n_setOrigin kb0 (mkPose 0 0 0)) 2; n_setTimestamp (n_setOrigin kb1 (mkPose 0 0 0)) 3].
Definition km1 : mapper (list point) := Eval vm_compute in
  get (kaddFrame (m_new pdflt) (n_setOrigin kb0 (mkPose 0 0 0)) 2) (m_new pdflt).
Lemma km1_ok : kaddFrame (m_new pdflt) (n_setOrigin kb0 (mkPose 0 0 0)) 2 = Ok km1.
Proof. vm_compute. reflexivity. Qed.
Definition km2 : mapper (list point) := Eval vm_compute in
  get (kaddFrame km1 (n_setOrigin kb1 (mkPose 2 0 0)) 3) (m_new pdflt).
Lemma km2_ok : kaddFrame km1 (n_setOrigin kb1 (mkPose 2 0 0)) 3 = Ok km2.
Proof. vm_compute. reflexivity. Qed.
Definition km3 : mapper (list point) := Eval vm_compute in get (krecalc km2 kfs 3) (m_new pdflt).
Lemma km3_ok : krecalc km2 kfs 3 = Ok km3.
Proof. vm_compute. reflexivity. Qed.
Lemma kb1_merge : bMerge pmerge pdflt padd pcompute ztrans pray zbtw ztp zdbl (Ok (newFrame pdflt)) (at_ 2) kscan = Ok kb1.
Proof. unfold bMerge. cbn [bind]. rewrite (proj1 (zpose 2 0)). exact kb1_ok. Qed.

Definition kh : list (yev R) :=
  [mkYE (kin 2 8) 3 [AInc (along 2); ANode 1; ALoop true; ARedraw; ADraw (at_ 2) t2id; ARep KOdo (at_ 2)];
   mkYE (kin 2 7) 2 [AInc (along 2); ANode 0; ALoop false; ADraw (at_ 2) t2id; ARep KOdo (at_ 2)];
   mkYE (kin 0 0) 1 [ADraw (at_ 0) t2id; ARep KFirst (at_ 0)]].
Definition ka0 : alg (res zgrid) (res zgrid) := firstScan kenv (alg_new kenv) (kin 0 0).
Lemma k_first : update kenv (alg_new kenv) (kin 0 0) = Ok (ka0, [ADraw (at_ 0) t2id; ARep KFirst (at_ 0)]).
Proof. unfold update. cbn [alg_new a_init]. rewrite pose_id. reflexivity. Qed.

Lemma ksqrt x : (0 <= x)%R -> sqrt (x ^ 2 + 0 ^ 2) = x.
Proof. intro H. replace (x ^ 2 + 0 ^ 2)%R with (Rsqr x) by (unfold Rsqr; ring). now apply sqrt_Rsqr. Qed.
Notation kstep := (ystep pmerge pdflt ztrans pray zraw zbtw ztp zdbl kenv).
Definition ky0 : sys (list point) := mkSys ka0 (m_new pdflt) [] 0 1.
Lemma ksteps : exists a1 a2,
  let y1 := mkSys a1 km1 [(0, 2%Q)] 0 1 in let y := mkSys a2 km3 [(0, 2%Q); (1, 3%Q)] 0 1 in
  kstep (sys_new pdflt kenv) (mkYE (kin 0 0) 1 [ADraw (at_ 0) t2id; ARep KFirst (at_ 0)]) ky0 /\
  kstep ky0 (mkYE (kin 2 7) 2 [AInc (along 2); ANode 0; ALoop false; ADraw (at_ 2) t2id; ARep KOdo (at_ 2)]) y1 /\
  kstep y1 (mkYE (kin 2 8) 3 [AInc (along 2); ANode 1; ALoop true; ARedraw; ADraw (at_ 2) t2id; ARep KOdo (at_ 2)]) y /\
  (let w := Some (wNew pmerge pdflt padd pcompute ztrans pray zbtw ztp 1 kscan) in a_win a1 = w /\ a_win a2 = w) /\
  getPoseData (a_slam (y_alg y)) 0 = Ok (mkFrame (at_ 0) (Ok kb0)) /\
  getPoseData (a_slam (y_alg y)) 1 = Ok (mkFrame (at_ 0) (Ok kb1)) /\
  getPoseLocation (a_slam (y_alg y)) 0 = Ok (at_ 0) /\ getPoseLocation (a_slam (y_alg y)) 1 = Ok (at_ 0) /\
  exists e, getEdge (s_graph (a_slam (y_alg y))) 1 = Ok e /\ e_from e = 1 /\ e_to e = 0 /\ e_trans e = at_ 0 /\ e_loop e = true.
Proof.
  assert (F0 : a_frame ka0 = mkFrame (at_ 0) (Ok kb0)).
  { unfold ka0, firstScan. cbn [a_frame sysEnv b_init alg_new b_new f_body kin i_scan].
    rewrite bInit_gen, kb0_ok. reflexivity. }
  destruct (k_step1 kenv eq_refl eq_refl eq_refl ka0 (kin 2 7) (wNew pmerge pdflt padd pcompute ztrans pray zbtw ztp 1 kscan)) as (c1 & U1);
    try reflexivity.
  set (a1 := mkAlg _ _ _ _ _ _ _ _ _ _ _ _ _ _ _ _) in U1.
  assert (F1 : a_frame a1 = mkFrame (at_ 2) (Ok kb1)).
  { unfold a1. cbn [a_frame sysEnv b_merge b_new kin i_scan]. rewrite kb1_merge. reflexivity. }
  destruct (k_step2 kenv eq_refl eq_refl eq_refl a1 (kin 2 8) (wNew pmerge pdflt padd pcompute ztrans pray zbtw ztp 1 kscan)
              (a_frame ka0) (mkM 5000 0 0 0 5000 0 0 0 10000) (at_ 0)) as (c2 & s4 & U2 & D0 & D1 & L0 & L1 & GE); try reflexivity.
  { cbn [e_lenv sysEnv detector dlt euclid max_dist]. unfold ltR, nodeDist, at_. cbn [px py].
    replace (2 - 0)%R with 2%R by ring. replace (0 - 0)%R with 0%R by ring. rewrite ksqrt by lra.
    destruct (Rlt_dec 2 30); [reflexivity|exfalso; lra]. }
  { cbn [e_lenv sysEnv detector dlt dadd elen min_dist kin i_choice d0]. unfold ltR, edgeLen.
    rewrite along_pose, along_inv. cbn [along tx ty].
    replace ((- (2)) ^ 2 + 0 ^ 2)%R with (2 ^ 2 + 0 ^ 2)%R by ring. rewrite ksqrt by lra.
    destruct (Rlt_dec (0 + 2) 1); [exfalso; lra|reflexivity]. }
  { rewrite F0, F1. cbn [e_lenv sysEnv detector matcher guess]. unfold loopMatch.
    destruct (kmatch (at_ 0) (at_ 2) (startGuess (at_ 2) (at_ 0))) as (s & ->). cbn [mr_success mr_inform mr_transform].
    rewrite pose_id. reflexivity. }
  rewrite F0 in D0. rewrite F1 in D1. cbn [f_body] in D0, D1.
  set (a2 := mkAlg _ _ _ _ _ _ _ _ _ _ _ _ _ _ _ _) in U2.
  assert (Y0 : kstep (sys_new pdflt kenv) (mkYE (kin 0 0) 1 [ADraw (at_ 0) t2id; ARep KFirst (at_ 0)]) ky0).
  { eapply (ystep_intro _ _ _ _ _ _ _ _ kenv (sys_new pdflt kenv) (kin 0 0) 1%Q ka0); [exact k_first|].
    apply draw_none. intros id [H|[H|[]]]; discriminate. }
  pose (e2 := [AInc (along 2); ANode 0; ALoop false; ADraw (at_ 2) t2id; ARep KOdo (at_ 2)]).
  pose (e3 := [AInc (along 2); ANode 1; ALoop true; ARedraw; ADraw (at_ 2) t2id; ARep KOdo (at_ 2)]).
  assert (Y1 : kstep ky0 (mkYE (kin 2 7) 2 e2) (mkSys a1 km1 [(0, 2%Q)] 0 1)).
  { apply (ystep_intro _ _ _ _ _ _ _ _ kenv (mkSys ka0 (m_new pdflt) [] 0 1) (kin 2 7) 2%Q a1 e2 km1 _ U1).
    apply (draw_add _ _ _ _ _ _ _ _ (mkSys ka0 (m_new pdflt) [] 0 1) a1 e2 2%Q 0 (n_setOrigin kb0 (mkPose 0 0 0)) km1).
    - right; left; reflexivity.
    - intros H. cbn in H. intuition discriminate.
    - cbn [y_alg]. unfold gridOf. rewrite F0. cbn [f_body f_origin bind]. rewrite (zpose0 0). reflexivity.
    - exact km1_ok. }
  assert (Y2 : kstep (mkSys a1 km1 [(0, 2%Q)] 0 1) (mkYE (kin 2 8) 3 e3) (mkSys a2 km3 [(0, 2%Q); (1, 3%Q)] 0 1)).
  { apply (ystep_intro _ _ _ _ _ _ _ _ kenv (mkSys a1 km1 [(0, 2%Q)] 0 1) (kin 2 8) 3%Q a2 e3 km3 _ U2).
    apply (draw_again _ _ _ _ _ _ _ _ (mkSys a1 km1 [(0, 2%Q)] 0 1) a2 e3 3%Q 1 (n_setOrigin kb1 (mkPose 2 0 0)) km2
         kfs (combine [(0, 2%Q); (1, 3%Q)] kfs) km3).
    - right; left; reflexivity.
    - right; right; right; left; reflexivity.
    - cbn [y_alg]. unfold gridOf. rewrite F1. cbn [f_body f_origin bind]. rewrite (zpose0 2). reflexivity.
    - exact km2_ok.
    - cbn [y_order app map]. unfold frameNow. cbn [fst snd a_slam a2]. rewrite D0, D1. unfold gridOf.
      cbn [f_body f_origin bind]. rewrite !(zpose0 0). reflexivity.
    - apply Permutation_refl.
    - cbn [combine map snd kfs]. repeat constructor; unfold earlier; cbn [n_time n_setTimestamp]; discriminate.
    - exact km3_ok. }
  exists a1, a2. split; [exact Y0|]. split; [exact Y1|]. split; [exact Y2|]. split; [split; reflexivity|].
  split; [exact D0|]. split; [exact D1|]. split; [exact L0|]. split; [exact L1|]. exact GE.
Qed.
Lemma kreach_h : exists y, kreach kh y /\ y_order y = [(0, 2%Q); (1, 3%Q)] /\
  getPoseData (a_slam (y_alg y)) 0 = Ok (mkFrame (at_ 0) (Ok kb0)) /\
  getPoseData (a_slam (y_alg y)) 1 = Ok (mkFrame (at_ 0) (Ok kb1)) /\
  getPoseLocation (a_slam (y_alg y)) 0 = Ok (at_ 0) /\ getPoseLocation (a_slam (y_alg y)) 1 = Ok (at_ 0) /\
  exists e, getEdge (s_graph (a_slam (y_alg y))) 1 = Ok e /\ e_from e = 1 /\ e_to e = 0 /\ e_trans e = at_ 0 /\ e_loop e = true.
Proof.
  destruct ksteps as (a1 & a2 & Y0 & Y1 & Y2 & _ & F). eexists. split; [|split; [|exact F]]; [|reflexivity].
  exact (yreach_step _ _ _ _ _ _ _ _ _ _ _ _ _ (yreach_step _ _ _ _ _ _ _ _ _ _ _ _ _
    (yreach_step _ _ _ _ _ _ _ _ _ _ _ _ _ (yreach_new _ _ _ _ _ _ _ _ _) Y0) Y1) Y2).
Qed.
