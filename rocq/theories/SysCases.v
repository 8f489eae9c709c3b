(** A concrete run of the whole system: a robot going along the x axis sees one
    obstacle, makes two nodes and closes a loop. *)
From Coq Require Import Reals Qreals R_Ifp Lra List ZArith QArith Bool Lia Arith Sorting.Permutation Sorting.Sorted.
From Verif Require Import Base LinAlg3 GeoModel GeoSpec GeoProofs.
From Verif Require Import GraphModel GraphSpec LoopModel SlamModel AlgModel AlgSpec AlgProofs AlgCases.
From Verif Require Import VoxelModel VoxelSpec GridModel GridSpec GridProofs ScanSpec ScanInit GridCases MapModel MapSpec SysModel SysSpec SysMap.
Import ListNotations.
Open Scope nat_scope.

Notation zcell := (ncell (list point)).
Notation zgrid := (ngrid (list point)).
(** Doubles: whole numbers are enough here. *)
Definition zdbl (r : R) : Q := inject_Z (Int_part r).
Lemma zdbl_int z : zdbl (IZR z) = inject_Z z.
Proof.
  unfold zdbl. f_equal. destruct (base_Int_part (IZR z)) as [A B].
  assert (X : (IZR (Int_part (IZR z)) < IZR (z + 1))%R) by (rewrite plus_IZR; lra).
  assert (Y : (IZR z < IZR (Int_part (IZR z) + 1))%R) by (rewrite plus_IZR; lra).
  apply le_IZR in A. apply lt_IZR in X, Y. lia.
Qed.
Definition zbtw (a b : qpose) : qtrans T2 := mkTr t2id (p_x a - p_x b)%Q (p_y a - p_y b)%Q.
Definition ztp (t : qtrans T2) (p : point) : point := (fst p + tr_x t, snd p + tr_y t)%Q.
Definition ztrans (t : qtrans T2) (c : zcell) : zcell :=
  if nc_gauss c then mkC (ztp t (nc_mean c)) true (map (ztp t) (nc_rest c)) else c.
Definition zorigin (p : qpose) (t : qtrans T2) : qpose := mkPose (p_x p + tr_x t) (p_y p + tr_y t) (p_th p).
Definition zmove (t : T2) (p : point) : point := (fst p + zdbl (tx t), snd p + zdbl (ty t))%Q.
Definition zraw (c : zcell) : Q := if nc_gauss c then 1 else 0.
Definition zlenv (close : bool) : lenv pose (frame (res zgrid)) M3 unit Z :=
  mkLEnv Z.add Z.ltb (fun _ _ => 0%Z) (fun _ => 1%Z) 0%Z 1%Z (fun _ _ => tt)
         (fun _ _ _ => if close then Some (mid, at_ 1) else None) (Some false).
Notation zenv := (sysEnv pmerge pdflt padd pcompute ztrans pray zbtw ztp t2id zorigin zmove zdbl 1 (zlenv true)
                    (fun p => p) mid (15 / 10)).
Notation zreach := (yreach pmerge pdflt ztrans pray zraw zbtw ztp zdbl zenv).
(** Six beams that hit the obstacle around (3, 1), one that does not return. *)
Definition zscan : list (option point) :=
  [Some (295#100, 95#100); Some (305#100, 105#100); None; Some (290#100, 1); Some (310#100, 1);
   Some (3, 9#10); Some (3, 11#10)]%Q ++ repeat None 393.
Definition zest (k : nat) : pose := match k with O => at_ 0 | _ => at_ 5 end.
Definition zin (d : R) (m : option R) (addr : nat) : ainput (option point) Z :=
  mkIn (along d) zscan (option_map along m) addr (mkLChoice 0%Z (fun _ _ => 0)) (fun k => 1000 + k) zest.

Lemma zpose x z : qposeOf zdbl (at_ (IZR x)) = mkPose (inject_Z x) 0 0 /\ zdbl (IZR z) = inject_Z z.
Proof.
  split; [|apply zdbl_int]. unfold qposeOf, at_. cbn [px py pth]. rewrite !zdbl_int. reflexivity.
Qed.
Lemma zmove_id p : zmove t2id p = p.
Proof.
  unfold zmove. cbn [tx ty t2id]. rewrite !zdbl_int. destruct p as [[a b] [c d]]. cbn [fst snd]. unfold Qplus, inject_Z. cbn [Qnum Qden].
  rewrite !Z.mul_1_r, !Z.mul_0_l, !Z.add_0_r, !Pos.mul_1_r. reflexivity.
Qed.
Lemma zgauss t c : nc_gauss (ztrans t c) = nc_gauss c.
Proof. unfold ztrans. destruct (nc_gauss c) eqn:E; [reflexivity|exact E]. Qed.
Lemma zmean t c : nc_gauss c = true -> nc_mean (ztrans t c) = ztp t (nc_mean c).
Proof. unfold ztrans. intros ->. reflexivity. Qed.
Lemma zself o : peq (ztp (zbtw o o) (0, 0)%Q) (0, 0)%Q.
Proof. unfold ztp, zbtw, peq. cbn [fst snd tr_x tr_y]. split; ring. Qed.

Notation zadd g o := (mergeInTracedPcl pmerge pdflt padd pcompute ztrans pray zbtw ztp (n_setOrigin g o) zscan o true).
Definition get {A} (r : res A) (d : A) : A := match r with Ok a => a | _ => d end.
(** bodies of the frames: the first and the later ones *)
Definition zb0 : zgrid := Eval vm_compute in
  get (n_initialize pmerge pdflt padd pcompute ztrans pray zbtw ztp (newFrame pdflt) zscan) (newFrame pdflt).
Lemma zb0_ok : n_initialize pmerge pdflt padd pcompute ztrans pray zbtw ztp (newFrame pdflt) zscan = Ok zb0.
Proof. vm_compute. reflexivity. Qed.
Definition zb1 : zgrid := Eval vm_compute in get (zadd (newFrame pdflt) (mkPose 2 0 0)) (newFrame pdflt).
Lemma zb1_ok : zadd (newFrame pdflt) (mkPose 2 0 0) = Ok zb1.
Proof. vm_compute. reflexivity. Qed.
(** the window: new, with the second scan, moved *)
Definition zw0 : zgrid := Eval vm_compute in
  get (wNew pmerge pdflt padd pcompute ztrans pray zbtw ztp 1 zscan) (newFrame pdflt).
Lemma zw0_ok : wNew pmerge pdflt padd pcompute ztrans pray zbtw ztp 1 zscan = Ok zw0.
Proof. vm_compute. reflexivity. Qed.
Notation zafter g l x := (
  do l' <- n_initialize pmerge pdflt padd pcompute ztrans pray zbtw ztp (n_setOrigin (newFrame pdflt) (n_pose g)) zscan;
  do l'' <- n_transform pmerge ztrans t2id zorigin l' (mkTr l x 0);
  do g' <- mergeInTraced pmerge pdflt ztrans pray zbtw ztp g l'' true true;
  n_move g' (mkTr l x 0)).
Definition zw1 : zgrid := Eval vm_compute in fst (get (zafter zw0 t2id 2) (newFrame pdflt, mkTr t2id 0 0)).
Lemma zw1_ok l : zafter zw0 l (inject_Z 2) = Ok (zw1, mkTr l (0#4) 0).
Proof. vm_compute. reflexivity. Qed.
Definition zw2 : zgrid := Eval vm_compute in fst (get (zafter zw1 t2id 1) (newFrame pdflt, mkTr t2id 0 0)).
Lemma zw2_ok l : zafter zw1 l (inject_Z 1) = Ok (zw2, mkTr l (0#4) 0).
Proof. vm_compute. reflexivity. Qed.

Lemma win_gen {X} (merge : ncell X -> ncell X -> ncell X) dflt addPt compute tcell occRay btw tp noLin moveOrigin dbl
    (g : ngrid X) (s : list (option point)) t w r :
  (do l <- n_initialize merge dflt addPt compute tcell occRay btw tp (n_setOrigin (newFrame dflt) (n_pose g)) s;
   do l' <- n_transform merge tcell noLin moveOrigin l (toQ dbl t);
   do g' <- mergeInTraced merge dflt tcell occRay btw tp g l' true true;
   n_move g' (toQ dbl t)) = Ok (w, r) ->
  wMove dbl (wMerge merge dflt addPt compute tcell occRay btw tp noLin moveOrigin dbl (Ok g) s t) t = (Ok w, ofQ r).
Proof.
  unfold wMove, wMerge. cbn [bind].
  destruct (n_initialize _ _ _ _ _ _ _ _ _ _) as [l'| |]; cbn [bind]; try discriminate.
  destruct (n_transform _ _ _ _ _ _) as [l''| |]; cbn [bind]; try discriminate.
  destruct (mergeInTraced _ _ _ _ _ _ _ _ _ _) as [g'| |]; cbn [bind]; try discriminate.
  intro H. rewrite H. reflexivity.
Qed.
Lemma toQ_along x : toQ zdbl (along (IZR x)) = mkTr (along (IZR x)) (inject_Z x) 0%Q.
Proof. unfold toQ. cbn [along tx ty]. rewrite !zdbl_int. reflexivity. Qed.
Lemma zero_four : Q2R (0 # 4) = 0%R.
Proof. unfold Q2R. cbn. lra. Qed.
Lemma zero_one : Q2R 0 = 0%R.
Proof. unfold Q2R. cbn. lra. Qed.
Lemma zw1_win : wMove zdbl (wMerge pmerge pdflt padd pcompute ztrans pray zbtw ztp t2id zorigin zdbl (Ok zw0) zscan (along 2))
    (along 2) = (Ok zw1, along 0).
Proof.
  rewrite (win_gen _ _ _ _ _ _ _ _ _ _ _ zw0 zscan (along 2) zw1 (mkTr (along 2) (0#4) 0)).
  - unfold ofQ. cbn [tr_lin tr_x tr_y along ta tb tc td]. rewrite zero_four, zero_one. reflexivity.
  - rewrite (toQ_along 2). pose proof (zw1_ok (along 2)) as H. exact H.
Qed.
Lemma zw2_win : wMove zdbl (wMerge pmerge pdflt padd pcompute ztrans pray zbtw ztp t2id zorigin zdbl (Ok zw1) zscan (along 1))
    (along 1) = (Ok zw2, along 0).
Proof.
  rewrite (win_gen _ _ _ _ _ _ _ _ _ _ _ zw1 zscan (along 1) zw2 (mkTr (along 1) (0#4) 0)).
  - unfold ofQ. cbn [tr_lin tr_x tr_y along ta tb tc td]. rewrite zero_four, zero_one. reflexivity.
  - rewrite (toQ_along 1). pose proof (zw2_ok (along 1)) as H. exact H.
Qed.

Lemma zleft d : leftWindow zenv (along d) = if Rlt_dec (15 / 10) (Rabs d) then true else false.
Proof. unfold leftWindow. rewrite disp_along, Rabs_Rabsolu. reflexivity. Qed.
Lemma zleft_yes d : (15 / 10 < d)%R -> leftWindow zenv (along d) = true.
Proof. intro H. rewrite zleft, Rabs_pos_eq by lra. destruct (Rlt_dec _ _); [auto|lra]. Qed.
Lemma zleft_no d : (0 <= d <= 15 / 10)%R -> leftWindow zenv (along d) = false.
Proof. intro H. rewrite zleft, Rabs_pos_eq by lra. destruct (Rlt_dec _ _); [lra|auto]. Qed.


(** the first call *)
Definition za0 : alg (res zgrid) (res zgrid) := firstScan zenv (alg_new zenv) (zin 0 None 0).
Lemma z_first : update zenv (alg_new zenv) (zin 0 None 0) = Ok (za0, [ADraw (at_ 0) t2id; ARep KFirst (at_ 0)]).
Proof. unfold update. cbn [alg_new a_init]. rewrite pose_id. reflexivity. Qed.

(** the second: matched, far enough for a node *)
Lemma zb1_merge : bMerge pmerge pdflt padd pcompute ztrans pray zbtw ztp zdbl (Ok (newFrame pdflt)) (at_ 2) zscan = Ok zb1.
Proof. unfold bMerge. cbn [bind]. rewrite (proj1 (zpose 2 0)). exact zb1_ok. Qed.
Lemma z_newNode (env : aenv (res zgrid) (res zgrid) (option point) unit Z) a i ctemp :
  e_senv env = e_senv zenv -> a_slam a = slam_init -> a_first a = false -> f_origin (a_frame a) = at_ 0 ->
  i_choice i = mkLChoice 0%Z (fun _ _ => 0) -> i_fresh i = (fun k => 1000 + k) ->
  newNode env a i (along 2) ctemp =
  Ok (mkAlg (a_init a) true 0 ctemp (along 2) (a_unused a) (along 2) (a_cumul a) t2id (a_matcher a) covar_new
        (a_map a ++ [0]) (a_win a) (mkFrame (at_ 2) (b_merge env (b_new env) (at_ 2) (i_scan i)))
        (fst (addPose (e_senv env) slam_init (at_ 0) (a_frame a))) (a_frames a ++ [0]),
      [ANode 0; ALoop false; ADraw (at_ 2) t2id]).
Proof.
  intros E0 E1 E2 E3 E4 E5. unfold newNode. rewrite E1, E2, E3, E4, E5, E0. clear E0 E1 E3 E4 E5 E2.
  match goal with |- context [addPose ?e ?s ?p ?f] => destruct (addPose e s p f) as [s1 id] eqn:AP end.
  assert (H : id = 0) by (injection AP as _ <-; reflexivity). subst id. cbn [bind fst].
  match goal with |- context [tryLoopCloseLast ?e ?c ?f s1] =>
    assert (L : tryLoopCloseLast e c f s1 = Ok (s1, false)) by (injection AP as <-; reflexivity) end.
  rewrite L. cbn [bind].
  assert (G : getPoseLocation s1 0 = Ok (at_ 0)) by (injection AP as <-; reflexivity).
  rewrite G. cbn [bind]. rewrite along_pose, along_mul.
  replace (0 + 2)%R with 2%R by ring. rewrite pose_along. reflexivity.
Qed.
Lemma z_step2 (env : aenv (res zgrid) (res zgrid) (option point) unit Z) a i w w' c :
  e_senv env = e_senv zenv -> gen_dist env = (15 / 10)%R ->
  a_slam a = slam_init -> a_first a = false -> f_origin (a_frame a) = at_ 0 ->
  a_init a = true -> a_win a = Some w -> a_unused a = t2id -> a_temp a = t2id -> a_matcher a = at_ 0 ->
  a_map a = [] -> a_frames a = [] ->
  i_choice i = mkLChoice 0%Z (fun _ _ => 0) -> i_fresh i = (fun k => 1000 + k) ->
  i_motion i = along 2 -> i_match i = Some (along 2) ->
  w_origin env w = at_ 0 -> w_move env (w_merge env w (i_scan i) (along 2)) (along 2) = (w', c) ->
  exists ct, update env a i =
  Ok (mkAlg true true 0 ct (along 2) t2id (along 2) c t2id (at_ 2) covar_new [0]
        (Some w') (mkFrame (at_ 2) (b_merge env (b_new env) (at_ 2) (i_scan i)))
        (fst (addPose (e_senv env) slam_init (at_ 0) (a_frame a))) [0],
      [AInc (along 2); ANode 0; ALoop false; ADraw (at_ 2) t2id; ARep (KMatch (at_ 0) (along 2)) (at_ 2)]).
Proof.
  intros S G E1 E2 E3 E4 E5 E6 E7 E8 E9 E10 I1 I2 I3 I4 W1 W2.
  unfold update. rewrite E4, E5, E6, I3, I4, W1, W2, E8, t2mul_id_l, enough_along by lra.
  rewrite !along_pose, along_mul. replace (0 + 2)%R with 2%R by ring. rewrite pose_along, along_pose, along_inv, along_mul.
  replace (- 0 + 2)%R with 2%R by ring.
  unfold updateGraph. cbn [setUnused setMatcher a_temp]. rewrite E7, t2mul_id_l.
  assert (L : leftWindow env (along 2) = true).
  { unfold leftWindow. rewrite disp_along, Rabs_Rabsolu, G, Rabs_pos_eq by lra. destruct (Rlt_dec _ _); [auto|lra]. }
  rewrite L. rewrite z_newNode; [|assumption..].
  cbn [bind fst snd setWindow setUnused setMatcher a_init a_first a_last a_lcov a_ltrans a_unused a_pos a_temp a_matcher a_ctemp a_map a_win a_frame a_slam a_frames app].
  rewrite E4, E9, E10, pose_along. eexists. reflexivity.
Qed.
Lemma z_graph f0 f1 inf : exists s1 s2 e2 s3 s4 b4,
  addPose (e_senv zenv) (fst (addPose (e_senv zenv) slam_init (at_ 0) f0)) (at_ 2) f1 = (s1, 1) /\
  addLastConstrain (e_senv zenv) s1 8 (at_ 2) inf = Ok (s2, e2) /\
  tryLoopCloseLast (e_senv zenv) (mkLChoice 0%Z (fun _ _ => 0)) (fun k => 1000 + k) s2 = Ok (s3, true) /\
  optimalizeIterationaly (e_senv zenv) s3 zest = Ok (s4, b4) /\
  getPoseLocation s4 1 = Ok (at_ 5) /\
  getPoseData s4 0 = Ok (mkFrame (at_ 0) (f_body f0)) /\ getPoseData s4 1 = Ok (mkFrame (at_ 5) (f_body f1)).
Proof.
  eexists _, _, _, _, _, _.
  split; [lazy -[at_ mid f_body]; reflexivity|].
  split; [lazy -[at_ mid f_body]; reflexivity|].
  split; [lazy -[at_ mid f_body]; reflexivity|].
  split; [lazy -[at_ mid f_body zest]; reflexivity|].
  split; [lazy -[at_ f_body]; reflexivity|].
  split; lazy -[at_ f_body]; reflexivity.
Qed.
Lemma z_step3 (env : aenv (res zgrid) (res zgrid) (option point) unit Z) a i w f0 :
  e_senv env = e_senv zenv -> gen_dist env = (15 / 10)%R ->
  a_slam a = fst (addPose (e_senv env) slam_init (at_ 0) f0) -> a_first a = true -> f_origin (a_frame a) = at_ 2 ->
  a_ltrans a = along 2 ->
  a_init a = true -> a_win a = Some w -> a_unused a = t2id -> a_temp a = t2id ->
  a_map a = [0] -> a_frames a = [0] ->
  i_choice i = mkLChoice 0%Z (fun _ _ => 0) -> i_fresh i = (fun k => 1000 + k) -> i_est i = zest -> i_addr i = 8 ->
  i_motion i = along 2 -> i_match i = None ->
  exists ct s, update env a i =
  Ok (mkAlg true true 1 ct (along 2) t2id (along 7) (a_cumul a) t2id (a_matcher a) covar_new [0; 1]
        (Some w) (mkFrame (at_ 7) (b_merge env (b_new env) (at_ 7) (i_scan i))) s [0; 1],
      [AInc (along 2); ANode 1; ALoop true; ARedraw; ADraw (at_ 7) t2id; ARep KOdo (at_ 7)]) /\
  getPoseData s 0 = Ok (mkFrame (at_ 0) (f_body f0)) /\ getPoseData s 1 = Ok (mkFrame (at_ 5) (f_body (a_frame a))) /\
  getPoseLocation s 1 = Ok (at_ 5).
Proof.
  intros S G E1 E2 E3 E4 E5 E6 E7 E8 E9 E10 I1 I2 I3 I4 I5 I6.
  unfold update. rewrite E5, E6, E7, I5, I6, t2mul_id_l, enough_along by lra.
  unfold updateGraph. cbn [setUnused a_temp]. rewrite E8, t2mul_id_l.
  assert (L : leftWindow env (along 2) = true).
  { unfold leftWindow. rewrite disp_along, Rabs_Rabsolu, G, Rabs_pos_eq by lra. destruct (Rlt_dec _ _); [auto|lra]. }
  rewrite L. unfold newNode. cbn [setUnused a_slam a_frame a_first a_ltrans a_lcov a_init a_unused a_cumul a_matcher a_map a_win a_frames].
  rewrite E1, E2, E3, E4, I1, I2, I3, I4, S, pose_along.
  destruct (z_graph f0 (a_frame a) (minv (a_lcov a))) as (s1 & s2 & e2 & s3 & s4 & b4 & AP & H2 & H3 & H4 & G1 & D0 & D1).
  rewrite AP, H2. cbn [bind fst]. rewrite H3. cbn [bind fst]. rewrite H4. cbn [bind fst]. rewrite G1. cbn [bind fst snd].
  rewrite along_pose, along_mul. replace (5 + 2)%R with 7%R by ring. rewrite pose_along.
  cbn [a_pos]. rewrite E5, E6, E9, E10, pose_along. eexists _, s4. split; [reflexivity|]. auto.
Qed.
Lemma z_step4 (env : aenv (res zgrid) (res zgrid) (option point) unit Z) a i w w' c :
  gen_dist env = (15 / 10)%R ->
  a_init a = true -> a_win a = Some w -> a_unused a = t2id -> a_temp a = t2id -> a_pos a = along 7 ->
  a_matcher a = at_ 2 -> i_motion i = along 1 -> i_match i = Some (along 1) ->
  w_origin env w = at_ 2 -> w_move env (w_merge env w (i_scan i) (along 1)) (along 1) = (w', c) ->
  exists ct, update env a i =
  Ok (mkAlg true (a_first a) (a_last a) (a_lcov a) (a_ltrans a) t2id (along 8) c (along 1) (at_ 3) ct (a_map a)
        (Some w') (mkFrame (f_origin (a_frame a))
             (b_merge env (f_body (a_frame a)) (f_origin (a_frame a)) (s_move env (along 1) (i_scan i))))
        (a_slam a) (a_frames a),
      [AInc (along 1); ADraw (f_origin (a_frame a)) (along 1); ARep (KMatch (at_ 2) (along 1)) (at_ 8)]).
Proof.
  intros G E4 E5 E6 E7 E8 E9 I3 I4 W1 W2.
  unfold update. rewrite E4, E5, E6, I3, I4, W1, W2, E9, t2mul_id_l, enough_along by lra.
  rewrite !along_pose, along_mul. replace (2 + 1)%R with 3%R by ring. rewrite pose_along, along_pose, along_inv, along_mul.
  replace (- (2) + 3)%R with 1%R by ring.
  unfold updateGraph. cbn [setUnused setMatcher a_temp]. rewrite E7, t2mul_id_l.
  assert (L : leftWindow env (along 1) = false).
  { unfold leftWindow. rewrite disp_along, Rabs_Rabsolu, G, Rabs_pos_eq by lra. destruct (Rlt_dec _ _); [lra|auto]. }
  rewrite L.
  cbn [bind fst snd setWindow setUnused setMatcher a_init a_first a_last a_lcov a_ltrans a_unused a_pos a_temp a_matcher a_ctemp a_map a_win a_frame a_slam a_frames app].
  rewrite E4, E8, along_mul. replace (7 + 1)%R with 8%R by ring. rewrite pose_along. eexists. reflexivity.
Qed.

(** the mapper: two frames added, then drawn again with the second one at (5, 0) *)
Notation zaddFrame := (addFrame pmerge pdflt ztrans pray zraw zbtw ztp).
Notation zrecalc := (recalc pmerge pdflt ztrans pray zraw zbtw ztp).
Definition zfs : list zgrid :=
  [n_setTimestamp (n_setOrigin zb0 (mkPose 0 0 0)) 2; n_setTimestamp (n_setOrigin zb1 (mkPose 5 0 0)) 3].
Definition zm1 : mapper (list point) := Eval vm_compute in
  get (zaddFrame (m_new pdflt) (n_setOrigin zb0 (mkPose 0 0 0)) 2) (m_new pdflt).
Lemma zm1_ok : zaddFrame (m_new pdflt) (n_setOrigin zb0 (mkPose 0 0 0)) 2 = Ok zm1.
Proof. vm_compute. reflexivity. Qed.
Definition zm2 : mapper (list point) := Eval vm_compute in
  get (zaddFrame zm1 (n_setOrigin zb1 (mkPose 2 0 0)) 3) (m_new pdflt).
Lemma zm2_ok : zaddFrame zm1 (n_setOrigin zb1 (mkPose 2 0 0)) 3 = Ok zm2.
Proof. vm_compute. reflexivity. Qed.
Definition zm3 : mapper (list point) := Eval vm_compute in get (zrecalc zm2 zfs 3) (m_new pdflt).
Lemma zm3_ok : zrecalc zm2 zfs 3 = Ok zm3.
Proof. vm_compute. reflexivity. Qed.
(** the current frame after the fourth call *)
Definition zb7 : zgrid := Eval vm_compute in get (zadd (newFrame pdflt) (mkPose 7 0 0)) (newFrame pdflt).
Lemma zb7_ok : zadd (newFrame pdflt) (mkPose 7 0 0) = Ok zb7.
Proof. vm_compute. reflexivity. Qed.
Lemma zb7_merge : bMerge pmerge pdflt padd pcompute ztrans pray zbtw ztp zdbl (Ok (newFrame pdflt)) (at_ 7) zscan = Ok zb7.
Proof. unfold bMerge. cbn [bind]. rewrite (proj1 (zpose 7 0)). exact zb7_ok. Qed.

Definition zh : list (yev Z) :=
  [mkYE (zin 1 (Some 1%R) 9) 4 [AInc (along 1); ADraw (at_ 7) (along 1); ARep (KMatch (at_ 2) (along 1)) (at_ 8)];
   mkYE (zin 2 None 8) 3 [AInc (along 2); ANode 1; ALoop true; ARedraw; ADraw (at_ 7) t2id; ARep KOdo (at_ 7)];
   mkYE (zin 2 (Some 2%R) 7) 2
     [AInc (along 2); ANode 0; ALoop false; ADraw (at_ 2) t2id; ARep (KMatch (at_ 0) (along 2)) (at_ 2)];
   mkYE (zin 0 None 0) 1 [ADraw (at_ 0) t2id; ARep KFirst (at_ 0)]].
Lemma zpose0 x : qposeOf zdbl (at_ (IZR x)) = mkPose (inject_Z x) 0 0.
Proof. exact (proj1 (zpose x 0)). Qed.
Lemma worigin0 : wOrigin (Ok zw0) = at_ 0.
Proof. unfold wOrigin, poseOf. cbn [zw0 n_pose p_x p_y p_th]. rewrite zero_one. reflexivity. Qed.
Lemma worigin1 : wOrigin (Ok zw1) = at_ 2.
Proof.
  unfold wOrigin, poseOf. cbn [zw1 n_pose p_x p_y p_th]. rewrite zero_one, zero_four.
  replace (Q2R (8 # 4)) with 2%R by (unfold Q2R; cbn; lra). reflexivity.
Qed.
Lemma bInit_gen {X} (merge : ncell X -> ncell X -> ncell X) dflt addPt compute tcell occRay btw tp s :
  bInit merge dflt addPt compute tcell occRay btw tp (Ok (newFrame dflt)) s =
  n_initialize merge dflt addPt compute tcell occRay btw tp (newFrame dflt) s.
Proof. reflexivity. Qed.

Lemma zreach_h : exists y, zreach zh y /\ y_map y = zm3 /\ y_order y = [(0, 2%Q); (1, 3%Q)] /\
  getPoseData (a_slam (y_alg y)) 0 = Ok (mkFrame (at_ 0) (Ok zb0)) /\
  getPoseData (a_slam (y_alg y)) 1 = Ok (mkFrame (at_ 5) (Ok zb1)) /\ getPoseLocation (a_slam (y_alg y)) 1 = Ok (at_ 5) /\
  a_win (y_alg y) = Some (Ok zw2) /\ a_cumul (y_alg y) = along 0 /\
  f_origin (a_frame (y_alg y)) = at_ 7.
Proof.
  assert (F0 : a_frame za0 = mkFrame (at_ 0) (Ok zb0)).
  { unfold za0, firstScan. cbn [a_frame sysEnv b_init alg_new b_new f_body zin i_scan].
    rewrite bInit_gen, zb0_ok. reflexivity. }
  assert (W0 : a_win za0 = Some (Ok zw0)).
  { unfold za0, firstScan. cbn [a_win sysEnv w_new zin i_scan]. rewrite zw0_ok. reflexivity. }
  destruct (z_step2 zenv za0 (zin 2 (Some 2%R) 7) (Ok zw0) (Ok zw1) (along 0)) as (c1 & U1);
    try reflexivity; try exact W0.
  { exact worigin0. }
  { exact zw1_win. }
  set (a1 := mkAlg _ _ _ _ _ _ _ _ _ _ _ _ _ _ _ _) in U1.
  assert (F1 : a_frame a1 = mkFrame (at_ 2) (Ok zb1)).
  { unfold a1. cbn [a_frame sysEnv b_merge b_new zin i_scan]. rewrite zb1_merge. reflexivity. }
  destruct (z_step3 zenv a1 (zin 2 None 8) (Ok zw1) (a_frame za0)) as (c2 & s4 & U2 & D0 & D1 & G1); try reflexivity.
  rewrite F0 in D0. rewrite F1 in D1. cbn [f_body] in D0, D1.
  set (a2 := mkAlg _ _ _ _ _ _ _ _ _ _ _ _ _ _ _ _) in U2.
  destruct (z_step4 zenv a2 (zin 1 (Some 1%R) 9) (Ok zw1) (Ok zw2) (along 0)) as (c3 & U3); try reflexivity.
  { exact worigin1. }
  { exact zw2_win. }
  set (a3 := mkAlg _ _ _ _ _ _ _ _ _ _ _ _ _ _ _ _) in U3.
  assert (Y0 : zreach [mkYE (zin 0 None 0) 1 [ADraw (at_ 0) t2id; ARep KFirst (at_ 0)]]
                 (mkSys za0 (m_new pdflt) [] 0 1)).
  { eapply yreach_step; [apply yreach_new|].
    eapply (ystep_intro _ _ _ _ _ _ _ _ zenv (sys_new pdflt zenv) (zin 0 None 0) 1%Q za0); [exact z_first|].
    apply draw_none. intros id [H|[H|[]]]; discriminate. }
  pose (h1 := [mkYE (zin 0 None 0) 1 [ADraw (at_ 0) t2id; ARep KFirst (at_ 0)]]).
  pose (e2 := [AInc (along 2); ANode 0; ALoop false; ADraw (at_ 2) t2id; ARep (KMatch (at_ 0) (along 2)) (at_ 2)]).
  pose (e3 := [AInc (along 2); ANode 1; ALoop true; ARedraw; ADraw (at_ 7) t2id; ARep KOdo (at_ 7)]).
  pose (e4 := [AInc (along 1); ADraw (at_ 7) (along 1); ARep (KMatch (at_ 2) (along 1)) (at_ 8)]).
  assert (Y1 : zreach (mkYE (zin 2 (Some 2%R) 7) 2 e2 :: h1) (mkSys a1 zm1 [(0, 2%Q)] 1 2)).
  { eapply yreach_step; [exact Y0|].
    apply (ystep_intro _ _ _ _ _ _ _ _ zenv (mkSys za0 (m_new pdflt) [] 0 1) (zin 2 (Some 2%R) 7) 2%Q a1 e2 zm1 _ U1).
    apply (draw_add _ _ _ _ _ _ _ _ (mkSys za0 (m_new pdflt) [] 0 1) a1 e2 2%Q 0 (n_setOrigin zb0 (mkPose 0 0 0)) zm1).
    - right; left; reflexivity.
    - intros H. cbn in H. intuition discriminate.
    - cbn [y_alg]. unfold gridOf. rewrite F0. cbn [f_body f_origin bind]. rewrite (zpose0 0). reflexivity.
    - exact zm1_ok. }
  assert (Y2 : zreach (mkYE (zin 2 None 8) 3 e3 :: mkYE (zin 2 (Some 2%R) 7) 2 e2 :: h1)
                 (mkSys a2 zm3 [(0, 2%Q); (1, 3%Q)] 1 2)).
  { eapply yreach_step; [exact Y1|].
    apply (ystep_intro _ _ _ _ _ _ _ _ zenv (mkSys a1 zm1 [(0, 2%Q)] 1 2) (zin 2 None 8) 3%Q a2 e3 zm3 _ U2).
    apply (draw_again _ _ _ _ _ _ _ _ (mkSys a1 zm1 [(0, 2%Q)] 1 2) a2 e3 3%Q 1 (n_setOrigin zb1 (mkPose 2 0 0)) zm2
         zfs (combine [(0, 2%Q); (1, 3%Q)] zfs) zm3).
    - right; left; reflexivity.
    - right; right; right; left; reflexivity.
    - cbn [y_alg]. unfold gridOf. rewrite F1. cbn [f_body f_origin bind]. rewrite (zpose0 2). reflexivity.
    - exact zm2_ok.
    - cbn [y_order app map]. unfold frameNow. cbn [fst snd a_slam a2]. rewrite D0, D1. unfold gridOf.
      cbn [f_body f_origin bind]. rewrite (zpose0 0), (zpose0 5). reflexivity.
    - apply Permutation_refl.
    - cbn [combine map snd zfs]. repeat constructor; unfold earlier; cbn [n_time n_setTimestamp]; discriminate.
    - exact zm3_ok. }
  assert (Y3 : zreach zh (mkSys a3 zm3 [(0, 2%Q); (1, 3%Q)] 2 4)).
  { eapply yreach_step; [exact Y2|].
    apply (ystep_intro _ _ _ _ _ _ _ _ zenv (mkSys a2 zm3 [(0, 2%Q); (1, 3%Q)] 1 2) (zin 1 (Some 1%R) 9) 4%Q a3 e4 zm3 _ U3).
    apply (draw_none _ _ _ _ _ _ _ _ (mkSys a2 zm3 [(0, 2%Q); (1, 3%Q)] 1 2) a3 e4 4%Q).
    intros id H. cbn in H. intuition discriminate. }
  eexists. split; [exact Y3|]. repeat split; assumption.
Qed.

(** *** facts about this run *)
Lemma zclock : clock zh.
Proof.
  repeat split; intros e I; cbn in I; repeat (destruct I as [<-|I]; [reflexivity|]); destruct I.
Qed.
Lemma zsharp : sharp zdbl zh.
Proof.
  assert (H : forall z, Q2R (zdbl (IZR z)) = IZR z).
  { intro z. rewrite zdbl_int. unfold Q2R, inject_Z. cbn [Qnum Qden]. change (IZR 1) with 1%R. field. }
  intros e t I E. cbn in I.
  repeat (destruct I as [<-|I]; [cbn in E; (discriminate || (injection E as <-; split; [apply along_rigid|split; apply H]))|]).
  destruct I.
Qed.
Lemma zscans0 : scans_of zh 0 = [(at_ 0, t2id, zscan)] /\ scans_of zh 1 = [(at_ 2, t2id, zscan)] /\
  scans_of zh 2 = [(at_ 7, t2id, zscan); (at_ 7, along 1, zscan)].
Proof. repeat split; reflexivity. Qed.
Notation zclean := (clean pdflt padd pcompute zbtw ztp zmove zdbl).
Lemma zmove_scan z : map (option_map (zmove (along (IZR z)))) zscan =
  map (option_map (fun p : point => (fst p + inject_Z z, snd p + 0)%Q)) zscan.
Proof.
  apply map_ext. intros [p|]; [|reflexivity]. cbn [option_map]. unfold zmove. cbn [along tx ty].
  rewrite !zdbl_int. reflexivity.
Qed.
Lemma zclean_in z x : Forall zclean [(at_ (IZR z), along (IZR x), zscan)] <->
  (let s := map (option_map (fun p => ztp (zbtw (mkPose (inject_Z z) 0 0) (mkPose (inject_Z z) 0 0))
                                     (fst p + inject_Z x, snd p + 0)%Q)) zscan in
   (forall p, In (Some p) s -> off_border (1#4) p) /\
   scan_rays pdflt padd pcompute (1#4) (ztp (zbtw (mkPose (inject_Z z) 0 0) (mkPose (inject_Z z) 0 0)) (0, 0)%Q) s).
Proof.
  assert (E : in_frame zbtw ztp zmove zdbl (at_ (IZR z), along (IZR x), zscan) =
    map (option_map (fun p => ztp (zbtw (mkPose (inject_Z z) 0 0) (mkPose (inject_Z z) 0 0))
                                     (fst p + inject_Z x, snd p + 0)%Q)) zscan).
  { unfold in_frame. rewrite zpose0. apply map_ext. intros [p|]; [|reflexivity]. cbn [option_map]. unfold zmove.
    cbn [along tx ty]. rewrite !zdbl_int. reflexivity. }
  assert (C : forall s, Forall zclean [s] <-> zclean s).
  { intro s. split; [intro F; inversion F; assumption|intro F; constructor; [exact F|constructor]]. }
  rewrite C. unfold clean. rewrite E. cbn [fst]. rewrite zpose0. reflexivity.
Qed.
Lemma zclean0 : Forall zclean (scans_of zh 0).
Proof.
  rewrite (proj1 zscans0), along_zero. apply (zclean_in 0 0). split.
  - apply scan_off_ok; [reflexivity|]. vm_compute. reflexivity.
  - apply scan_rays_ok; [reflexivity|]. vm_compute. reflexivity.
Qed.
Lemma zclean2 : Forall zclean (scans_of zh 2).
Proof.
  rewrite (proj2 (proj2 zscans0)), along_zero. change (?a :: ?b) with ([a] ++ b). apply Forall_app. split.
  - apply (zclean_in 7 0). split.
    + apply scan_off_ok; [reflexivity|]. vm_compute. reflexivity.
    + apply scan_rays_ok; [reflexivity|]. vm_compute. reflexivity.
  - apply (zclean_in 7 1). split.
    + apply scan_off_ok; [reflexivity|]. vm_compute. reflexivity.
    + apply scan_rays_ok; [reflexivity|]. vm_compute. reflexivity.
Qed.
Lemma zcloud : map (fun p : point => (Qred (fst p), Qred (snd p))) (getPclMap zm3) = [(3, 1); (8, 1)]%Q.
Proof. vm_compute. reflexivity. Qed.
Definition zray_b (start : point) (e : zcell) : bool :=
  negb (nc_gauss e) ||
  (Qle_bool 1 (seg_len map_res start (nc_mean e)) &&
   negb (Qle_bool (inject_Z (2^63)) (seg_len map_res start (nc_mean e)))).
Lemma zdrawable_b (f : zgrid) :
  off_b map_res (sensor_at zbtw ztp f) = true ->
  forallb (fun v => negb (nc_gauss v) || off_b map_res (nc_mean v)) (placed ztrans zbtw f) = true ->
  forallb (zray_b (sensor_at zbtw ztp f)) (placed ztrans zbtw f) = true ->
  drawable ztrans zbtw ztp f.
Proof.
  intros A B C. split; [apply off_b_ok; [reflexivity|exact A]|]. split.
  - intros v I G. rewrite forallb_forall in B. specialize (B v I). cbn beta in B. rewrite G in B. apply off_b_ok; [reflexivity|exact B].
  - intros e H G. rewrite forallb_forall in C. apply C in H. unfold zray_b in H. rewrite G in H.
    cbn [negb orb] in H. apply andb_true_iff in H. destruct H as [H1 H2].
    split; [apply Qle_bool_iff; exact H1|].
    apply negb_true_iff in H2. apply Qnot_le_lt. intro K. apply Qle_bool_iff in K. congruence.
Qed.
Lemma zfs_drawable : forall f, In f zfs -> drawable ztrans zbtw ztp f.
Proof. intros f [<-|[<-|[]]]; apply zdrawable_b; vm_compute; reflexivity. Qed.

(** *** a run with a failed match *)
Definition zh2 : list (yev Z) :=
  [mkYE (zin 1 None 5) 2 [AInc (along 1); ADraw (at_ 0) (along 1); ARep KOdo (at_ 1)];
   mkYE (zin 0 None 0) 1 [ADraw (at_ 0) t2id; ARep KFirst (at_ 0)]].
Lemma z_odo (env : aenv (res zgrid) (res zgrid) (option point) unit Z) a i w :
  gen_dist env = (15 / 10)%R ->
  a_init a = true -> a_win a = Some w -> a_unused a = t2id -> a_temp a = t2id -> a_pos a = t2id ->
  f_origin (a_frame a) = at_ 0 -> i_motion i = along 1 -> i_match i = None ->
  exists a', update env a i = Ok (a', [AInc (along 1); ADraw (at_ 0) (along 1); ARep KOdo (at_ 1)]) /\
    a_win a' = Some w /\ a_cumul a' = a_cumul a.
Proof.
  intros G E4 E5 E6 E7 E8 E9 I3 I4.
  unfold update. rewrite E4, E5, E6, I3, I4, t2mul_id_l, enough_along by lra.
  unfold updateGraph. cbn [setUnused a_temp]. rewrite E7, t2mul_id_l.
  assert (L : leftWindow env (along 1) = false).
  { unfold leftWindow. rewrite disp_along, Rabs_Rabsolu, G, Rabs_pos_eq by lra. destruct (Rlt_dec _ _); [lra|auto]. }
  rewrite L. cbn [bind fst snd setUnused a_init a_pos a_win a_cumul a_frame app].
  rewrite E4, E5, E8, E9, t2mul_id_l, pose_along. eexists. split; [reflexivity|]. split; reflexivity.
Qed.
Lemma zreach_h2 : exists y, zreach zh2 y /\ a_win (y_alg y) = Some (Ok zw0) /\ a_cumul (y_alg y) = t2id.
Proof.
  assert (W0 : a_win za0 = Some (Ok zw0)).
  { unfold za0, firstScan. cbn [a_win sysEnv w_new zin i_scan]. rewrite zw0_ok. reflexivity. }
  destruct (z_odo zenv za0 (zin 1 None 5) (Ok zw0)) as (a1 & U1 & W1 & C1); try reflexivity; try exact W0.
  assert (Y0 : zreach [mkYE (zin 0 None 0) 1 [ADraw (at_ 0) t2id; ARep KFirst (at_ 0)]]
                 (mkSys za0 (m_new pdflt) [] 0 1)).
  { eapply yreach_step; [apply yreach_new|].
    eapply (ystep_intro _ _ _ _ _ _ _ _ zenv (sys_new pdflt zenv) (zin 0 None 0) 1%Q za0); [exact z_first|].
    apply draw_none. intros id [H|[H|[]]]; discriminate. }
  exists (mkSys a1 (m_new pdflt) [] 0 1). split; [|split; [exact W1|exact C1]].
  eapply yreach_step; [exact Y0|].
  apply (ystep_intro _ _ _ _ _ _ _ _ zenv (mkSys za0 (m_new pdflt) [] 0 1) (zin 1 None 5) 2%Q a1 _ (m_new pdflt) _ U1).
  apply draw_none. intros id H. cbn in H. intuition discriminate.
Qed.
Lemma zsharp2 : sharp zdbl zh2.
Proof.
  intros e t I E. cbn in I. repeat (destruct I as [<-|I]; [cbn in E; discriminate|]). destruct I.
Qed.
Lemma zguess2 : motion_since zh2 = along 1 /\ window_time zh2 = 1%Q.
Proof. split; [|reflexivity]. cbn. apply T2_eq; cbn; ring. Qed.
Lemma zclock2 : clock zh2.
Proof. repeat split; intros e I; cbn in I; repeat (destruct I as [<-|I]; [reflexivity|]); destruct I. Qed.
Lemma zguess_off (y : sys (list point)) : a_cumul (y_alg y) = t2id -> forall d,
  t2mul (getTransFromPose (poseOf (n_pose zw0))) (guessOf (y_alg y) (zin d None 6)) <>
  t2mul (t2mul (last_match (events zh2)) (motion_since zh2)) (along d).
Proof.
  intros C d. unfold guessOf. rewrite C, (proj1 zguess2), t2mul_id_l. change (poseOf (n_pose zw0)) with (wOrigin (Ok zw0)).
  rewrite worigin0. cbn [zin i_motion]. change (last_match (events zh2)) with (along 0). rewrite along_pose, !along_mul.
  intro E. apply (f_equal tx) in E. cbn in E. lra.
Qed.
Lemma zcase100 : exists y, zreach zh y /\ clock zh /\ born zh = [(0, 2%Q); (1, 3%Q)] /\
  map (fun p : point => (Qred (fst p), Qred (snd p))) (getPclMap (y_map y)) = [(3, 1); (8, 1)]%Q /\
  getPoseLocation (a_slam (y_alg y)) 1 = Ok (at_ 5) /\
  allOk (map (frame_of pmerge pdflt padd pcompute ztrans pray zbtw ztp zmove zdbl zh (y_alg y)) (born zh)) = Ok zfs /\
  (forall f, In f zfs -> drawable ztrans zbtw ztp f) /\ occ_only pray /\ nc_gauss pdflt = false.
Proof.
  destruct zreach_h as (y & R & M & O & D0 & D1 & G1 & _). exists y. split; [exact R|]. split; [exact zclock|].
  split; [reflexivity|]. split; [rewrite M; exact zcloud|]. split; [exact G1|]. split.
  - change (born zh) with [(0, 2%Q); (1, 3%Q)]. cbn [map].
    rewrite !(frame_of_now _ _ _ _ _ _ _ _ _ _ _ _ _ _ _ _ _ _ zh y _ R).
    unfold frameNow. cbn [fst snd]. rewrite D0, D1. unfold gridOf.
    cbn [f_body f_origin bind]. rewrite (zpose0 0), (zpose0 5). reflexivity.
  - split; [exact zfs_drawable|]. split; [exact pray_occ_only|reflexivity].
Qed.
Lemma zcase101 : Forall zclean (scans_of zh 0) /\
  Forall zclean (scans_of zh 2) /\ length (scans_of zh 2) = 2 /\
  (forall p, zmove t2id p = p) /\ zdbl 0 = 0%Q /\ means_average pdflt padd pcompute /\
  (forall o, peq (ztp (zbtw o o) (0, 0)%Q) (0, 0)%Q).
Proof.
  split; [exact zclean0|]. split; [exact zclean2|]. split; [reflexivity|]. split; [exact zmove_id|].
  split; [exact (zdbl_int 0)|]. split; [exact pmeans|exact zself].
Qed.
Lemma zcase103 : exists y g, zreach zh y /\ sharp zdbl zh /\ a_win (y_alg y) = Some (Ok g) /\
  last_match (events zh) = along 3 /\ window_time zh = 4%Q /\ matches (events zh) = 2.
Proof.
  destruct zreach_h as (y & R & _ & _ & _ & _ & _ & W & _). exists y, zw2. split; [exact R|]. split; [exact zsharp|].
  split; [exact W|]. split; [|split; reflexivity].
  change (last_match (events zh)) with (getTransFromPose (getPoseFromTransform (t2mul (getTransFromPose (at_ 2)) (along 1)))).
  rewrite along_pose, along_mul, pose_along, along_pose. f_equal. lra.
Qed.
Lemma zlasting : lasting ztrans zbtw ztp zfs (12, 4)%Z (1800000000 # 600000000, 6000000 # 6000000)%Q.
Proof.
  exists [], (nth 0 zfs zw0), [nth 1 zfs zw0].
  split; [reflexivity|]. split; [vm_compute; reflexivity|]. intros f [<-|[]]. split; [vm_compute; reflexivity|].
  intros (e & t & I & G & T & [C1 [C2 _]]).
  change (placed ztrans zbtw (nth 1 zfs zw0)) with
    (map (ztrans (zbtw (mkPose 5 0 0) world)) (getValidCells (n_vox (nth 1 zfs zw0)))) in I.
  vm_compute in I. destruct I as [<-|[<-|[]]]; [|discriminate].
  cbn [nc_mean] in *. unfold seg_point in C2. change (sensor_at _ _ _) with (5%Q,0%Q) in C2. cbn [fst snd] in C2.
  assert (E : (4800000000 # 600000000 == 8)%Q) by reflexivity.
  change (inject_Z 12 + (1#2))%Q with (25#2)%Q in C2. unfold map_res in C2. rewrite E in C2. Lqa.lra.
Qed.
Lemma zremains : exists x, remains pdflt padd pcompute zbtw ztp zmove zdbl (scans_of zh 2) (16, 4)%Z x.
Proof.
  rewrite (proj2 (proj2 zscans0)). eexists. exists [(at_ 7, t2id, zscan)], (at_ 7, along 1, zscan), [].
  split; [reflexivity|]. split; [|intros s []].
  assert (E : in_frame zbtw ztp zmove zdbl (at_ 7, along 1, zscan) =
    map (option_map (fun p => ztp (zbtw (mkPose (inject_Z 7) 0 0) (mkPose (inject_Z 7) 0 0))
                                     (fst p + inject_Z 1, snd p + 0)%Q)) zscan).
  { unfold in_frame. rewrite zpose0. apply map_ext. intros [p|]; [|reflexivity]. cbn [option_map]. unfold zmove.
    cbn [along tx ty]. rewrite !(zdbl_int 1), (zdbl_int 0). reflexivity. }
  rewrite E. vm_compute. reflexivity.
Qed.

(** ** C104 *)
Lemma zblends : blends pmerge.
Proof.
  intros a b. unfold pmerge. destruct (nc_gauss b) eqn:GB; [|intro G; left; split; [exact G|split; reflexivity]].
  destruct (nc_gauss a) eqn:GA; intros _; right; [right|left; split; [reflexivity|split; reflexivity]].
  split; [reflexivity|]. split; [reflexivity|].
  set (m := inject_Z (Z.of_nat (length (nc_rest a)))). set (n := inject_Z (Z.of_nat (length (nc_rest b)))).
  exists (m / (m + n))%Q. split; [|split; reflexivity].
  assert (M : (0 <= m)%Q) by (unfold m; change 0%Q with (inject_Z 0); rewrite <- Zle_Qle; lia).
  assert (N : (0 <= n)%Q) by (unfold n; change 0%Q with (inject_Z 0); rewrite <- Zle_Qle; lia).
  destruct (Qlt_le_dec 0 (m + n)) as [P|P].
  - split; [apply Qle_shift_div_l; [exact P|Lqa.lra]|apply Qle_shift_div_r; [exact P|Lqa.lra]].
  - assert (Z : (m == 0)%Q) by Lqa.lra. rewrite Z. split; unfold Qdiv; rewrite Qmult_0_l; Lqa.lra.
Qed.
Lemma zaffine t : affine (ztp t).
Proof. exists 1%Q, 0%Q, 0%Q, 1%Q, (tr_x t), (tr_y t). intro p. unfold ztp. split; cbn [fst snd]; ring. Qed.
Lemma zshifts : shifts zbtw ztp.
Proof. intros a b p _ _. split; reflexivity. Qed.
Lemma zslides : slides t2id zorigin.
Proof. intros o x y U. split; [exact U|]. split; reflexivity. Qed.
Lemma zwindow : exists y l, zreach zh y /\ getPclMap2 pdflt zbtw ztp y = Ok l /\
  map (fun p : point => (Qred (fst p), Qred (snd p))) l = [(3, 1); (5, 1); (6, 1)]%Q.
Proof.
  destruct zreach_h as (y & R & _ & _ & _ & _ & _ & W & _). eexists y, _. split; [exact R|].
  unfold getPclMap2. rewrite W. split; [vm_compute; reflexivity|]. vm_compute. reflexivity.
Qed.
