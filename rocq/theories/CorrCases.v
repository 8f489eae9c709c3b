(** Concrete tables and searches. *)
From Coq Require Import Reals ZArith List Bool Lia Lra Psatz Permutation.
From Verif Require Import Base LinAlg3 GeoModel OptModel RegModel CorrModel CorrSpec CorrTable CorrBuild CorrInit CorrSearch.
Import ListNotations.
Open Scope R_scope.

(** ** Three points, cells of one metre *)
Definition three : list P2 := [(0, 0); (5, 5); (-5, -5)].

Lemma box_three : forall t, boxOf t three -> l_minx t = -5 /\ l_maxx t = 5 /\ l_miny t = -5 /\ l_maxy t = 5.
Proof.
  intros t (A & (p1 & P1 & Q1) & (p2 & P2 & Q2) & (p3 & P3 & Q3) & (p4 & P4 & Q4)).
  pose proof (A (5, 5) (or_intror (or_intror (or_introl eq_refl)))) as U.
  pose proof (A (-5, -5) (or_intror (or_intror (or_intror (or_introl eq_refl))))) as D. cbn [fst snd] in U, D.
  assert (K : forall p, p = (0, 0) \/ In p three -> -5 <= fst p <= 5 /\ -5 <= snd p <= 5).
  { intros p [-> |[<-|[<-|[<-|[]]]]]; cbn; lra. }
  pose proof (K _ P1). pose proof (K _ P2). pose proof (K _ P3). pose proof (K _ P4). lra.
Qed.

Lemma sigma_one : sigma 1 (1 / 2) = 1 / 2.
Proof. unfold sigma. rewrite Rmin_left by lra. apply Rmax_left. lra. Qed.
Lemma hf_half : hf (1 / 2) = 1%Z.
Proof.
  unfold hf. apply (nearest_unique (2 * (1 / 2))); [apply lround_nearest; lra|]. unfold nearest. lra.
Qed.

Lemma three_table : exists t, initGrid three 1 (1 / 2) = Ok t /\ good three 1 (1 / 2) t /\
  l_minx t = -5 /\ l_maxx t = 5 /\ l_miny t = -5 /\ l_maxy t = 5 /\ l_border t = 1%Z /\ l_step t = 1 /\ l_half t = 1 / 2 /\
  l_row t = 13%Z /\ l_col t = 13%Z /\ l_points t = 3%nat /\
  forall r c, occupied t three r c <-> r = 6%Z /\ c = 6%Z.
Proof.
  destruct (init_good three 1 (1 / 2)) as (t & E & G); [lra|lra|]. exists t.
  pose proof G as (_ & (G1 & G2 & G3 & G4 & G5 & G6 & G7) & _).
  destruct (box_three t G3) as (B1 & B2 & B3 & B4).
  rewrite sigma_one, hf_half in G4. rewrite G4, B1, B2 in G5. rewrite G4, B3, B4 in G6.
  assert (C : ceilR ((5 - -5) / 1) = 10%Z).
  { unfold ceilR. rewrite <- (Z.opp_involutive 10). f_equal. apply (floorR_unique (- ((5 - -5) / 1)) (-10)). split; simpl; lra. }
  rewrite C in G5, G6. cbn in G5, G6, G7.
  assert (OC : forall r c, occupied t three r c <-> r = 6%Z /\ c = 6%Z).
  { intros r c. unfold occupied. split.
    - intros (p & P1 & P2 & P3). unfold strictly in P2. rewrite B1, B2, B3, B4 in P2.
      destruct P1 as [<-|[<-|[<-|[]]]]; cbn [fst snd] in P2; try lra.
      apply falls_iff in P3; [|split; [now rewrite G1; lra|now rewrite G2, G1]].
      unfold rowOf, colOf in P3. rewrite B1, B4, G1, G2, G4 in P3. cbn [fst snd] in P3.
      rewrite !(floorR_unique _ 5) in P3 by lra. lia.
    - intros [-> ->]. exists (0, 0). split; [now left|]. split; [unfold strictly; rewrite B1, B2, B3, B4; cbn; lra|].
      apply falls_iff; [split; [now rewrite G1; lra|now rewrite G2, G1]|].
      unfold rowOf, colOf. rewrite B1, B4, G1, G2, G4. cbn [fst snd]. rewrite !(floorR_unique _ 5) by lra. now split. }
  do 12 (split; [assumption|]). exact OC.
Qed.

(** a score of one point against the three *)
Lemma score_one : forall A (f : A -> res Z) t (a : A) v, l_points t = 3%nat -> f a = Ok v ->
  scoreOf f t [a] = Ok (Fin (IZR v / 300)).
Proof.
  intros A f t a v P E. unfold scoreOf. cbn [foldM]. rewrite E. cbn [bind length Nat.eqb]. rewrite P. unfold OCCUPIED.
  replace (100 * INR 3) with 300 by (cbn; ring). unfold xdiv. destruct (Req_EM_T 300 0); [exfalso; lra|].
  now rewrite Z.add_0_l.
Qed.

Lemma three_pt : forall t p, good three 1 (1 / 2) t -> l_points t = 3%nat ->
  exists v, getScorePts t [p] = Ok (Fin (IZR v / 300)) /\ (0 <= v <= 100)%Z /\
   (v = 100%Z <-> strictly t p /\ occupied t three (rowOf t (snd p)) (colOf t (fst p))).
Proof.
  intros t p G P. destruct (ptScore_ok _ _ _ _ p G) as [E IB]. pose proof G as (_ & _ & _ & V).
  eexists. split; [exact (score_one _ _ _ _ _ P E)|]. destruct (insideBox t p) eqn:I.
  - destruct (V _ _ (IB eq_refl)) as (A & _ & B). split; [exact A|]. rewrite B. apply insideBox_spec in I. tauto.
  - split; [lia|]. split; [lia|]. intros [Q _]. apply insideBox_spec in Q. congruence.
Qed.
Lemma three_idx : forall t i, good three 1 (1 / 2) t -> l_points t = 3%nat ->
  exists v, getScoreIdx t [i] = Ok (Fin (IZR v / 300)) /\ (0 <= v <= 100)%Z /\
   (v = 100%Z <-> occupied t three (snd i) (fst i)).
Proof.
  intros t i G P. destruct (idxScore_ok _ _ _ _ i G) as (v & E & A & B & C). pose proof G as (Hs & Gm & _ & V).
  exists v. split; [exact (score_one _ _ _ _ _ P E)|]. split; [exact A|].
  assert (D : inb (l_row t) (l_col t) (snd i) (fst i) \/ ~ inb (l_row t) (l_col t) (snd i) (fst i)) by (unfold inb; lia).
  destruct D as [D|D].
  - rewrite (B D). apply (V _ _ D).
  - rewrite (C D). split; [lia|]. intros O. exfalso. apply D. destruct O as (p & _ & S & Fa).
    apply falls_iff in Fa; [|destruct Gm as (G1 & G2 & _); split; [now rewrite G1|now rewrite G2, G1]].
    destruct Fa as [<- <-]. apply (ptIdx_ok _ _ _ _ _ Hs Gm S).
Qed.

(** scoring by indexes misses the border *)
Lemma index_differs : exists t, initGrid three 1 (1 / 2) = Ok t /\ exists a b,
  getScorePts t [(0, 0)] = Ok (Fin a) /\ getScoreIdx t (toIndexes t [(0, 0)]) = Ok (Fin b) /\ b < a.
Proof.
  destruct three_table as (t & E & G & B1 & B2 & B3 & B4 & Bo & S1 & S2 & R & C & P & OC).
  exists t. split; [exact E|].
  destruct (three_pt t (0, 0) G P) as (v & E1 & V1 & V2).
  destruct (three_idx t (5, 5)%Z G P) as (w & E2 & W1 & W2).
  exists (IZR v / 300), (IZR w / 300). split; [exact E1|]. split.
  - unfold toIndexes. cbn [map fst snd]. rewrite B1, B4, S1, S2. rewrite !(floorR_unique _ 5) by lra. exact E2.
  - assert (v = 100%Z).
    { apply V2. cbn [fst snd]. split; [unfold strictly; rewrite B1, B2, B3, B4; cbn; lra|]. apply OC.
      unfold rowOf, colOf. rewrite B1, B4, S1, S2, Bo. rewrite !(floorR_unique _ 5) by lra. now split. }
    assert (w <> 100)%Z by (intros Q; apply W2 in Q; apply OC in Q; cbn in Q; lia).
    assert (L : (w < v)%Z) by lia. apply IZR_lt in L. lra.
Qed.

(** ** A search on it *)
Definition cfg1 : corrcfg := mkCC 1 (1 / 5) 4 (8 / 5).
Lemma cfg1_usable : usable cfg1. Proof. unfold usable, cfg1. cbn. lra. Qed.
Lemma cfg1_rots : rotCount cfg1 16.
Proof.
  intros k. cbn [cc_rrange cc_rot cfg1].
  assert (Q : INR 16 = 16) by (cbn; ring). split; intros L.
  - apply lt_INR in L. rewrite Q in L. lra.
  - apply INR_lt. rewrite Q. lra.
Qed.
Lemma one_thread : scheduled 1 16 (map (fun i => (0%nat, i)) (seq 0 16)).
Proof.
  split.
  - rewrite map_map. cbn [snd]. rewrite map_id. apply Permutation_refl.
  - intros e I. apply in_map_iff in I. destruct I as (i & <- & _). cbn. lia.
Qed.

Definition shift (a b : Z) : T2 := mkT2 1 0 0 1 (IZR a) (IZR b).
Lemma shift_origin : forall a b, t2apply (shift a b) (0, 0) = (IZR a, IZR b).
Proof. intros. unfold t2apply, shift. cbn. f_equal; ring. Qed.
Lemma vecToMat_origin : forall v, t2apply (vecToMat v) (0, 0) = (vx v, vy v).
Proof. intros [x y z]. unfold t2apply, vecToMat, getTransFromPose, poseOf. cbn. f_equal; ring. Qed.

Lemma int_candidate : forall a b, (-4 <= a < 4)%Z -> (-4 <= b < 4)%Z -> candidate cfg1 (mkV (IZR a) (IZR b) 0).
Proof.
  intros a b A B. exists (Z.to_nat (a + 4)), (Z.to_nat (b + 4)), 8%nat. cbn [vx vy vz cfg1 cc_range cc_step cc_rot cc_rrange].
  assert (K : forall z, (-4 <= z)%Z -> IZR z = - 4 + INR (Z.to_nat (z + 4)) * 1).
  { intros z Hz. rewrite INR_IZR_INZ, Z2Nat.id, plus_IZR by lia. ring. }
  assert (L : forall z, (z < 4)%Z -> IZR z < 4) by (intros z Hz; now apply IZR_lt).
  split; [f_equal; [now apply K|now apply K|cbn; lra]|].
  pose proof (L a ltac:(lia)). pose proof (L b ltac:(lia)). lra.
Qed.
Lemma candidate_int : forall v, candidate cfg1 v -> exists a b, vx v = IZR a /\ vy v = IZR b.
Proof.
  intros v (i & j & k & -> & _). cbn [vx vy cfg1 cc_range cc_step].
  exists (Z.of_nat i - 4)%Z, (Z.of_nat j - 4)%Z. rewrite !minus_IZR, <- !INR_IZR_INZ. split; simpl; ring.
Qed.

(** the cell of a whole position *)
Lemma whole_cell : forall z m, floorR ((IZR z - IZR m + 1 / 2) / 1) = (z - m)%Z.
Proof. intros z m. apply floorR_unique. rewrite minus_IZR. lra. Qed.

(** the returned transform forgets the guess, and puts the point one cell too far
    right and too far down *)
Lemma search_wrong : forall a b, (-4 <= 1 - a < 4)%Z -> (-4 <= -1 - b < 4)%Z -> (-4 <= - a < 4)%Z -> (-4 <= - b < 4)%Z ->
  (a * a + b * b = 0 \/ 5 <= a * a + b * b)%Z ->
  exists t, initGrid three 1 (1 / 2) = Ok t /\
  (forall threads sched n r, rotCount cfg1 n -> scheduled threads n sched ->
   corrRun threads sched cfg1 [(0, 0)] three (shift a b) r ->
   exists T x y, r = Ok (true, T) /\
     getScorePts t (map (t2apply T) [(0, 0)]) = Ok (Fin x) /\
     getScorePts t (map (fun p => t2apply (vecToMat (mkV (IZR (- a)) (IZR (- b)) 0)) (t2apply (shift a b) p)) [(0, 0)]) = Ok (Fin y) /\
     x < y).
Proof.
  intros a b H1 H2 H3 H4 H5.
  destruct three_table as (t & E & G & B1 & B2 & B3 & B4 & Bo & S1 & S2 & R & C & P & OC).
  exists t. split; [exact E|]. intros threads sched n r RC SC RUN.
  destruct (search_runs threads sched cfg1 [(0, 0)] three (shift a b) n cfg1_usable RC SC) as [_ K].
  destruct (K r RUN) as (t' & v & E' & -> & CV & M). cbn [cc_step cfg1] in E'. rewrite E in E'. injection E' as <-.
  cbn [map] in M. rewrite shift_origin in M.
  destruct (three_pt t (vx v, vy v) G P) as (w1 & F1 & W1 & Q1).
  destruct (three_pt t (0, 0) G P) as (w2 & F2 & W2 & Q2).
  exists (vecToMat v), (IZR w1 / 300), (IZR w2 / 300). split; [reflexivity|]. cbn [map].
  rewrite vecToMat_origin. split; [exact F1|].
  rewrite shift_origin.
  assert (OR : t2apply (vecToMat (mkV (IZR (- a)) (IZR (- b)) 0)) (IZR a, IZR b) = (0, 0)).
  { unfold t2apply, vecToMat, getTransFromPose, poseOf. cbn [fst snd vx vy vz px py pth ta tb tc td tx ty].
    rewrite cos_0, sin_0, !opp_IZR. f_equal; ring. }
  rewrite OR. split; [exact F2|].
  assert (W2' : w2 = 100%Z).
  { apply Q2. cbn [fst snd]. split; [unfold strictly; rewrite B1, B2, B3, B4; cbn; lra|]. apply OC.
    unfold rowOf, colOf. rewrite B1, B4, S1, S2, Bo. rewrite !(floorR_unique _ 5) by lra. now split. }
  assert (W1' : w1 <> 100%Z).
  { intros Q. apply Q1 in Q. destruct Q as [_ Q]. apply OC in Q. cbn [fst snd] in Q.
    destruct (candidate_int v CV) as (i & j & EI & EJ). rewrite EI, EJ in Q.
    unfold rowOf, colOf in Q. rewrite B1, B4, S1, S2, Bo in Q.
    replace ((- IZR j + 5 + 1 / 2) / 1) with ((IZR (- j) - IZR (-5) + 1 / 2) / 1) in Q by (rewrite opp_IZR; simpl; field).
    replace ((IZR i - -5 + 1 / 2) / 1) with ((IZR i - IZR (-5) + 1 / 2) / 1) in Q by (simpl; field).
    rewrite !whole_cell in Q. assert (i = 0%Z) by lia. assert (j = 0%Z) by lia. subst i j. clear Q.
    (* the best offset scores 100 in the search *)
    destruct (M (mkV (IZR (1 - a)) (IZR (-1 - b)) 0) (int_candidate _ _ H1 H2)) as (sa & sb & A1 & A2 & A3).
    unfold searchScore, transformIndexes, moveIndexes, toIndexes, rotateCloud in A1, A2. cbn [map fst snd vx vy vz] in A1, A2.
    rewrite B1, B4, S1, S2 in A1, A2. rewrite EI, EJ in A1.
    destruct (three_idx t (6, 6)%Z G P) as (w & F & _ & QW).
    assert (w = 100%Z) by (apply QW; apply OC; now split). subst w.
    assert (EB : sb = Fin (IZR 100 / 300)).
    { rewrite cos_0, sin_0 in A2.
      replace ((1 * IZR a + - 0 * IZR b - -5 + 1 / 2) / 1) with ((IZR a - IZR (-5) + 1 / 2) / 1) in A2 by (simpl; field).
      replace ((- (0 * IZR a + 1 * IZR b) + 5 + 1 / 2) / 1) with ((IZR (- b) - IZR (-5) + 1 / 2) / 1) in A2
        by (rewrite opp_IZR; simpl; field).
      rewrite !whole_cell in A2.
      rewrite (floorR_unique (IZR (1 - a) / 1) (1 - a)), (floorR_unique (IZR (-1 - b) / 1) (-1 - b)) in A2 by lra.
      replace (a - -5 + (1 - a), - b - -5 + - (-1 - b))%Z with (6, 6)%Z in A2 by (f_equal; lia).
      rewrite F in A2. now injection A2 as <-. }
    subst sb. rewrite (floorR_unique (0 / 1) 0) in A1 by lra.
    match type of A1 with getScoreIdx t [?i] = _ => destruct (three_idx t i G P) as (u & FU & UB' & QU) end.
    rewrite FU in A1. injection A1 as <-. cbn in A3. destruct (Rlt_dec (IZR u / 300) (IZR 100 / 300)) as [L|L]; [discriminate|].
    assert (IZR 100 <= IZR u) by lra. apply le_IZR in H. assert (u = 100%Z) by lia. subst u.
    assert (O : (100 = 100)%Z) by reflexivity. apply QU in O. apply OC in O. cbn [fst snd] in O. destruct O as [O1 O2].
    set (qx := cos (vz v) * IZR a + - sin (vz v) * IZR b) in *. set (qy := sin (vz v) * IZR a + cos (vz v) * IZR b) in *.
    pose proof (floorR_spec ((qx - -5 + 1 / 2) / 1)) as FX. pose proof (floorR_spec ((- qy + 5 + 1 / 2) / 1)) as FY.
    replace (floorR ((qx - -5 + 1 / 2) / 1)) with 6%Z in FX by lia. replace (floorR ((- qy + 5 + 1 / 2) / 1)) with 6%Z in FY by lia.
    assert (N : qx * qx + qy * qy = IZR (a * a + b * b)).
    { unfold qx, qy. rewrite plus_IZR, !mult_IZR. pose proof (sin2_cos2 (vz v)) as SC2. unfold Rsqr in SC2. 
      transitivity ((sin (vz v) * sin (vz v) + cos (vz v) * cos (vz v)) * (IZR a * IZR a + IZR b * IZR b)); [ring|rewrite SC2; ring]. }
    assert (1 / 2 <= qx < 3 / 2) by lra. assert (- (3 / 2) < qy <= - (1 / 2)) by lra.
    destruct H5 as [H5|H5].
    - rewrite H5 in N. nra.
    - apply IZR_le in H5. nra. }
  assert (L : (w1 < w2)%Z) by lia. apply IZR_lt in L. lra.
Qed.

(** ** Ties *)
Lemma tie : exists T1 T2, T1 <> T2 /\
  corrRun 1 (map (fun i => (0%nat, i)) (seq 0 16)) cfg1 [] three t2id (Ok (true, T1)) /\
  corrRun 1 (map (fun i => (0%nat, i)) (seq 0 16)) cfg1 [] three t2id (Ok (true, T2)).
Proof.
  destruct three_table as (t & E & G & _).
  assert (SC : scheduled 1 (length (sweep (cc_rrange cfg1) (cc_rot cfg1))) (map (fun i => (0%nat, i)) (seq 0 16))).
  { rewrite (ctr cfg1 16); [exact one_thread|cbn; lra|exact cfg1_rots]. }
  destruct (collect_perm _ _ _ 1 _ cfg1 t [] G SC) as (l & EL & PL).
  assert (IN : forall v, In v l <-> exists u, candidate cfg1 u /\ v = voxAt t [] u).
  { intros v. rewrite <- (allVox_in cfg1 t [] v cfg1_usable). split; apply Permutation_in; [exact PL|now apply Permutation_sym]. }
  assert (Z : forall u, sc t [] u = Fin 0) by reflexivity.
  assert (B : forall u, candidate cfg1 u -> corrRun 1 (map (fun i => (0%nat, i)) (seq 0 16)) cfg1 [] three t2id (Ok (true, vecToMat u))).
  { intros u CU. apply (CorrOk _ _ cfg1 [] three t2id t l (voxAt t [] u)); try assumption.
    - now exists (Fin 0).
    - destruct (proj1 (scores_bounded _ _ _ _ G) three) as (s & -> & _). now exists s.
    - split; [apply IN; eauto|]. intros v I. apply IN in I. destruct I as (w & _ & ->).
      cbn [voxAt vo_score]. rewrite !Z. cbn. destruct (Rlt_dec 0 0); [lra|reflexivity]. }
  exists (vecToMat (mkV (IZR 0) (IZR 0) 0)), (vecToMat (mkV (IZR 1) (IZR 0) 0)). split; [|split; apply B; apply int_candidate; lia].
  intros Q. apply (f_equal (fun T => t2apply T (0, 0))) in Q. rewrite !vecToMat_origin in Q. injection Q as Q. lra.
Qed.

(** an empty search range: nothing to take the best of *)
Lemma empty_range : corrRun 1 [] (mkCC 1 (1 / 5) 4 0) [(0, 0)] three t2id UB.
Proof.
  apply CorrUB. cbn [cc_step].
  destruct three_table as (t & E & G & _). rewrite E. cbn [bind].
  destruct (proj1 (scores_bounded _ _ _ _ G) (map (t2apply t2id) [(0, 0)])) as (s1 & -> & _). cbn [bind].
  destruct (proj1 (scores_bounded _ _ _ _ G) three) as (s2 & -> & _). reflexivity.
Qed.

(** an empty target: scores are undefined numbers *)
Lemma empty_target : exists t, initGrid [] 1 (1 / 2) = Ok t /\ getScorePts t [(0, 0)] = Ok NaN.
Proof.
  destruct (init_good [] 1 (1 / 2)) as (t & E & G); [lra|lra|]. exists t. split; [exact E|].
  pose proof G as (_ & (_ & _ & (_ & (p1 & [P1|[]] & Q1) & (p2 & [P2|[]] & Q2) & _) & _ & _ & _ & EP) & _). subst p1 p2.
  cbn [fst] in Q1, Q2. unfold getScorePts, scoreOf. cbn [foldM].
  destruct (ptScore_ok _ _ _ _ (0, 0) G) as [E1 _].
  assert (I : insideBox t (0, 0) = false).
  { destruct (insideBox t (0, 0)) eqn:I; [|reflexivity]. apply insideBox_spec in I. destruct I as [I _]. cbn in I. lra. }
  rewrite E1, I. cbn [bind length Nat.eqb]. rewrite EP. unfold OCCUPIED, xdiv. cbn [length INR].
  destruct (Req_EM_T (100 * 0) 0) as [Q|Q]; [|exfalso; lra]. unfold xinf.
  destruct (Rlt_dec (IZR (0 + 0)) 0) as [L|L]; [exfalso; simpl in L; lra|].
  destruct (Rlt_dec 0 (IZR (0 + 0))) as [L'|L']; [exfalso; simpl in L'; lra|reflexivity].
Qed.

(** ** Cells of twenty metres: the smoothing runs out of the table *)
Section Wide.
Notation k := (initKernel (1 / 20) OCCUPIED (1 / 2)).
Lemma sigma_wide : sigma 20 (1 / 2) = 10.
Proof. unfold sigma. rewrite Rmin_left by lra. rewrite Rmax_right by lra. field. Qed.
Lemma hf_wide : hf 10 = 20%Z.
Proof. unfold hf. apply (nearest_unique (2 * 10)); [apply lround_nearest; lra|]. unfold nearest. lra. Qed.

Lemma zset_ok_inv : forall (tab : list Z) i v tab', zset tab i v = Ok tab' ->
  (0 <= i < Z.of_nat (length tab))%Z /\ length tab' = length tab /\
  forall n, nth n tab' 0%Z = if (n =? Z.to_nat i)%nat then v else nth n tab 0%Z.
Proof.
  intros tab i v tab' E. unfold zset in E. destruct (Z.ltb_spec i 0) as [L|L]; [discriminate|].
  destruct (Nat.lt_ge_cases (Z.to_nat i) (length tab)) as [Q|Q].
  - rewrite vset_ok in E by exact Q. injection E as <-. split; [lia|]. split; [apply length_upd|]. intros n.
    destruct (Nat.lt_ge_cases n (length tab)) as [D|D].
    + assert (X : Some (nth n (upd tab (Z.to_nat i) v) 0%Z) = Some (if (n =? Z.to_nat i)%nat then v else nth n tab 0%Z)).
      { rewrite <- nth_error_nth' by now rewrite length_upd. rewrite nth_error_upd.
        destruct (Nat.eqb_spec n (Z.to_nat i)) as [N|N]; cbn [andb].
        - destruct (Nat.ltb_spec (Z.to_nat i) (length tab)); [reflexivity|lia].
        - now apply nth_error_nth'. }
      now injection X.
    + rewrite nth_overflow by now rewrite length_upd. destruct (Nat.eqb_spec n (Z.to_nat i)); [lia|].
      now rewrite nth_overflow.
  - unfold vset in E. destruct (Nat.ltb_spec (Z.to_nat i) (length tab)); [lia|discriminate].
Qed.
Lemma zget_ok_inv : forall (tab : list Z) i v, zget tab i = Ok v ->
  (0 <= i < Z.of_nat (length tab))%Z /\ v = nth (Z.to_nat i) tab 0%Z.
Proof.
  intros tab i v E. unfold zget in E. destruct (Z.ltb_spec i 0) as [L|L]; [discriminate|].
  unfold vget in E. destruct (nth_error tab (Z.to_nat i)) eqn:N; [|discriminate]. injection E as <-.
  split; [|symmetry; now apply nth_error_nth].
  assert (Z.to_nat i < length tab)%nat by (apply nth_error_Some; rewrite N; discriminate). lia.
Qed.

(** values only grow and stay at most 100 *)
Definition grows (a b : list Z) : Prop :=
  length b = length a /\ forall n, (nth n a 0 <= nth n b 0)%Z /\ ((nth n a 0 <= 100)%Z -> (nth n b 0 <= 100)%Z).
Lemma grows_refl : forall a, grows a a. Proof. intros a. split; [reflexivity|]. intros n. split; [lia|auto]. Qed.
Lemma grows_trans : forall a b c, grows a b -> grows b c -> grows a c.
Proof.
  intros a b c [A1 A2] [B1 B2]. split; [congruence|]. intros n. destruct (A2 n), (B2 n). split; [lia|auto].
Qed.

Lemma kfold_inv : forall t row col L tab tab',
  (forall r c, In (r, c) L -> (-20 <= r <= 20)%Z /\ (-20 <= c <= 20)%Z) ->
  foldM (kstep 20 (1 / 2) t row col) L tab = Ok tab' ->
  grows tab tab' /\ forall r c, In (r, c) L ->
    (0 <= cellIdx t (row + r) (col + c) < Z.of_nat (length tab))%Z /\
    (wt 10 r c <= nth (Z.to_nat (cellIdx t (row + r) (col + c))) tab' 0)%Z.
Proof.
  intros t row col L. induction L as [|[r0 c0] L IH]; intros tab tab' HL E.
  - cbn in E. injection E as <-. split; [apply grows_refl|]. intros r c [].
  - cbn [foldM] in E. apply bind_ok_inv in E. destruct E as (tab1 & E1 & E).
    assert (HL' : forall r c, In (r, c) L -> (-20 <= r <= 20)%Z /\ (-20 <= c <= 20)%Z) by (intros; apply HL; now right).
    destruct (IH tab1 tab' HL' E) as [G1 I1]. destruct (HL r0 c0 (or_introl eq_refl)) as [R0 C0].
    unfold kstep in E1. cbn [fst snd] in E1.
    rewrite (kernel_at 20 (1 / 2) r0 c0) in E1; [|lra|rewrite sigma_wide, hf_wide; lia|rewrite sigma_wide, hf_wide; lia].
    cbn [bind] in E1. rewrite sigma_wide in E1. apply bind_ok_inv in E1. destruct E1 as (old & E0 & E1).
    apply zget_ok_inv in E0. destruct E0 as [RG EO].
    pose proof (wt_range 10 r0 c0 ltac:(lra)) as WR.
    assert (S1 : grows tab tab1 /\ (wt 10 r0 c0 <= nth (Z.to_nat (cellIdx t (row + r0) (col + c0))) tab1 0)%Z).
    { destruct (Z.ltb_spec old (wt 10 r0 c0)) as [Q|Q].
      - apply zset_ok_inv in E1. destruct E1 as (_ & L1 & V1). split.
        + split; [exact L1|]. intros n. rewrite V1. destruct (Nat.eqb_spec n (Z.to_nat (cellIdx t (row + r0) (col + c0)))) as [-> |N];
            [rewrite <- EO; lia|lia].
        + rewrite V1, Nat.eqb_refl. lia.
      - injection E1 as <-. split; [apply grows_refl|]. rewrite <- EO. lia. }
    destruct S1 as [S1 S2]. split; [eapply grows_trans; eassumption|].
    intros r c [Q|Q].
    + injection Q as <- <-. split; [exact RG|]. destruct G1 as [_ G1].
      specialize (G1 (Z.to_nat (cellIdx t (row + r0) (col + c0)))). lia.
    + destruct (I1 r c Q) as [A B]. destruct S1 as [S1 _]. rewrite S1 in A. auto.
Qed.

Lemma apply_inv : forall t t' row col, applyKernel k t row col = Ok t' ->
  (exists tab', t' = withTable t tab' /\ grows (l_table t) tab') /\
  (0 <= cellIdx t (row + 20) (col + 0) < Z.of_nat (length (l_table t)))%Z /\
  (100 <= nth (Z.to_nat (cellIdx t (row + 1) (col + 0))) (l_table t') 0)%Z.
Proof.
  intros t t' row col E. unfold applyKernel in E.
  rewrite (kernel_half 20 (1 / 2)) in E by lra. rewrite sigma_wide, hf_wide in E.
  apply bind_ok_inv in E. destruct E as (tab' & E & Q). injection Q as <-.
  destruct (kfold_inv t row col (list_prod (zrange (- (20)) 20) (zrange (- (20)) 20)) (l_table t) tab') as [G I].
  - intros r c J. apply in_prod_iff in J. rewrite !zrange_in in J. lia.
  - exact E.
  - split; [exists tab'; auto|]. split.
    + apply (I 20 0)%Z. apply in_prod_iff. rewrite !zrange_in. lia.
    + cbn [l_table withTable]. rewrite <- (wt_wide 1 0 eq_refl). apply (I 1 0)%Z. apply in_prod_iff. rewrite !zrange_in. lia.
Qed.

Lemma sstep_inv : forall t t' rc, sstep 20 (1 / 2) t rc = Ok t' ->
  (exists tab', t' = withTable t tab' /\ grows (l_table t) tab') /\
  (nth (Z.to_nat (cellIdx t (fst rc) (snd rc))) (l_table t) 0%Z = 100%Z ->
   (0 <= cellIdx t (fst rc + 20) (snd rc + 0) < Z.of_nat (length (l_table t)))%Z /\
   (100 <= nth (Z.to_nat (cellIdx t (fst rc + 1) (snd rc + 0))) (l_table t') 0)%Z).
Proof.
  intros t t' rc E. unfold sstep in E. apply bind_ok_inv in E. destruct E as (v & E0 & E).
  apply zget_ok_inv in E0. destruct E0 as [RG EV].
  destruct (Z.eqb_spec v OCCUPIED) as [Q|Q].
  - destruct (apply_inv _ _ _ _ E) as (A & B & C). split; [exact A|]. intros _. auto.
  - injection E as <-. split; [exists (l_table t); split; [destruct t; reflexivity|apply grows_refl]|].
    intros X. elim Q. now rewrite EV, X.
Qed.
Lemma sfold_inv : forall L t t', foldM (sstep 20 (1 / 2)) L t = Ok t' ->
  exists tab', t' = withTable t tab' /\ grows (l_table t) tab'.
Proof.
  induction L as [|rc L IH]; intros t t' E.
  - cbn in E. injection E as <-. exists (l_table t). split; [destruct t; reflexivity|apply grows_refl].
  - cbn [foldM] in E. apply bind_ok_inv in E. destruct E as (t1 & E1 & E).
    destruct (sstep_inv _ _ _ E1) as ((tab1 & -> & G1) & _).
    destruct (IH _ _ E) as (tab' & -> & G'). exists tab'. split; [reflexivity|].
    eapply grows_trans; [exact G1|exact G'].
Qed.

(** no loop here throws *)
Lemma foldM_nothrow : forall S I (f : S -> I -> res S) l s, (forall s i, f s i <> Throw) -> foldM f l s <> Throw.
Proof.
  intros S I f l. induction l as [|i l IH]; intros s H; cbn; [discriminate|].
  destruct (f s i) eqn:E; cbn; [now apply IH|discriminate|]. elim (H s i E).
Qed.
Lemma zget_nothrow : forall A (l : list A) i, zget l i <> Throw.
Proof. intros. unfold zget, vget. destruct (i <? 0)%Z; [discriminate|]. destruct (nth_error l (Z.to_nat i)); discriminate. Qed.
Lemma zset_nothrow : forall A (l : list A) i v, zset l i v <> Throw.
Proof. intros. unfold zset, vset. destruct (i <? 0)%Z; [discriminate|]. destruct (Z.to_nat i <? length l)%nat; discriminate. Qed.
Lemma sstep_nothrow : forall t rc, sstep 20 (1 / 2) t rc <> Throw.
Proof.
  intros t rc. unfold sstep. destruct (zget (l_table t) _) eqn:E; cbn; [|discriminate|elim (zget_nothrow _ _ _ E)].
  destruct (a =? OCCUPIED)%Z; [|discriminate]. unfold applyKernel.
  match goal with |- bind ?f _ <> _ => destruct f eqn:E1; cbn; try discriminate end.
  elim (fun H => foldM_nothrow _ _ _ _ _ H E1). intros s i. unfold kAt.
  destruct (zget (k_vals k) _) eqn:E2; cbn; [|discriminate|elim (zget_nothrow _ _ _ E2)].
  destruct (zget s _) eqn:E3; cbn; [|discriminate|elim (zget_nothrow _ _ _ E3)].
  destruct (a1 <? a0)%Z; [apply zset_nothrow|discriminate].
Qed.

Definition small : list P2 := [(0, 0); (1, 1); (-1, -1)].
Definition order42 : list (Z * Z) := list_prod (zrange 1 40) (zrange 1 40).
Lemma order_split : order42 =
  firstn 779 order42 ++ (20, 20)%Z :: firstn 39 (skipn 780 order42) ++ (21, 20)%Z ::
  firstn 39 (skipn 820 order42) ++ (22, 20)%Z :: skipn 860 order42.
Proof. vm_compute. reflexivity. Qed.

Lemma wide_ub : initGrid small 20 (1 / 2) = UB.
Proof.
  unfold initGrid. rewrite (kernel_half 20 (1 / 2)) by lra. rewrite sigma_wide, hf_wide.
  pose proof (minMax_inv small) as BX. destruct (minMaxR small) as [[[minx miny] maxx] maxy].
  assert (BB : minx = -1 /\ maxx = 1 /\ miny = -1 /\ maxy = 1).
  { destruct BX as (A & (p1 & P1 & Q1) & (p2 & P2 & Q2) & (p3 & P3 & Q3) & (p4 & P4 & Q4)).
    pose proof (A (1, 1) (or_intror (or_intror (or_introl eq_refl)))) as U.
    pose proof (A (-1, -1) (or_intror (or_intror (or_intror (or_introl eq_refl))))) as D. cbn [fst snd] in U, D.
    assert (K : forall p, p = (0, 0) \/ In p small -> -1 <= fst p <= 1 /\ -1 <= snd p <= 1).
    { intros p [-> |[<-|[<-|[<-|[]]]]]; cbn; lra. }
    pose proof (K _ P1). pose proof (K _ P2). pose proof (K _ P3). pose proof (K _ P4). lra. }
  destruct BB as (-> & -> & -> & ->).
  assert (C : ceilR ((1 - -1) / 20) = 1%Z).
  { unfold ceilR. rewrite <- (Z.opp_involutive 1). f_equal. apply (floorR_unique (- ((1 - -1) / 20)) (-1)). split; simpl; lra. }
  rewrite C. cbn [Z.add Z.mul Pos.add Pos.mul Pos.succ Pos.add_carry].
  set (t0 := mkLut 20 (20 / 2) (-1) (-1) 1 1 42 42 20 (length small) (repeat 0%Z (Z.to_nat 1764))).
  match goal with |- bind (markPoints ?t _) _ = _ => change t with t0 end.
  assert (G : geom small 20 (1 / 2) t0).
  { unfold geom. split; [reflexivity|]. split; [reflexivity|]. split; [exact BX|].
    cbn [l_border l_row l_col l_maxx l_minx l_maxy l_miny l_points t0]. rewrite sigma_wide, hf_wide, C. repeat split. }
  assert (H20 : 0 < 20) by lra.
  destruct (mark_fold small 20 (1 / 2) t0 H20 G small [] t0) as (tab1 & E1 & L1 & V1).
  { exists (l_table t0). reflexivity. }
  { unfold t0. cbn [l_table l_row l_col]. apply repeat_length. }
  { intros r c J. assert (Z : val (l_row t0) (l_table t0) r c = 0%Z).
    { unfold val, t0. cbn [l_table l_row]. apply nth_repeat. }
    rewrite Z. split; [now left|]. split; [discriminate|]. intros (p & [] & _). }
  unfold markPoints. change (foldM _ small t0) with (foldM mstep small t0). rewrite E1. cbn [bind].
  set (t1 := withTable t0 tab1). cbn [app] in V1.
  assert (O1 : nth (Z.to_nat (cellIdx t1 20 20)) tab1 0%Z = 100%Z).
  { change (val (l_row t0) tab1 20 20 = 100%Z). apply V1; [unfold inb; cbn; lia|].
    exists (0, 0). split; [now left|]. split; [unfold strictly; cbn; lra|].
    apply falls_iff; [split; cbn; lra|]. unfold rowOf, colOf. cbn [t0 l_maxy l_minx l_half l_step l_border fst snd].
    rewrite !(floorR_unique _ 0) by lra. now split. }
  assert (LN : length tab1 = Z.to_nat 1764) by exact L1.
  unfold smooth. change (l_col t1 - 2)%Z with 40%Z. change (l_row t1 - 2)%Z with 40%Z. fold order42.
  change (foldM _ order42 t1) with (foldM (sstep 20 (1 / 2)) order42 t1).
  destruct (foldM (sstep 20 (1 / 2)) order42 t1) as [t'| |] eqn:E; [exfalso|reflexivity|].
  2:{ elim (foldM_nothrow _ _ (sstep 20 (1 / 2)) order42 t1 sstep_nothrow E). }
  rewrite order_split in E. revert E.
  generalize (firstn 779 order42) (firstn 39 (skipn 780 order42)) (firstn 39 (skipn 820 order42)) (skipn 860 order42).
  intros La Lb Lc Ld E.
  assert (LE0 : (forall n, nth n tab1 0 <= 100)%Z).
  { intros n. destruct (Nat.lt_ge_cases n (length tab1)) as [D|D]; [|rewrite nth_overflow by exact D; lia].
    assert (J : inb 42 42 (Z.of_nat n / 42) (Z.of_nat n mod 42)).
    { pose proof (Z.mod_pos_bound (Z.of_nat n) 42 ltac:(lia)). split; [|lia]. split; [apply Z.div_pos; lia|].
      apply Z.div_lt_upper_bound; lia. }
    destruct (V1 _ _ J) as [X _]. unfold val in X. change (l_row t0) with 42%Z in X.
    replace (Z.to_nat (Z.of_nat n / 42 * 42 + Z.of_nat n mod 42)) with n in X
      by (rewrite Z.mul_comm, <- Z.div_mod by lia; lia).
    lia. }
  rewrite foldM_app in E. apply bind_ok_inv in E. destruct E as (ta & EA & E).
  destruct (sfold_inv _ _ _ EA) as (taba & -> & GA). cbn [foldM] in E. apply bind_ok_inv in E. destruct E as (tb & EB & E).
  destruct (sstep_inv _ _ _ EB) as ((tabb & -> & GB) & KB).
  rewrite foldM_app in E. apply bind_ok_inv in E. destruct E as (td & ED & E).
  destruct (sfold_inv _ _ _ ED) as (tabd & -> & GD). cbn [foldM] in E. apply bind_ok_inv in E. destruct E as (te & EE & E).
  destruct (sstep_inv _ _ _ EE) as ((tabe & -> & GE) & KE).
  rewrite foldM_app in E. apply bind_ok_inv in E. destruct E as (tf & EF & E).
  destruct (sfold_inv _ _ _ EF) as (tabf & -> & GF). cbn [foldM] in E. apply bind_ok_inv in E. destruct E as (tg & EG & E).
  destruct (sstep_inv _ _ _ EG) as (_ & KG).
  assert (O1' : nth (Z.to_nat 860) tab1 0%Z = 100%Z) by exact O1.
  assert (KB' : nth (Z.to_nat 860) taba 0%Z = 100%Z -> (0 <= 1700 < Z.of_nat (length taba))%Z /\
            (100 <= nth (Z.to_nat 902) tabb 0)%Z) by exact KB.
  assert (KE' : nth (Z.to_nat 902) tabd 0%Z = 100%Z -> (0 <= 1742 < Z.of_nat (length tabd))%Z /\
            (100 <= nth (Z.to_nat 944) tabe 0)%Z) by exact KE.
  assert (KG' : nth (Z.to_nat 944) tabf 0%Z = 100%Z -> (0 <= 1784 < Z.of_nat (length tabf))%Z /\
            (100 <= nth (Z.to_nat 986) (l_table tg) 0)%Z) by exact KG.
  clear O1 KB KE KG. cbn [l_table withTable] in GA, GB, GD, GE, GF. change (l_table t1) with tab1 in GA.
  clear E EA EB ED EE EF EG V1 E1 La Lb Lc Ld.
  destruct GA as [LA GA], GB as [LB GB], GD as [LD GD], GE as [LE GE], GF as [LF GF].
  assert (XA : nth (Z.to_nat 860) taba 0%Z = 100%Z).
  { pose proof (GA (Z.to_nat 860)) as [X Y]. specialize (Y (LE0 _)). lia. }
  destruct (KB' XA) as [_ XB].
  assert (XD : nth (Z.to_nat 902) tabd 0%Z = 100%Z).
  { pose proof (GA (Z.to_nat 902)) as [_ Y1]. specialize (Y1 (LE0 _)). pose proof (GB (Z.to_nat 902)) as [_ Y2]. specialize (Y2 Y1).
    pose proof (GD (Z.to_nat 902)) as [X Y3]. specialize (Y3 Y2). lia. }
  destruct (KE' XD) as [_ XE].
  assert (XF : nth (Z.to_nat 944) tabf 0%Z = 100%Z).
  { pose proof (GA (Z.to_nat 944)) as [_ Y1]. specialize (Y1 (LE0 _)). pose proof (GB (Z.to_nat 944)) as [_ Y2]. specialize (Y2 Y1).
    pose proof (GD (Z.to_nat 944)) as [_ Y3]. specialize (Y3 Y2). pose proof (GE (Z.to_nat 944)) as [_ Y4]. specialize (Y4 Y3).
    pose proof (GF (Z.to_nat 944)) as [X Y5]. specialize (Y5 Y4). lia. }
  destruct (KG' XF) as [XG _]. lia.
Qed.
End Wide.
