(** Proofs about the NDT grid. *)
From Coq Require Import List ZArith QArith Qround Qabs Lqa Lia Bool.
From Coq Require Import ZifyBool ZifyNat.
From Verif Require Import Base QLemmas VoxelModel VoxelSpec VoxelProofs VoxelOps VoxelAdd
  VoxelQuery VoxelHist VoxelFinal GridModel GridSpec.
Import ListNotations.
Open Scope nat_scope.

Lemma qlt_iff a b : Qlt_b a b = true <-> (a < b)%Q.
Proof. unfold Qlt_b. rewrite negb_true_iff. apply Qle_bool_false. Qed.
Lemma qlt_not a b : Qlt_b a b = false <-> (b <= a)%Q.
Proof. unfold Qlt_b. rewrite negb_false_iff. apply Qle_bool_iff. Qed.

Lemma qlt_cases a b : if Qlt_b a b then (a < b)%Q else (b <= a)%Q.
Proof. destruct (Qlt_b a b) eqn:E; [apply qlt_iff|apply qlt_not]; exact E. Qed.

Lemma in_cell_b_iff cs c p : in_cell_b cs c p = true <-> in_cell cs c p.
Proof.
  unfold in_cell_b, in_cell. rewrite !andb_true_iff, !Qle_bool_iff, !negb_true_iff.
  rewrite !Qle_bool_false. tauto.
Qed.
Lemma in_cell_b_of cs c p : (0 < cs)%Q ->
  in_cell_b cs c p = pcell_eqb c (cell_of cs p).
Proof.
  intro H. apply eq_true_iff_eq. rewrite in_cell_b_iff, in_cell_iff by auto.
  unfold pcell_eqb. rewrite andb_true_iff, !Z.eqb_eq.
  destruct c as [a b], (cell_of cs p) as [x y]; cbn [fst snd]. split.
  - intro E. injection E as -> ->. auto.
  - intros [-> ->]. reflexivity.
Qed.

Lemma vgrows_refl {C} (g : vgrid C) : grows g g.
Proof. unfold grows. repeat split; auto. Qed.
Lemma vgrows_trans {C} (a b c : vgrid C) : grows a b -> grows b c -> grows a c.
Proof.
  unfold grows. intros ((A1 & A2 & A3 & A4) & A5) ((B1 & B2 & B3 & B4) & B5).
  repeat split; try lia. congruence.
Qed.

Section P.
Set Default Proof Using "Type".
Context {X L : Type}.
Notation cell := (ncell X).
Notation grid := (ngrid X).
Variable merge : cell -> cell -> cell.
Variable dflt : cell.

Lemma off_not_edge (v : vgrid cell) c p :
  off_border (cell_size v) p -> in_cell (cell_size v) c p -> ~ on_outer_edge v c p.
Proof.
  intros O I [[_ E]|[_ E]]; destruct (O c I) as [A B]; [apply A|apply B]; exact E.
Qed.

Lemma off_box (v : vgrid cell) p : wf v -> off_border (cell_size v) p ->
  isInside v p = in_box v (cell_of (cell_size v) p).
Proof.
  intros W O. pose proof (wf_cs v W) as HC. destruct (isInside v p) eqn:I.
  - symmetry. apply inside_box; auto. intros c IC. apply off_not_edge; auto.
  - destruct (in_box v (cell_of (cell_size v) p)) eqn:B; [|reflexivity].
    destruct (lookup_in v p _ W (cell_of_in _ p HC) B) as [I' _]. congruence.
Qed.

Lemma same_window_refl (v : vgrid cell) : same_window v v.
Proof. repeat split. Qed.
Lemma same_window_trans (a b c : vgrid cell) :
  same_window a b -> same_window b c -> same_window a c.
Proof. clear merge dflt. unfold same_window. intuition congruence. Qed.
Lemma same_window_box (a b : vgrid cell) c : same_window a b -> in_box b c = in_box a c.
Proof. intros (A & B & D & E & _). unfold in_box. rewrite A, B, D, E. reflexivity. Qed.
Lemma hull_same (a b : vgrid cell) c : in_box a c = true -> hull a c b -> same_window a b.
Proof. clear merge dflt.
  unfold in_box, hull, same_window. intros B (H1 & H2 & H3 & H4 & H5).
  rewrite !andb_true_iff in B. destruct B as [[B1 B2] [B3 B4]].
  repeat split; [lia|lia|lia|lia|exact H5].
Qed.
Lemma hull_grows (a b : vgrid cell) c : hull a c b -> grows a b.
Proof. clear merge dflt. intros (H1 & H2 & H3 & H4 & H5). split; [|exact H5]. lia. Qed.

Lemma landing_cons cs c x (l : list cell) :
  landing cs c (x :: l) =
  if nc_gauss x && in_cell_b cs c (nc_mean x) then x :: landing cs c l else landing cs c l.
Proof. reflexivity. Qed.

Lemma content_box (v : vgrid cell) c : in_box v c = false -> content v c = None.
Proof. intro B. unfold content. rewrite B. reflexivity. Qed.

(** adding a cell at a position off the borders *)
Lemma add_off (v : vgrid cell) p x m : wf v -> off_border (cell_size v) p ->
  exists v', addCell merge v p x m = Ok v' /\ wf v' /\ hull v (cell_of (cell_size v) p) v' /\
    forall c, content v' c =
      if in_cell_b (cell_size v) c p then Some (new_value merge (content v c) x m)
      else content v c.
Proof.
  intros W O. pose proof (wf_cs v W) as HC.
  destruct (addCell_spec merge v p _ x m W (cell_of_in _ p HC)
              (off_not_edge v _ p O (cell_of_in _ p HC)))
    as (v' & E & W' & H & CT & OT & _).
  exists v'. split; [exact E|]. split; [exact W'|]. split; [exact H|].
  intro c. destruct (in_cell_b (cell_size v) c p) eqn:I.
  - apply in_cell_b_iff in I. apply in_cell_unique in I; auto. subst c. exact CT.
  - apply OT. intros ->. rewrite (proj2 (in_cell_b_iff _ _ _)) in I; [discriminate|].
    apply cell_of_in; auto.
Qed.

(** loop of the non-resizing merge *)
Lemma merge_loop l : forall v, wf v -> off_borders (cell_size v) l ->
  exists v', foldM (fun v c => if nc_gauss c then
                                 if isInside v (nc_mean c)
                                 then addCell merge v (nc_mean c) c true else Ok v
                               else Ok v) l v = Ok v' /\
    wf v' /\ same_window v v' /\
    forall c, content v' c =
      if in_box v c then accumulate merge (content v c) (landing (cell_size v) c l) else None.
Proof.
  induction l as [|x t IH]; intros v W O.
  - exists v. split; [reflexivity|]. split; [exact W|]. split; [apply same_window_refl|].
    intro c. cbn. destruct (in_box v c) eqn:B; [reflexivity|apply content_box; auto].
  - pose proof (wf_cs v W) as HC. cbn [foldM].
    assert (Ot : off_borders (cell_size v) t) by (intros y Hy; apply O; right; exact Hy).
    destruct (nc_gauss x) eqn:G; cbn [bind].
    2: { destruct (IH v W Ot) as (v' & E & W' & S & CT). exists v'.
         split; [exact E|]. split; [exact W'|]. split; [exact S|].
         intro c. rewrite CT, landing_cons, G. reflexivity. }
    pose proof (O x (or_introl eq_refl) G) as Ox.
    rewrite (off_box v (nc_mean x) W Ox).
    destruct (in_box v (cell_of (cell_size v) (nc_mean x))) eqn:B; cbn [bind].
    + destruct (add_off v (nc_mean x) x true W Ox) as (v1 & E1 & W1 & H1 & C1).
      rewrite E1. cbn [bind].
      pose proof (hull_same _ _ _ B H1) as S1.
      assert (CS : cell_size v1 = cell_size v) by apply S1.
      destruct (IH v1 W1 ltac:(rewrite CS; exact Ot)) as (v' & E & W' & S & CT).
      exists v'. split; [exact E|]. split; [exact W'|].
      split; [eapply same_window_trans; eauto|].
      intro c. rewrite CT, (same_window_box _ _ c S1), CS, landing_cons, G, C1.
      cbn [andb]. destruct (in_cell_b (cell_size v) c (nc_mean x)); [|reflexivity].
      unfold new_value. unfold accumulate at 2. cbn [fold_left].
      destruct (content v c); reflexivity.
    + destruct (IH v W Ot) as (v' & E & W' & S & CT). exists v'.
      split; [exact E|]. split; [exact W'|]. split; [exact S|].
      intro c. rewrite CT, landing_cons, G. cbn [andb].
      destruct (in_box v c) eqn:Bc; [|reflexivity].
      rewrite in_cell_b_of by auto.
      destruct (pcell_eqb c (cell_of (cell_size v) (nc_mean x))) eqn:E2; [|reflexivity].
      exfalso. unfold pcell_eqb in E2. apply andb_true_iff in E2. destruct E2 as [Ea Eb].
      apply Z.eqb_eq in Ea, Eb.
      replace (cell_of (cell_size v) (nc_mean x)) with c in B; [congruence|].
      destruct c, (cell_of (cell_size v) (nc_mean x)); cbn [fst snd] in *; congruence.
Qed.

(** loop of the resizing merge: later cells replace earlier ones *)
Lemma replace_loop l : forall v, wf v -> off_borders (cell_size v) l ->
  exists v', foldM (fun v c => if nc_gauss c then addCell merge v (nc_mean c) c false
                               else Ok v) l v = Ok v' /\
    wf v' /\ grows v v' /\
    (forall x, In x l -> nc_gauss x = true ->
       in_box v' (cell_of (cell_size v) (nc_mean x)) = true) /\
    forall c, content v' c = latest (content v c) (landing (cell_size v) c l).
Proof.
  induction l as [|x t IH]; intros v W O.
  - exists v. split; [reflexivity|]. split; [exact W|]. split; [apply vgrows_refl|].
    split; [intros x []|]. intro c. reflexivity.
  - pose proof (wf_cs v W) as HC. cbn [foldM].
    assert (Ot : off_borders (cell_size v) t) by (intros y Hy; apply O; right; exact Hy).
    destruct (nc_gauss x) eqn:G; cbn [bind].
    2: { destruct (IH v W Ot) as (v' & E & W' & S & IB & CT). exists v'.
         split; [exact E|]. split; [exact W'|]. split; [exact S|].
         split; [intros y [Hy|Hy] Gy; [congruence|apply IB; auto]|].
         intro c. rewrite CT, landing_cons, G. reflexivity. }
    pose proof (O x (or_introl eq_refl) G) as Ox.
    destruct (add_off v (nc_mean x) x false W Ox) as (v1 & E1 & W1 & H1 & C1).
    rewrite E1. cbn [bind].
    pose proof (hull_grows _ _ _ H1) as G1.
    assert (CS : cell_size v1 = cell_size v) by apply G1.
    destruct (IH v1 W1 ltac:(rewrite CS; exact Ot)) as (v' & E & W' & S & IB & CT).
    exists v'. split; [exact E|]. split; [exact W'|].
    split; [eapply vgrows_trans; eauto|]. split.
    + intros y [Hy|Hy] Gy.
      * subst y. apply hull_in_box in H1. clear - S H1. unfold in_box, grows in *. lia.
      * rewrite <- CS. apply IB; auto.
    + intro c. rewrite CT, CS, landing_cons, G, C1. cbn [andb].
      destruct (in_cell_b (cell_size v) c (nc_mean x)); [|reflexivity].
      unfold new_value. unfold latest at 2. cbn [fold_left].
      destruct (content v c); reflexivity.
Qed.

(** the cloud of means *)
Lemma gaussians_valid (g : grid) : wf (n_vox g) -> getGaussianCells g = gaussians g.
Proof.
  intro W. unfold getGaussianCells, gaussians, getValidCells.
  rewrite getValidCells_fold. cbn [app]. rewrite (cells_window _ W).
  generalize (window (n_vox g)). intro l.
  induction l as [|c t IH]; [reflexivity|]. cbn [map flat_map].
  destruct (content (n_vox g) c) as [v|]; cbn [opt_list app]; [|exact IH].
  cbn [filter]. destruct (nc_gauss v); cbn [app]; rewrite IH; reflexivity.
Qed.

Lemma gaussians_ext (a b : grid) : n_vox a = n_vox b -> gaussians a = gaussians b.
Proof. intro H. unfold gaussians. rewrite H. reflexivity. Qed.

Lemma merge_keep (g : grid) l : nwf g -> n_init g = true -> off_borders (n_cs g) l ->
  exists g', mergeInCells merge g l false = Ok g' /\ nwf g' /\ same_header g g' /\
    n_init g' = true /\ same_window (n_vox g) (n_vox g') /\
    n_means g' = Some (map nc_mean (gaussians g')) /\
    forall c, content (n_vox g') c =
      if in_box (n_vox g) c
      then accumulate merge (content (n_vox g) c) (landing (n_cs g) c l) else None.
Proof.
  intros [W CS] I O. unfold mergeInCells. rewrite I. cbn [orb negb].
  rewrite CS in O. destruct (merge_loop l (n_vox g) W O) as (v' & E & W' & S & CT).
  rewrite E. cbn [bind]. eexists. split; [reflexivity|].
  unfold updateMeans, with_vox. cbn [n_pose n_cs n_init n_time n_vox n_means].
  split; [split; [exact W'|]; cbn [n_cs n_vox]; rewrite CS; symmetry; apply S|].
  split; [repeat split|]. split; [exact I|]. split; [exact S|].
  split; [|intro c; rewrite CT, CS; reflexivity].
  rewrite gaussians_valid by exact W'. f_equal.
Qed.

Lemma bbox_mono l : forall b,
  let '(x0, y0, x1, y1) := b in
  let '(u0, v0, u1, v1) := fold_left bbox_step l b in
  (u0 <= x0 /\ v0 <= y0 /\ x1 <= u1 /\ y1 <= v1)%Q.
Proof.
  induction l as [|p t IH]; intros [[[x0 y0] x1] y1]; cbn [fold_left].
  - repeat split; apply Qle_refl.
  - specialize (IH (bbox_step (x0, y0, x1, y1) p)). unfold bbox_step in IH at 1.
    destruct (fold_left bbox_step t (bbox_step (x0, y0, x1, y1) p)) as [[[u0 v0] u1] v1].
    destruct IH as (A & B & D & E).
    pose proof (qlt_cases (fst p) x0). pose proof (qlt_cases (snd p) y0).
    pose proof (qlt_cases x1 (fst p)). pose proof (qlt_cases y1 (snd p)).
    destruct (Qlt_b (fst p) x0), (Qlt_b (snd p) y0), (Qlt_b x1 (fst p)), (Qlt_b y1 (snd p));
      repeat split; lra.
Qed.
Lemma bbox_fold_in l p : forall b, In p l ->
  let '(u0, v0, u1, v1) := fold_left bbox_step l b in
  (u0 <= fst p <= u1 /\ v0 <= snd p <= v1)%Q.
Proof.
  induction l as [|q t IH]; intros b H; [destruct H|]. cbn [fold_left].
  destruct H as [->|H]; [|apply IH; exact H].
  pose proof (bbox_mono t (bbox_step b p)) as M. destruct b as [[[x0 y0] x1] y1].
  unfold bbox_step in M at 1.
  destruct (fold_left bbox_step t (bbox_step (x0, y0, x1, y1) p)) as [[[u0 v0] u1] v1].
  destruct M as (A & B & D & E).
  pose proof (qlt_cases (fst p) x0). pose proof (qlt_cases (snd p) y0).
    pose proof (qlt_cases x1 (fst p)). pose proof (qlt_cases y1 (snd p)).
    destruct (Qlt_b (fst p) x0), (Qlt_b (snd p) y0), (Qlt_b x1 (fst p)), (Qlt_b y1 (snd p));
      repeat split; lra.
Qed.

Lemma merge_replace (g : grid) l resize : nwf g -> resize = true \/ n_init g = false ->
  off_borders (n_cs g) l ->
  exists g', mergeInCells merge g l resize = Ok g' /\ nwf g' /\ same_header g g' /\
    n_init g' = true /\ grows (n_vox g) (n_vox g') /\
    n_means g' = Some (map nc_mean (gaussians g')) /\
    (forall v, In v l -> isInside (n_vox g') (nc_mean v) = true) /\
    forall c, content (n_vox g') c =
      latest (content (n_vox g) c) (landing (n_cs g) c l).
Proof.
  intros [W CS] I O. unfold mergeInCells.
  replace (resize || negb (n_init g)) with true
    by (destruct I as [-> | ->]; [reflexivity|destruct resize; reflexivity]).
  destruct (bbox (map nc_mean l)) as [[[x0 y0] x1] y1] eqn:BB.
  destruct (enlarge_spec (n_vox g) x0 y0 x1 y1 W)
    as (v0 & E0 & W0 & G0 & _ & CT0 & IM & IN & _).
  rewrite E0. cbn [bind].
  assert (CS0 : cell_size v0 = cell_size (n_vox g)) by apply G0.
  rewrite CS, <- CS0 in O.
  destruct (replace_loop l v0 W0 O) as (v' & E & W' & S & _ & CT).
  rewrite E. cbn [bind]. eexists. split; [reflexivity|].
  unfold updateMeans. cbn [n_pose n_cs n_init n_time n_vox n_means].
  split; [split; [exact W'|]; cbn [n_cs n_vox]; destruct S; congruence|].
  split; [repeat split|]. split; [reflexivity|].
  split; [eapply vgrows_trans; eauto|].
  split; [rewrite gaussians_valid by exact W'; reflexivity|].
  split.
  - intros v Hv. assert (A : isInside v0 (nc_mean v) = true).
    { apply IN. pose proof (bbox_fold_in (map nc_mean l) (nc_mean v) (0,0,0,0)%Q) as B.
      unfold bbox in BB. rewrite BB in B. apply B. apply in_map; exact Hv. }
    pose proof (wf_cs _ W0) as H0. pose proof (wf_cs _ W') as H1.
    rewrite isInside_rectangle in A |- * by auto.
    destruct S as [(S1 & S2 & S3 & S4) S5]. rewrite S5.
    assert (M : forall a b : nat, a <= b ->
      (inject_Z (Z.of_nat a) * cell_size v0 <= inject_Z (Z.of_nat b) * cell_size v0)%Q).
    { intros a b Hab. apply Qmult_le_compat_r; [|apply Qlt_le_weak; exact H0].
      apply le_inj. lia. }
    apply M in S1, S2, S3, S4. repeat split; lra.
  - intro c. rewrite CT, CT0, CS0, CS. reflexivity.
Qed.

(** ** move *)
Lemma axis_ok cs t : (0 < cs)%Q -> (Qabs t < inject_Z (2 ^ 31) * cs)%Q ->
  exists o, axisMove cs t = Ok o /\
    (axisRest cs t o == t - inject_Z (steps o) * cs)%Q /\
    (Qabs (axisRest cs t o) < cs)%Q /\
    ((0 <= t)%Q -> (0 <= axisRest cs t o)%Q) /\ ((t <= 0)%Q -> (axisRest cs t o <= 0)%Q) /\
    (o = None <-> (Qabs t < cs)%Q).
Proof. clear merge dflt X.
  intros HC HT. unfold axisMove.
  pose proof (Qdiv_mul t cs HC) as TD. set (u := (t / cs)%Q) in *.
  assert (AB : (Qabs t / cs == Qabs u)%Q).
  { unfold u. unfold Qdiv. rewrite Qabs_Qmult. rewrite (Qabs_pos (/ cs)); [reflexivity|].
    apply Qlt_le_weak, Qinv_lt_0_compat; exact HC. }
  assert (TA : (Qabs t == Qabs u * cs)%Q).
  { rewrite <- AB. apply Qdiv_mul; exact HC. }
  assert (HU : (Qabs u < inject_Z (2 ^ 31))%Q).
  { rewrite TA in HT. apply Qmult_lt_r in HT; assumption. }
  pose proof (Qfloor_spec (Qabs t / cs)%Q) as [F1 F2]. set (q := (Qabs t / cs)%Q) in *.
  assert (UN : (- inject_Z (2^31) < u)%Q /\ (u < inject_Z (2^31))%Q).
  { split; [|eapply Qle_lt_trans; [apply Qle_Qabs|exact HU]].
    assert (- u <= Qabs u)%Q by (rewrite <- Qabs_opp; apply Qle_Qabs). lra. }
  destruct UN as [UN1 UN2].
  assert (SC : forall r, (-(1) < r /\ r < 1)%Q -> (Qabs (r * cs) < cs)%Q).
  { intros r [R1 R2]. apply Qabs_Qlt_condition. split.
    - setoid_replace (- cs)%Q with (-(1) * cs)%Q by ring. apply Qmult_lt_r; assumption.
    - setoid_replace cs with (1 * cs)%Q at 2 by ring. apply Qmult_lt_r; assumption. }
  destruct (Z.ltb_spec 0 (Qfloor q)) as [FP|FP].
  - pose proof (qlt_cases u 0) as UC.
    assert (BIG : ~ (Qabs t < cs)%Q).
    { assert (inject_Z 1 <= inject_Z (Qfloor q))%Q by (apply le_inj; lia).
      change (inject_Z 1) with 1%Q in *. rewrite TA. intro LT.
      assert (1 * cs <= Qabs u * cs)%Q by (apply Qmult_le_compat_r; lra). lra. }
    destruct (Qlt_b u 0).
    + pose proof (Qceiling_spec u) as [C1 C2]. set (k := Qceiling u) in *.
      assert (K1 : (- 2 ^ 31 < k)%Z).
      { apply inj_lt. rewrite inject_Z_opp. lra. }
      assert (K2 : (k < 2 ^ 31)%Z).
      { assert (k < 1)%Z by (apply inj_lt; change (inject_Z 1) with 1%Q; lra). lia. }
      exists (Some k). unfold to_int.
      destruct (Z.ltb_spec (- 2 ^ 31) k); [|lia]. destruct (Z.ltb_spec k (2 ^ 31)); [|lia].
      cbn [andb bind steps axisRest]. split; [reflexivity|]. split; [reflexivity|].
      assert (R : (t - inject_Z k * cs == (u - inject_Z k) * cs)%Q) by (rewrite TD at 1; ring).
      assert (T0 : (t < 0)%Q).
      { rewrite TD. setoid_replace 0%Q with (0 * cs)%Q by ring. apply Qmult_lt_r; assumption. }
      split; [rewrite R; apply SC; lra|]. split; [intro; lra|]. split.
      * intros _. rewrite R. setoid_replace 0%Q with (0 * cs)%Q by ring.
        apply Qmult_le_compat_r; lra.
      * split; [discriminate|]. intro; contradiction.
    + pose proof (Qfloor_spec u) as [C1 C2]. set (k := Qfloor u) in *.
      assert (K2 : (k < 2 ^ 31)%Z).
      { apply inj_lt. lra. }
      assert (K1 : (- 2 ^ 31 < k)%Z).
      { assert (-1 < k)%Z by (apply inj_lt; change (inject_Z (-1)) with (-(1))%Q; lra). lia. }
      exists (Some k). unfold to_int.
      destruct (Z.ltb_spec (- 2 ^ 31) k); [|lia]. destruct (Z.ltb_spec k (2 ^ 31)); [|lia].
      cbn [andb bind steps axisRest]. split; [reflexivity|]. split; [reflexivity|].
      assert (R : (t - inject_Z k * cs == (u - inject_Z k) * cs)%Q) by (rewrite TD at 1; ring).
      assert (T0 : (0 <= t)%Q).
      { rewrite TD. setoid_replace 0%Q with (0 * cs)%Q by ring. apply Qmult_le_compat_r; lra. }
      assert (R0 : (0 <= t - inject_Z k * cs)%Q).
      { rewrite R. setoid_replace 0%Q with (0 * cs)%Q by ring. apply Qmult_le_compat_r; lra. }
      split; [rewrite R; apply SC; lra|]. split; [intros _; exact R0|]. split.
      * intros T1. exfalso. apply BIG. assert (TZ : (t == 0)%Q) by lra. rewrite TZ. exact HC.
      * split; [discriminate|]. intro; contradiction.
  - assert (SM : (Qabs t < cs)%Q).
    { assert (inject_Z (Qfloor q) <= inject_Z 0)%Q by (apply le_inj; lia).
      change (inject_Z 0) with 0%Q in *. rewrite TA.
      setoid_replace cs with (1 * cs)%Q at 2 by ring. apply Qmult_lt_r; [exact HC|]. lra. }
    exists None. cbn [steps axisRest]. split; [reflexivity|].
    split; [change (inject_Z 0) with 0%Q; ring|]. split; [exact SM|].
    split; [auto|]. split; [auto|]. split; auto.
Qed.

Lemma content_map (f : cell -> cell) (v : vgrid cell) c :
  content (with_cells v (map (option_map f) (cells v))) c = option_map f (content v c).
Proof.
  unfold content, in_box, slot_of, width, with_cells; cbn [w_left w_right h_up h_down cells].
  match goal with |- (if ?b then _ else _) = _ => destruct b; [|reflexivity] end.
  change (@None cell) with (option_map f None) at 1. apply map_nth.
Qed.

Definition moved (dx dy : Q) (v : cell) : cell :=
  if nc_gauss v
  then mkC (fst (nc_mean v) - dx, snd (nc_mean v) - dy)%Q true (nc_rest v) else v.

Lemma move_ok (g : grid) (t : qtrans L) : nwf g ->
  (Qabs (p_th (n_pose g)) <= 1 # 10000000)%Q ->
  (Qabs (tr_x t) < inject_Z (2^31) * n_cs g)%Q -> (Qabs (tr_y t) < inject_Z (2^31) * n_cs g)%Q ->
  exists g' rx ry kx ky,
    n_move g t = Ok (g', mkTr (tr_lin t) rx ry) /\ nwf g' /\
    same_window (n_vox g) (n_vox g') /\
    n_cs g' = n_cs g /\ n_init g' = n_init g /\ n_time g' = n_time g /\
    (p_x (n_pose g') == p_x (n_pose g) + inject_Z kx * n_cs g)%Q /\
    (p_y (n_pose g') == p_y (n_pose g) + inject_Z ky * n_cs g)%Q /\
    p_th (n_pose g') = p_th (n_pose g) /\
    (rx == tr_x t - inject_Z kx * n_cs g)%Q /\ (ry == tr_y t - inject_Z ky * n_cs g)%Q /\
    (Qabs rx < n_cs g)%Q /\ (Qabs ry < n_cs g)%Q /\
    (((0 <= tr_x t)%Q -> (0 <= rx)%Q) /\ ((tr_x t <= 0)%Q -> (rx <= 0)%Q)) /\
    (((0 <= tr_y t)%Q -> (0 <= ry)%Q) /\ ((tr_y t <= 0)%Q -> (ry <= 0)%Q)) /\
    (((kx = 0 /\ ky = 0)%Z /\ g' = g) \/
     (n_means g' = Some (map nc_mean (gaussians g')) /\
      forall c, content (n_vox g') c =
       if in_box (n_vox g) c
       then option_map (shiftMean (inject_Z kx * n_cs g) (inject_Z ky * n_cs g))
              (content (n_vox g) (fst c + kx, snd c + ky)%Z)
       else None)).
Proof. clear merge dflt.
  intros [W CS] TH BX BY. pose proof (wf_cs _ W) as HC. rewrite <- CS in HC.
  destruct (axis_ok (n_cs g) (tr_x t) HC BX) as (ox & EX & RX & AX & SX1 & SX2 & NX).
  destruct (axis_ok (n_cs g) (tr_y t) HC BY) as (oy & EY & RY & AY & SY1 & SY2 & NY).
  unfold n_move.
  pose proof (qlt_cases (1 # 10000000) (Qabs (p_th (n_pose g)))) as QT.
  destruct (Qlt_b (1 # 10000000) (Qabs (p_th (n_pose g)))); [lra|].
  rewrite EX, EY. cbn [bind].
  assert (GEN : (ox = None /\ oy = None) \/ ~ (ox = None /\ oy = None)).
  { destruct ox, oy; intuition congruence. }
  destruct GEN as [[-> ->]|GEN].
  - exists g, (axisRest (n_cs g) (tr_x t) None), (axisRest (n_cs g) (tr_y t) None), 0%Z, 0%Z.
    split; [reflexivity|]. split; [split; assumption|]. split; [apply same_window_refl|].
    do 3 (split; [reflexivity|]).
    split; [change (inject_Z 0) with 0%Q; ring|]. split; [change (inject_Z 0) with 0%Q; ring|].
    split; [reflexivity|]. split; [exact RX|]. split; [exact RY|].
    split; [exact AX|]. split; [exact AY|]. split; [auto|]. split; [auto|].
    left. auto.
  - destruct (translate_discard_wf (n_vox g) (- steps ox) (- steps oy) W)
      as (v & EV & SF & CT).
    destruct SF as (S1 & S2 & S3 & S4 & S5 & S6 & S7).
    set (dx := (inject_Z (steps ox) * n_cs g)%Q). set (dy := (inject_Z (steps oy) * n_cs g)%Q).
    exists (updateMeans (mkN (mkPose (p_x (n_pose g) + dx) (p_y (n_pose g) + dy)
              (p_th (n_pose g))) (n_cs g) (n_init g) (n_time g)
              (with_cells v (map (option_map (shiftMean dx dy)) (cells v))) (n_means g))),
      (axisRest (n_cs g) (tr_x t) ox), (axisRest (n_cs g) (tr_y t) oy), (steps ox), (steps oy).
    split.
    { destruct ox as [kx|], oy as [ky|]; try (exfalso; apply GEN; auto; fail);
        cbn [steps] in *; rewrite EV; reflexivity. }
    assert (W' : wf (with_cells v (map (option_map (shiftMean dx dy)) (cells v)))).
    { destruct W as [W1 W2]. split; [cbn [with_cells cell_size]; rewrite S5; exact W1|].
      unfold width, height, with_cells in *; cbn [cells w_left w_right h_up h_down].
      rewrite map_length, S1, S2, S3, S4, S7. exact W2. }
    unfold updateMeans. cbn [n_vox n_pose n_cs n_init n_time n_means p_x p_y p_th].
    split; [split; [exact W'|cbn; rewrite S5; exact CS]|].
    split; [repeat split; assumption|].
    do 3 (split; [reflexivity|]). split; [reflexivity|]. split; [reflexivity|].
    split; [reflexivity|]. split; [exact RX|]. split; [exact RY|].
    split; [exact AX|]. split; [exact AY|]. split; [auto|]. split; [auto|].
    right. split; [rewrite gaussians_valid by exact W'; reflexivity|].
    intro c. rewrite content_map, CT.
    destruct (in_box (n_vox g) c); [|reflexivity].
    replace (fst c - - steps ox)%Z with (fst c + steps ox)%Z by lia.
    replace (snd c - - steps oy)%Z with (snd c + steps oy)%Z by lia. reflexivity.
Qed.

Lemma move_rotated (g : grid) (t : qtrans L) :
  (1 # 10000000 < Qabs (p_th (n_pose g)))%Q -> n_move g t = Ok (g, t).
Proof.
  intro H. unfold n_move. apply qlt_iff in H. rewrite H. reflexivity.
Qed.

(** ** occupancy export *)
Lemma occ_fold (raw : cell -> Q) l : forall acc,
  fold_left (fun acc o => acc ++ [occ_entry raw o]) l acc = acc ++ map (occ_entry raw) l.
Proof.
  induction l as [|o t IH]; intro acc; cbn [fold_left map]; [symmetry; apply app_nil_r|].
  rewrite IH, <- app_assoc. reflexivity.
Qed.

Lemma occ_cells_spec raw btw (tp : qtrans L -> point -> point) (g : grid) : wf (n_vox g) ->
  let o := createOccupancyGrid raw btw tp g in
  length (oc_cells o) = oc_width o * oc_height o /\
  oc_width o = width (n_vox g) /\ oc_height o = height (n_vox g) /\
  oc_origin o = tp (btw (n_pose g) (mkPose 0 0 0))
                   (inject_Z (- Z.of_nat (w_left (n_vox g))) * n_cs g,
                    inject_Z (Z.of_nat (h_up (n_vox g))) * n_cs g)%Q /\
  oc_theta o = p_th (n_pose g) /\ oc_res o = n_cs g /\
  forall col row, col < oc_width o -> row < oc_height o ->
    nth_error (oc_cells o) (row * oc_width o + col) =
    Some (match content (n_vox g) (Z.of_nat col - Z.of_nat (w_left (n_vox g)),
                                   Z.of_nat (h_up (n_vox g)) - Z.of_nat row)%Z with
          | None => (-1)%Z
          | Some c => if Qlt_b (8#10) (raw c) then 99%Z else 0%Z
          end).
Proof. clear merge dflt.
  intros W. cbn [createOccupancyGrid oc_cells oc_width oc_height].
  unfold createOccupancyGrid; cbn [oc_cells oc_width oc_height].
  rewrite occ_fold. cbn [app]. rewrite map_length. rewrite (wf_len _ W).
  split; [reflexivity|]. split; [reflexivity|]. split; [reflexivity|].
  split; [cbn [oc_origin]; rewrite inject_Z_opp; reflexivity|].
  split; [reflexivity|]. split; [reflexivity|].
  intros col row Hc Hr.
  set (c := (Z.of_nat col - Z.of_nat (w_left (n_vox g)),
             Z.of_nat (h_up (n_vox g)) - Z.of_nat row)%Z).
  assert (B : in_box (n_vox g) c = true).
  { unfold in_box, c, width, height in *. cbn [fst snd]. lia. }
  assert (SL : row * width (n_vox g) + col = slot_of (n_vox g) c).
  { unfold slot_of, c. cbn [fst snd].
    generalize dependent (width (n_vox g)). intros w Hc.
    replace (Z.of_nat (h_up (n_vox g)) - (Z.of_nat (h_up (n_vox g)) - Z.of_nat row))%Z
      with (Z.of_nat row) by lia.
    replace (Z.of_nat col - Z.of_nat (w_left (n_vox g)) + Z.of_nat (w_left (n_vox g)))%Z
      with (Z.of_nat col) by lia.
    rewrite <- Nat2Z.inj_mul, <- Nat2Z.inj_add, Nat2Z.id. reflexivity. }
  rewrite SL.
  pose proof (vget_box (n_vox g) c W B) as V. unfold vget in V.
  destruct (nth_error (cells (n_vox g)) (slot_of (n_vox g) c)) as [o|] eqn:E; [|discriminate].
  injection V as V. rewrite (map_nth_error (occ_entry raw) _ _ E). f_equal.
  rewrite <- V. reflexivity.
Qed.

(** ** coarser grid *)
Lemma fresh_nwf ts cs : (0 < cs)%Q -> nwf (n_setCellSize (n_new dflt ts) cs).
Proof.
  intro H. split; [|reflexivity]. cbn. split; [exact H|reflexivity].
Qed.
Lemma fresh_content ts cs c :
  content (n_vox (n_setCellSize (n_new dflt ts) cs)) c =
  if pcell_eqb c (0, 0)%Z then Some dflt else None.
Proof. clear merge.
  destruct c as [a b]. unfold content, in_box, pcell_eqb. cbn.
  destruct (a =? 0)%Z eqn:A, (b =? 0)%Z eqn:B; cbn;
    try (replace ((0 <=? a)%Z && (a <=? 0)%Z && ((0 <=? b)%Z && (b <=? 0)%Z)) with false by lia;
         reflexivity).
  replace a with 0%Z by lia. replace b with 0%Z by lia. reflexivity.
Qed.

Lemma coarser_spec (g : grid) cs : (0 < n_cs g)%Q ->
  let s := if Qlt_b cs (n_cs g) then n_cs g else cs in
  off_borders s (getValidCells (n_vox g)) ->
  exists g', createCoarserGrid merge dflt g cs = Ok g' /\ nwf g' /\ n_cs g' = s /\
    n_means g' = Some (map nc_mean (gaussians g')) /\
    forall c, content (n_vox g') c =
      latest (if pcell_eqb c (0, 0)%Z then Some dflt else None)
             (landing s c (getValidCells (n_vox g))).
Proof.
  intros HC s O. unfold createCoarserGrid. fold s.
  assert (HS : (0 < s)%Q).
  { unfold s. pose proof (qlt_cases cs (n_cs g)). destruct (Qlt_b cs (n_cs g)); lra. }
  destruct (merge_replace (n_setCellSize (n_new dflt 0) s) (getValidCells (n_vox g)) true
              (fresh_nwf 0 s HS) (or_introl eq_refl) O)
    as (g' & E & W & SH & I & G & M & _ & CT).
  exists g'. split; [exact E|]. split; [exact W|]. split; [apply SH|]. split; [exact M|].
  intro c. rewrite CT, fresh_content. reflexivity.
Qed.

Lemma latest_small old (l : list cell) : length l <= 1 ->
  latest old l = match merged merge l with Some v => Some v | None => old end.
Proof.
  destruct l as [|a [|b t]]; cbn; intro H; [reflexivity|reflexivity|lia].
Qed.

(** ** radius search *)
Lemma slotCell_content (v : vgrid cell) c : wf v -> in_box v c = true ->
  slotCell v (slot_of v c) = content v c.
Proof. intros W B. unfold slotCell, content. rewrite B. reflexivity. Qed.

Lemma filter_map_slot (v : vgrid cell) (f : nat -> bool) (h : pcell -> bool) l :
  (forall d, In d l -> f (slot_of v d) = h d) ->
  filter f (map (slot_of v) l) = map (slot_of v) (filter h l).
Proof.
  induction l as [|d t IH]; intro H; [reflexivity|]. cbn [map filter].
  rewrite (H d (or_introl eq_refl)), IH by (intros e He; apply H; right; exact He).
  destruct (h d); reflexivity.
Qed.

Lemma qdiv_le a b cs : (0 < cs)%Q -> (a <= b * cs)%Q -> (a / cs <= b)%Q.
Proof. intros H A. apply Qle_shift_div_r; assumption. Qed.

Lemma sq_le_abs a b r : (0 < r)%Q -> (a * a + b * b <= r * r)%Q ->
  (- r <= a /\ a <= r)%Q.
Proof. intros H A. split; nra. Qed.

Lemma near_within cs c d (p q : point) r : (0 < cs)%Q -> (0 < r)%Q ->
  in_cell cs c p -> in_cell cs d q -> (sq_dist q p <= r * r)%Q ->
  within (Z.of_nat (Z.to_nat (Qceiling (r / cs)))) c d.
Proof. clear merge dflt X.
  intros HC HR IC ID D. unfold sq_dist in D.
  destruct (sq_le_abs _ _ r HR D) as [DX1 DX2].
  assert (D' : ((snd q - snd p) * (snd q - snd p) + (fst q - fst p) * (fst q - fst p) <= r * r)%Q)
    by lra.
  destruct (sq_le_abs _ _ r HR D') as [DY1 DY2].
  apply in_cell_uv in IC; auto. apply in_cell_uv in ID; auto.
  pose proof (Qceiling_spec (r / cs)) as [K1 K2].
  assert (R0 : (0 < r / cs)%Q).
  { apply Qlt_shift_div_l; [exact HC|]. lra. }
  set (k := Qceiling (r / cs)) in *.
  assert (KP : (0 < k)%Z) by (apply inj_lt; change (inject_Z 0) with 0%Q; lra).
  rewrite Z2Nat.id by lia.
  assert (SX : forall a b : Q, (- r <= a - b)%Q -> (a - b <= r)%Q ->
    (- (r / cs) <= a / cs - b / cs)%Q /\ (a / cs - b / cs <= r / cs)%Q).
  { intros a b A B. pose proof (Qdiv_mul a cs HC) as Ea. pose proof (Qdiv_mul b cs HC) as Eb.
    pose proof (Qdiv_mul r cs HC) as Er.
    set (a' := (a / cs)%Q) in *. set (b' := (b / cs)%Q) in *. set (r' := (r / cs)%Q) in *.
    rewrite Ea, Eb, Er in A, B.
    split; [apply (Qmult_le_r _ _ cs HC)|apply (Qmult_le_r _ _ cs HC)]; lra. }
  destruct (SX _ _ DX1 DX2) as [X1 X2]. destruct (SX _ _ DY1 DY2) as [Y1 Y2].
  clear SX D D' DX1 DX2 DY1 DY2.
  destruct IC as (C1 & C2 & C3 & C4). destruct ID as (E1 & E2 & E3 & E4).
  unfold within. split; apply Z.abs_le; split.
  - assert (fst d < fst c + k + 1)%Z; [|lia]. apply inj_lt.
    rewrite !inject_Z_plus. change (inject_Z 1) with 1%Q. lra.
  - assert (fst c < fst d + k + 1)%Z; [|lia]. apply inj_lt.
    rewrite !inject_Z_plus. change (inject_Z 1) with 1%Q. lra.
  - assert (snd d < snd c + k + 1)%Z; [|lia]. apply inj_lt.
    rewrite !inject_Z_plus. change (inject_Z 1) with 1%Q. lra.
  - assert (snd c < snd d + k + 1)%Z; [|lia]. apply inj_lt.
    rewrite !inject_Z_plus. change (inject_Z 1) with 1%Q. lra.
Qed.

Lemma NoDup_window_filter (v : vgrid cell) f : NoDup (filter f (window v)).
Proof. apply NoDup_filter, window_NoDup. Qed.

Lemma radius_exact (g : grid) p c r : nwf g -> anchored g ->
  in_cell (n_cs g) c p -> in_box (n_vox g) c = true -> (0 < r)%Q ->
  exists l, n_getNeighbors g p r = Ok (map (slot_of (n_vox g)) l) /\ NoDup l /\
    forall d, In d l <-> exists v, content (n_vox g) d = Some v /\ nc_gauss v = true /\
                                   (sq_dist (nc_mean v) p <= r * r)%Q.
Proof.
  intros [W CS] AN IC B HR. pose proof (wf_cs _ W) as HC. rewrite CS in IC.
  unfold n_getNeighbors.
  replace (Qle_bool r 0) with false by (symmetry; apply Qle_bool_false; exact HR).
  rewrite (getNeighbors_spec (n_vox g) p c _ W IC B). cbn [bind]. rewrite CS.
  set (k := Z.of_nat (Z.to_nat (Qceiling (r / cell_size (n_vox g))))).
  set (h := fun d => match content (n_vox g) d with
                     | Some v => nc_gauss v && Qle_bool (sq_dist (nc_mean v) p) (r * r)
                     | None => false end).
  rewrite (filter_map_slot (n_vox g) _ h).
  2: { intros d Hd. apply filter_In in Hd. destruct Hd as [Hd _]. apply window_In in Hd.
       rewrite slotCell_content by auto. reflexivity. }
  eexists. split; [reflexivity|]. split.
  { apply NoDup_filter, NoDup_filter, window_NoDup. }
  intro d. rewrite !filter_In, window_In. split.
  - intros [_ H]. unfold h in H. destruct (content (n_vox g) d) as [v|]; [|discriminate].
    apply andb_true_iff in H. destruct H as [H1 H2]. apply Qle_bool_iff in H2.
    exists v. auto.
  - intros (v & E & G & D). split.
    + split.
      * destruct (in_box (n_vox g) d) eqn:Bd; [reflexivity|].
        rewrite content_box in E by auto. discriminate.
      * apply andb_true_iff. split.
        -- apply within_b_iff. unfold k.
           apply (near_within _ c d p (nc_mean v) r HC HR IC); [apply AN; auto|exact D].
        -- unfold present. rewrite E. reflexivity.
    + unfold h. rewrite E, G. apply Qle_bool_iff in D. exact D.
Qed.

Lemma radius_zero (g : grid) p c r : nwf g ->
  in_cell (n_cs g) c p -> in_box (n_vox g) c = true -> (r <= 0)%Q ->
  n_getNeighbors g p r =
  Ok (match content (n_vox g) c with
      | Some v => if nc_gauss v then [slot_of (n_vox g) c] else []
      | None => [] end).
Proof.
  intros [W CS] IC B HR. rewrite CS in IC. pose proof (wf_cs _ W) as HC.
  unfold n_getNeighbors. rewrite (proj2 (Qle_bool_iff r 0) HR).
  unfold getNeighbors. destruct (lookup_in (n_vox g) p c W IC B) as (I & CE & _ & _).
  rewrite I, CE. cbn [negb Nat.eqb bind].
  assert (CI : calcIndex (n_vox g) p = Ok (slot_of (n_vox g) c)).
  { apply in_cell_unique in IC; auto. subst c. apply calcIndex_box; auto. }
  destruct (content (n_vox g) c) as [v|] eqn:E; cbn [bind]; [|reflexivity].
  rewrite CI. cbn [bind filter]. rewrite slotCell_content, E by auto.
  destruct (nc_gauss v); reflexivity.
Qed.

End P.
