(** Frames made from scans, and transforming a frame. *)
From Coq Require Import List ZArith QArith Qround Qabs Lqa Lia Bool.
From Coq Require Import ZifyBool ZifyNat.
From Verif Require Import Base QLemmas VoxelModel VoxelSpec VoxelProofs VoxelOps VoxelAdd
  VoxelQuery VoxelRay VoxelHist VoxelFinal GridModel GridSpec GridProofs GridOps ScanSpec.
Import ListNotations.
Open Scope nat_scope.

(** ** averages stay strictly inside *)
Lemma sum_lt l b : l <> [] -> (forall x, In x l -> (x < b)%Q) ->
  (sumQ l < inject_Z (Z.of_nat (length l)) * b)%Q.
Proof.
  induction l as [|a t IH]; intros NE H; [congruence|].
  pose proof (H a (or_introl eq_refl)) as Ha. cbn [sumQ fold_right length].
  rewrite Nat2Z.inj_succ. unfold Z.succ. rewrite inject_Z_plus. change (inject_Z 1) with 1%Q.
  destruct t as [|c t].
  - cbn. change (inject_Z 0) with 0%Q. lra.
  - assert (IHt : (sumQ (c :: t) < inject_Z (Z.of_nat (length (c :: t))) * b)%Q)
      by (apply IH; [discriminate|intros x Hx; apply H; right; exact Hx]).
    fold (sumQ (c :: t)). lra.
Qed.
Lemma sum_gt l b : l <> [] -> (forall x, In x l -> (b < x)%Q) ->
  (inject_Z (Z.of_nat (length l)) * b < sumQ l)%Q.
Proof.
  induction l as [|a t IH]; intros NE H; [congruence|].
  pose proof (H a (or_introl eq_refl)) as Ha. cbn [sumQ fold_right length].
  rewrite Nat2Z.inj_succ. unfold Z.succ. rewrite inject_Z_plus. change (inject_Z 1) with 1%Q.
  destruct t as [|c t].
  - cbn. change (inject_Z 0) with 0%Q. lra.
  - assert (IHt : (inject_Z (Z.of_nat (length (c :: t))) * b < sumQ (c :: t))%Q)
      by (apply IH; [discriminate|intros x Hx; apply H; right; exact Hx]).
    fold (sumQ (c :: t)). lra.
Qed.
Lemma avg_between l b1 b2 m : l <> [] -> (forall x, In x l -> (b1 < x)%Q /\ (x < b2)%Q) ->
  (inject_Z (Z.of_nat (length l)) * m == sumQ l)%Q -> (b1 < m)%Q /\ (m < b2)%Q.
Proof.
  intros NE H E.
  assert (P : (0 < inject_Z (Z.of_nat (length l)))%Q).
  { destruct l; [congruence|]. change 0%Q with (inject_Z 0). apply lt_inj. cbn [length]. lia. }
  pose proof (sum_lt l b2 NE (fun x Hx => proj2 (H x Hx))) as U.
  pose proof (sum_gt l b1 NE (fun x Hx => proj1 (H x Hx))) as G.
  rewrite <- E in U, G. split.
  - apply (Qmult_lt_l _ _ _ P). exact G.
  - apply (Qmult_lt_l _ _ _ P). exact U.
Qed.

(** strictly inside a square *)
Definition inner (cs : Q) (c : pcell) (p : point) : Prop :=
  ((inject_Z (fst c) - (1#2)) * cs < fst p)%Q /\ (fst p < (inject_Z (fst c) + (1#2)) * cs)%Q /\
  ((inject_Z (snd c) - (1#2)) * cs < snd p)%Q /\ (snd p < (inject_Z (snd c) + (1#2)) * cs)%Q.
Lemma inner_off cs c p : in_cell cs c p -> off_border cs p -> inner cs c p.
Proof.
  intros I O. destruct (O c I) as [A B]. destruct I as (I1 & I2 & I3 & I4).
  unfold inner. split; [|split; [exact I2|split; [exact I3|]]].
  - destruct (Qlt_le_dec ((inject_Z (fst c) - (1#2)) * cs) (fst p)) as [G|G]; [exact G|].
    exfalso. apply A. apply Qle_antisym; assumption.
  - destruct (Qlt_le_dec (snd p) ((inject_Z (snd c) + (1#2)) * cs)) as [G|G]; [exact G|].
    exfalso. apply B. apply Qle_antisym; assumption.
Qed.
Lemma inner_in cs c p : inner cs c p -> in_cell cs c p.
Proof. intros (A & B & C & D). unfold in_cell. repeat split; lra. Qed.
Lemma inner_border cs c p : (0 < cs)%Q -> inner cs c p -> off_border cs p.
Proof.
  intros H I d ID. assert (E : d = c).
  { pose proof (in_cell_unique cs d p H ID) as E1.
    pose proof (in_cell_unique cs c p H (inner_in _ _ _ I)) as E2. congruence. }
  subst d. destruct I as (A & B & C & D). split; lra.
Qed.
Lemma average_inner cs c ps p : average ps p -> (forall q, In q ps -> inner cs c q) -> inner cs c p.
Proof.
  intros (NE & EX & EY) H.
  assert (NX : map fst ps <> []) by (destruct ps; [congruence|discriminate]).
  assert (NY : map snd ps <> []) by (destruct ps; [congruence|discriminate]).
  rewrite <- (map_length (fst : point -> Q) ps) in EX. rewrite <- (map_length (snd : point -> Q) ps) in EY.
  destruct (avg_between (map fst ps) ((inject_Z (fst c) - (1#2)) * cs) ((inject_Z (fst c) + (1#2)) * cs)
              (fst p) NX) as [A B]; [|exact EX|].
  { intros x Hx. apply in_map_iff in Hx. destruct Hx as (q & <- & Hq).
    destruct (H q Hq) as (A & B & _ & _). auto. }
  destruct (avg_between (map snd ps) ((inject_Z (snd c) - (1#2)) * cs) ((inject_Z (snd c) + (1#2)) * cs)
              (snd p) NY) as [C D]; [|exact EY|].
  { intros x Hx. apply in_map_iff in Hx. destruct Hx as (q & <- & Hq).
    destruct (H q Hq) as (_ & _ & C & D). auto. }
  repeat split; assumption.
Qed.

Section P.
Set Default Proof Using "Type".
Context {X L : Type}.
Notation cell := (ncell X).
Notation grid := (ngrid X).
Variable merge : cell -> cell -> cell.
Variable dflt : cell.

(** ** what of a grid lands in a square *)
Definition gauss_list (o : option cell) : list cell :=
  match o with Some x => if nc_gauss x then [x] else [] | None => [] end.
Lemma landing_flat cs c (f : pcell -> option cell) w : NoDup w -> (0 < cs)%Q ->
  (forall d x, f d = Some x -> nc_gauss x = true -> in_cell cs d (nc_mean x)) ->
  landing cs c (flat_map (fun d => opt_list (f d)) w) =
  if existsb (pcell_eqb c) w then gauss_list (f c) else [].
Proof.
  intros ND HC A. induction ND as [|d t NI ND IH]; [reflexivity|].
  cbn [flat_map existsb]. unfold landing in *. rewrite filter_app, IH. clear IH.
  destruct (pcell_eqb c d) eqn:E.
  - assert (c = d).
    { unfold pcell_eqb in E. apply andb_true_iff in E. destruct E as [Ea Eb].
      apply Z.eqb_eq in Ea, Eb. destruct c, d; cbn [fst snd] in *; congruence. }
    subst d. cbn [orb].
    assert (NE : existsb (pcell_eqb c) t = false).
    { destruct (existsb (pcell_eqb c) t) eqn:B; [|reflexivity]. exfalso. apply NI.
      apply existsb_exists in B. destruct B as (e & He & Ee).
      unfold pcell_eqb in Ee. apply andb_true_iff in Ee. destruct Ee as [Ea Eb].
      apply Z.eqb_eq in Ea, Eb. replace c with e; [exact He|].
      destruct c, e; cbn [fst snd] in *; congruence. }
    rewrite NE, app_nil_r. unfold gauss_list. destruct (f c) as [x|] eqn:F; [|reflexivity].
    cbn [opt_list filter]. destruct (nc_gauss x) eqn:G; [|reflexivity].
    rewrite (proj2 (in_cell_b_iff cs c (nc_mean x)) (A c x F G)). reflexivity.
  - cbn [orb]. destruct (f d) as [x|] eqn:F; [|reflexivity]. cbn [opt_list filter app].
    destruct (nc_gauss x) eqn:G; [|reflexivity]. cbn [andb].
    pose proof (A d x F G) as ID.
    destruct (in_cell_b cs c (nc_mean x)) eqn:B; [|reflexivity]. exfalso.
    apply in_cell_b_iff in B. pose proof (in_cell_unique cs c _ HC B) as E1.
    pose proof (in_cell_unique cs d _ HC ID) as E2.
    assert (c = d) by congruence. clear E1 E2. subst d. unfold pcell_eqb in E. rewrite !Z.eqb_refl in E. discriminate.
Qed.
Lemma valid_flat (v : vgrid cell) : wf v ->
  getValidCells v = flat_map (fun d => opt_list (content v d)) (window v).
Proof. clear merge dflt.
  intro W. unfold getValidCells. rewrite getValidCells_fold. cbn [app]. rewrite (cells_window _ W).
  generalize (window v). intro l. induction l as [|d t IH]; [reflexivity|].
  cbn [map flat_map]. rewrite IH. reflexivity.
Qed.
Lemma window_nodup (v : vgrid cell) : NoDup (window v).
Proof. pose proof (NoDup_window_filter v (fun _ => true)) as H.
  replace (filter (fun _ : pcell => true) (window v)) with (window v) in H; [exact H|].
  clear H. induction (window v) as [|a t IH]; [reflexivity|]. cbn. congruence.
Qed.
Lemma landing_valid (v : vgrid cell) c : wf v ->
  (forall d x, content v d = Some x -> nc_gauss x = true -> in_cell (cell_size v) d (nc_mean x)) ->
  landing (cell_size v) c (getValidCells v) = gauss_list (content v c).
Proof.
  intros W A. rewrite (valid_flat v W).
  rewrite (landing_flat (cell_size v) c (content v) (window v) (window_nodup v) (wf_cs v W) A).
  destruct (existsb (pcell_eqb c) (window v)) eqn:E; [reflexivity|].
  destruct (in_box v c) eqn:B; [|rewrite (content_box v c B); reflexivity].
  exfalso. apply window_In in B. assert (T : existsb (pcell_eqb c) (window v) = true).
  { apply existsb_exists. exists c. split; [exact B|]. unfold pcell_eqb. rewrite !Z.eqb_refl. reflexivity. }
  congruence.
Qed.
Lemma valid_in (v : vgrid cell) x : wf v -> In x (getValidCells v) -> exists c, content v c = Some x.
Proof. clear merge dflt.
  intros W I. rewrite (valid_flat v W) in I. apply in_flat_map in I. destruct I as (d & _ & I).
  exists d. destruct (content v d) as [y|]; [|destruct I]. destruct I as [->|[]]. reflexivity.
Qed.

(** ** merging cells while the window grows (transform) *)
Lemma add_loop l : forall v, wf v -> off_borders (cell_size v) l ->
  exists v', foldM (fun v c => if nc_gauss c then addCell merge v (nc_mean c) c true
                               else Ok v) l v = Ok v' /\
    wf v' /\ grows v v' /\
    forall c, content v' c = accumulate merge (content v c) (landing (cell_size v) c l).
Proof.
  induction l as [|x t IH]; intros v W O.
  - exists v. split; [reflexivity|]. split; [exact W|]. split; [apply vgrows_refl|].
    intro c. reflexivity.
  - cbn [foldM].
    assert (Ot : off_borders (cell_size v) t) by (intros y Hy; apply O; right; exact Hy).
    destruct (nc_gauss x) eqn:G; cbn [bind].
    2: { destruct (IH v W Ot) as (v' & E & W' & S & CT). exists v'.
         split; [exact E|]. split; [exact W'|]. split; [exact S|].
         intro c. rewrite CT, landing_cons, G. reflexivity. }
    pose proof (O x (or_introl eq_refl) G) as Ox.
    destruct (add_off merge v (nc_mean x) x true W Ox) as (v1 & E1 & W1 & H1 & C1).
    rewrite E1. cbn [bind].
    pose proof (hull_grows _ _ _ H1) as G1.
    assert (CS : cell_size v1 = cell_size v) by apply G1.
    destruct (IH v1 W1 ltac:(rewrite CS; exact Ot)) as (v' & E & W' & S & CT).
    exists v'. split; [exact E|]. split; [exact W'|].
    split; [eapply vgrows_trans; eauto|].
    intro c. rewrite CT, CS, landing_cons, G, C1. cbn [andb].
    destruct (in_cell_b (cell_size v) c (nc_mean x)); [|reflexivity].
    unfold new_value. unfold accumulate at 2. cbn [fold_left].
    destruct (content v c); reflexivity.
Qed.

Variable tcell : qtrans L -> cell -> cell.
Variable noLin : L.
Variable moveOrigin : qpose -> qtrans L -> qpose.

Lemma transform_spec (g : grid) (t : qtrans L) : nwf g ->
  off_borders (n_cs g) (map (tcell (mkTr (tr_lin t) 0 0)) (getValidCells (n_vox g))) ->
  exists g', n_transform merge tcell noLin moveOrigin g t = Ok g' /\ nwf g' /\
    n_pose g' = moveOrigin (n_pose g) (mkTr noLin (tr_x t) (tr_y t)) /\
    n_cs g' = n_cs g /\ n_init g' = n_init g /\ n_time g' = n_time g /\
    grows (n_vox g) (n_vox g') /\ cloud_current g' /\
    forall c, content (n_vox g') c =
      merged merge (landing (n_cs g) c (map (tcell (mkTr (tr_lin t) 0 0)) (getValidCells (n_vox g)))).
Proof. clear dflt.
  intros [W CS] O. unfold n_transform, transformNDTCells.
  destruct (clear_spec (n_vox g) W) as (WC & CC & _ & C1 & C2 & C3 & C4 & C5).
  set (l := map (tcell (mkTr (tr_lin t) 0 0)) (getValidCells (n_vox g))) in *. clearbody l.
  assert (GC : grows (n_vox g) (clear (n_vox g))).
  { unfold clear, with_cells, grows. cbn. repeat split; lia. }
  destruct (add_loop l (clear (n_vox g)) WC) as (v & E & WV & GV & CT).
  { replace (cell_size (clear (n_vox g))) with (n_cs g) by (rewrite CS; reflexivity). exact O. }
  rewrite E. cbn [bind]. eexists. split; [reflexivity|].
  unfold updateMeans. cbn [n_pose n_cs n_init n_time n_vox n_means].
  assert (CV : cell_size v = cell_size (n_vox g)) by (etransitivity; [apply GV|reflexivity]).
  split; [split; [exact WV|cbn [n_cs n_vox]; congruence]|].
  split; [reflexivity|]. split; [reflexivity|]. split; [reflexivity|]. split; [reflexivity|].
  split; [eapply vgrows_trans; [exact GC|exact GV]|].
  split.
  - apply cloud_of_gaussians. cbn [n_means]. rewrite gaussians_valid by exact WV. reflexivity.
  - intro c. rewrite CT, CC. unfold merged.
    replace (cell_size (clear (n_vox g))) with (n_cs g) by (rewrite CS; reflexivity). reflexivity.
Qed.

(** ** scans *)
Variable addPt : cell -> point -> cell.
Variable compute : cell -> cell.
Variable occRay : cell -> point -> cell -> cell.
Variable btw : qpose -> qpose -> qtrans L.
Variable tp : qtrans L -> point -> point.
Hypothesis MA : means_average dflt addPt compute.
Notation scan_cell := (scan_cell dflt addPt compute).
Notation createGrid := (createGrid merge dflt addPt compute).

Lemma points_in_inner cs c pcl p : (forall q, In (Some q) pcl -> off_border cs q) ->
  In p (points_in cs c pcl) -> inner cs c p.
Proof. clear MA compute addPt.
  intros O I. unfold points_in in I. apply filter_In in I. destruct I as [I B].
  apply in_cell_b_iff in B. apply inner_off; [exact B|]. apply O.
  apply in_flat_map in I. destruct I as (o & Io & Ip). destruct o as [q|]; [|destruct Ip].
  destruct Ip as [->|[]]. exact Io.
Qed.
Lemma scan_cell_inner cs pcl c x : (forall q, In (Some q) pcl -> off_border cs q) ->
  scan_cell cs pcl c = Some x -> nc_gauss x = true /\ inner cs c (nc_mean x).
Proof using MA.
  intros O. unfold ScanSpec.scan_cell.
  destruct (nc_gauss (compute (fold_left addPt (points_in cs c pcl) dflt))) eqn:G; [|discriminate].
  intro E. injection E as <-. split; [exact G|].
  apply (average_inner cs c (points_in cs c pcl)); [apply MA; exact G|].
  intros q Hq. apply (points_in_inner cs c pcl q O Hq).
Qed.
Lemma dflt_none : nc_gauss (compute dflt) = false.
Proof using MA.
  destruct (nc_gauss (compute dflt)) eqn:G; [|reflexivity].
  destruct (MA [] G) as (NE & _). congruence.
Qed.

(** the grid built from a scan holds the scan's distributions and nothing else *)
Lemma scan_grid (g : grid) pcl : (0 < n_cs g)%Q ->
  (forall p, In (Some p) pcl -> off_border (n_cs g) p) ->
  exists l, createGrid g pcl = Ok l /\ nwf l /\ n_cs l = n_cs g /\ n_pose l = n_pose g /\
    (forall c, landing (n_cs g) c (getValidCells (n_vox l)) =
               match scan_cell (n_cs g) pcl c with Some x => [x] | None => [] end) /\
    (forall x, In x (getValidCells (n_vox l)) -> nc_gauss x = true ->
               exists c, scan_cell (n_cs g) pcl c = Some x).
Proof using MA.
  intros HC O. destruct (createGrid_spec merge dflt addPt compute g pcl HC O) as (l & E & WL & CS & PO & CT).
  assert (GL : forall c, gauss_list (content (n_vox l) c) =
     match scan_cell (n_cs g) pcl c with Some x => [x] | None => [] end).
  { intro c. rewrite CT. unfold ScanSpec.scan_cell.
    destruct (points_in (n_cs g) c pcl) as [|p t] eqn:PI.
    - cbn [fold_left]. rewrite dflt_none. destruct (pcell_eqb c (0, 0)%Z); [|reflexivity].
      cbn [gauss_list]. rewrite dflt_none. reflexivity.
    - cbn [gauss_list].
      destruct (nc_gauss (compute (fold_left addPt (p :: t) dflt))); reflexivity. }
  assert (ID : forall d x, content (n_vox l) d = Some x -> nc_gauss x = true ->
               scan_cell (n_cs g) pcl d = Some x).
  { intros d x Ed Gx. specialize (GL d). rewrite Ed in GL. cbn [gauss_list] in GL. rewrite Gx in GL.
    destruct (scan_cell (n_cs g) pcl d) as [y|]; [|discriminate]. congruence. }
  exists l. split; [exact E|]. split; [exact WL|]. split; [exact CS|]. split; [exact PO|].
  destruct WL as [WL SL]. split.
  - intro c. rewrite <- CS, SL. rewrite landing_valid; [rewrite <- SL, CS; apply GL|exact WL|].
    intros d x Ed Gx. rewrite <- SL, CS.
    apply inner_in. apply (scan_cell_inner (n_cs g) pcl d x O). apply ID; assumption.
  - intros x Ix Gx. destruct (valid_in (n_vox l) x WL Ix) as (d & Ed). exists d. apply ID; assumption.
Qed.

Notation seen_from := (seen_from btw tp).
Notation mergeInTracedPcl := (mergeInTracedPcl merge dflt addPt compute tcell occRay btw tp).
Notation mergeInPcl := (mergeInPcl merge dflt addPt compute tcell btw tp).

Lemma traced_freed cs start pcl (l : list cell) (f h : pcell -> option cell) :
  (forall x, In x l -> nc_gauss x = true -> exists c, scan_cell cs pcl c = Some x) ->
  traced dflt cs start l f h -> freed dflt addPt compute cs start pcl f h.
Proof.
  intros H T c. destruct (T c) as [E|((e & t & Ie & Ge & Ht & IC) & x & Ex & Mx)]; [left; exact E|].
  right. split; [|exists x; split; [exact Ex|exact Mx]].
  destruct (H e Ie Ge) as (d & Ed). exists d, e, t. auto.
Qed.

Section Scan.
Variable g : grid.
Variable pcl : list (option point).
Variable o : qpose.
Hypothesis W : nwf g.
Let scan := seen_from g o pcl.
Let start := tp (btw o (n_pose g)) (0, 0)%Q.
Hypothesis O : forall p, In (Some p) scan -> off_border (n_cs g) p.

Lemma local_ok : exists l, createGrid g scan = Ok l /\
    off_borders (n_cs g) (getValidCells (n_vox l)) /\
    (forall c, landing (n_cs g) c (getValidCells (n_vox l)) =
               match scan_cell (n_cs g) scan c with Some x => [x] | None => [] end) /\
    (forall x, In x (getValidCells (n_vox l)) -> nc_gauss x = true ->
               exists c, scan_cell (n_cs g) scan c = Some x).
Proof using MA W O.
  assert (HC : (0 < n_cs g)%Q) by (destruct W as [W1 W2]; rewrite W2; apply wf_cs; exact W1).
  destruct (scan_grid g scan HC O) as (l & E & WL & CS & PO & LA & IN).
  exists l. split; [exact E|]. split; [|split; [exact LA|exact IN]].
  intros x Ix Gx. destruct (IN x Ix Gx) as (c & Ec).
  apply (inner_border (n_cs g) c); [exact HC|]. apply (scan_cell_inner (n_cs g) scan c x O Ec).
Qed.

Lemma scan_replace resize c0 : resize = true \/ n_init g = false -> occ_only occRay ->
  in_cell (n_cs g) c0 start -> in_box (n_vox g) c0 = true ->
  scan_rays dflt addPt compute (n_cs g) start scan ->
  exists g' mid, mergeInTracedPcl g pcl o resize = Ok g' /\ nwf g' /\ same_header g g' /\
    grows (n_vox g) (n_vox g') /\ cloud_current g' /\
    freed dflt addPt compute (n_cs g) start scan (content (n_vox g)) mid /\
    forall c, content (n_vox g') c =
      match scan_cell (n_cs g) scan c with Some x => Some x | None => mid c end.
Proof using MA W O.
  intros RI OO IC B R. destruct local_ok as (l & E & OB & LA & IN).
  unfold GridModel.mergeInTracedPcl. change (transPcl tp (btw o (n_pose g)) pcl) with scan.
  rewrite E. cbn [bind].
  destruct (mergeInTraced_replace merge dflt occRay tcell btw tp g (n_setOrigin l o) false resize c0
              W RI OO IC B) as (g' & mid & EM & W' & SH & GR & CC & TR & CT).
  { intros e Ie Ge. destruct (IN e Ie Ge) as (d & Ed). apply (R d e Ed). }
  { exact OB. }
  exists g', mid. split; [exact EM|]. split; [exact W'|]. split; [exact SH|]. split; [exact GR|].
  split; [exact CC|]. split.
  - apply (traced_freed _ _ _ _ _ _ IN TR).
  - intro c. rewrite CT. unfold incoming. change (n_vox (n_setOrigin l o)) with (n_vox l).
    rewrite LA. destruct (scan_cell (n_cs g) scan c); reflexivity.
Qed.

Lemma scan_merge c0 : n_init g = true -> occ_only occRay ->
  in_cell (n_cs g) c0 start -> in_box (n_vox g) c0 = true ->
  scan_rays dflt addPt compute (n_cs g) start scan ->
  exists g' mid, mergeInTracedPcl g pcl o false = Ok g' /\ nwf g' /\ same_header g g' /\
    same_window (n_vox g) (n_vox g') /\ cloud_current g' /\
    freed dflt addPt compute (n_cs g) start scan (content (n_vox g)) mid /\
    forall c, content (n_vox g') c =
      if in_box (n_vox g) c then
        match scan_cell (n_cs g) scan c, mid c with
        | Some x, Some y => Some (merge y x)
        | Some x, None => Some x
        | None, m => m
        end
      else None.
Proof using MA W O.
  intros RI OO IC B R. destruct local_ok as (l & E & OB & LA & IN).
  unfold GridModel.mergeInTracedPcl. change (transPcl tp (btw o (n_pose g)) pcl) with scan.
  rewrite E. cbn [bind].
  destruct (mergeInTraced_keep merge dflt occRay tcell btw tp g (n_setOrigin l o) false c0
              W RI OO IC B) as (g' & mid & EM & W' & SH & GR & CC & TR & CT).
  { intros e Ie Ge. destruct (IN e Ie Ge) as (d & Ed). apply (R d e Ed). }
  { exact OB. }
  exists g', mid. split; [exact EM|]. split; [exact W'|]. split; [exact SH|]. split; [exact GR|].
  split; [exact CC|]. split.
  - apply (traced_freed _ _ _ _ _ _ IN TR).
  - intro c. rewrite CT. unfold incoming. change (n_vox (n_setOrigin l o)) with (n_vox l).
    rewrite LA. destruct (in_box (n_vox g) c); [|reflexivity].
    destruct (scan_cell (n_cs g) scan c), (mid c); reflexivity.
Qed.

(** without tracing *)
Lemma scan_plain resize :
  exists g', mergeInPcl g pcl o resize = Ok g' /\ nwf g' /\ same_header g g' /\
    grows (n_vox g) (n_vox g') /\ cloud_current g' /\
    forall c, content (n_vox g') c =
      if resize || negb (n_init g) then
        match scan_cell (n_cs g) scan c with Some x => Some x | None => content (n_vox g) c end
      else if in_box (n_vox g) c then
        match scan_cell (n_cs g) scan c, content (n_vox g) c with
        | Some x, Some y => Some (merge y x)
        | Some x, None => Some x
        | None, m => m
        end
      else None.
Proof using MA W O.
  destruct local_ok as (l & E & OB & LA & IN).
  unfold GridModel.mergeInPcl. change (transPcl tp (btw o (n_pose g)) pcl) with scan.
  rewrite E. cbn [bind]. unfold mergeInGrid.
  destruct (resize || negb (n_init g)) eqn:RI.
  - assert (C : resize = true \/ n_init g = false) by (destruct resize, (n_init g); auto; discriminate).
    destruct (merge_replace merge g (getValidCells (n_vox l)) resize W C OB)
        as (g' & M & W' & SH & _ & GR & CL & _ & CT).
    exists g'. split; [exact M|]. split; [exact W'|]. split; [exact SH|]. split; [exact GR|].
    split; [apply cloud_of_gaussians; exact CL|].
    intro c. rewrite CT, LA. destruct (scan_cell (n_cs g) scan c); reflexivity.
  - assert (C : resize = false /\ n_init g = true) by (destruct resize, (n_init g); auto; discriminate).
    destruct C as [-> C].
    destruct (merge_keep merge g (getValidCells (n_vox l)) W C OB)
        as (g' & M & W' & SH & _ & SW & CL & CT).
    exists g'. split; [exact M|]. split; [exact W'|]. split; [exact SH|].
    split. { destruct SW as (S1 & S2 & S3 & S4 & S5). unfold grows. rewrite S1, S2, S3, S4. repeat split; try exact S5; apply Nat.le_refl. }
    split; [apply cloud_of_gaussians; exact CL|].
    intro c. rewrite CT, LA. destruct (in_box (n_vox g) c); [|reflexivity].
    destruct (scan_cell (n_cs g) scan c), (content (n_vox g) c); reflexivity.
Qed.
End Scan.
End P.
