(** Free-space evidence in merged grids and scans, exactly. *)
From Coq Require Import List ZArith QArith Qround Qabs Lqa Lia Bool Sorted.
From Coq Require Import ZifyBool ZifyNat.
From Verif Require Import Base QLemmas VoxelModel VoxelSpec VoxelProofs VoxelOps VoxelAdd
  VoxelQuery VoxelRay VoxelHist VoxelFinal GridModel GridSpec GridProofs GridOps ScanSpec ScanProofs ScanInit
  BeamSpec BeamProofs.
Import ListNotations.
Open Scope nat_scope.

Section Order.
Context {A : Type}.
Variable R : A -> A -> Prop.
Lemma sorted_filter (p : A -> bool) l : StronglySorted R l -> StronglySorted R (filter p l).
Proof.
  induction 1 as [|a l H IH F]; [constructor|]. cbn [filter]. destruct (p a); [|exact IH].
  constructor; [exact IH|]. rewrite Forall_forall in *. intros x I. apply filter_In in I. apply F, I.
Qed.
Lemma sorted_app l m : StronglySorted R l -> StronglySorted R m -> (forall x y, In x l -> In y m -> R x y) ->
  StronglySorted R (l ++ m).
Proof.
  induction 1 as [|a l H IH F]; intros M C; [exact M|]. cbn [app]. constructor.
  - apply IH; [exact M|]. intros x y X Y. apply C; [right; exact X|exact Y].
  - rewrite Forall_forall in *. intros x I. apply in_app_or in I. destruct I as [I|I]; [apply F; exact I|].
    apply C; [left; reflexivity|exact I].
Qed.
End Order.
Lemma row_sorted (lo y : Z) n : StronglySorted reads_before (map (fun i => (i, y)) (zrange lo n)).
Proof.
  unfold zrange. rewrite map_map.
  enough (H : forall m a, StronglySorted reads_before (map (fun k => ((lo + Z.of_nat k)%Z, y)) (seq a m))) by apply H.
  induction m as [|m IH]; intro a; [constructor|]. cbn [seq map]. constructor; [apply IH|].
  apply Forall_forall. intros x I. apply in_map_iff in I. destruct I as (k & <- & K). apply in_seq in K.
  right. cbn. split; [reflexivity|lia].
Qed.
Lemma rows_sorted (row : list Z) (u : Z) : (forall y, StronglySorted reads_before (map (fun i => (i, y)) row)) ->
  forall n a, StronglySorted reads_before (flat_map (fun r => map (fun i => (i, (u - Z.of_nat r)%Z)) row) (seq a n)).
Proof.
  intros ROW n. induction n as [|n IH]; intro a; [constructor|]. cbn [seq flat_map].
  apply sorted_app; [apply ROW|apply IH|]. intros x y HX HY.
  apply in_map_iff in HX. destruct HX as (i & <- & _). apply in_flat_map in HY. destruct HY as (r & HR & HY).
  apply in_map_iff in HY. destruct HY as (j & <- & _). apply in_seq in HR. left. cbn. lia.
Qed.
Lemma window_sorted {C} (v : vgrid C) : StronglySorted reads_before (window v).
Proof. unfold window. apply rows_sorted. intro y. apply row_sorted. Qed.

Section P.
Set Default Proof Using "Type".
Context {X L : Type}.
Notation cell := (ncell X).
Notation grid := (ngrid X).
Variable merge : cell -> cell -> cell.
Variable dflt : cell.
Variable occRay : cell -> point -> cell -> cell.
Variable tcell : qtrans L -> cell -> cell.
Variable btw : qpose -> qpose -> qtrans L.
Variable tp : qtrans L -> point -> point.
Notation incoming := (incoming tcell btw).
Notation sensor := (sensor btw tp).
Notation evidence := (evidence dflt occRay).

Lemma beams_keep (g other : grid) transform c0 :
  nwf g -> n_init g = true ->
  in_cell (n_cs g) c0 (sensor g other) -> in_box (n_vox g) c0 = true ->
  beams_ok (n_cs g) (sensor g other) (incoming g other transform) ->
  off_borders (n_cs g) (incoming g other transform) ->
  exists g', mergeInTraced merge dflt tcell occRay btw tp g other transform false = Ok g' /\
    nwf g' /\ same_header g g' /\ same_window (n_vox g) (n_vox g') /\ cloud_current g' /\
    forall c hit, seen_through (n_vox g) (sensor g other) (incoming g other transform) c hit ->
      content (n_vox g') c =
      if in_box (n_vox g) c
      then accumulate merge (evidence (sensor g other) (filter hit (incoming g other transform)) (content (n_vox g) c))
             (landing (n_cs g) c (incoming g other transform)) else None.
Proof.
  intros [W S] I IC B R O. rewrite S in IC, R.
  destruct (beam_all dflt occRay (sensor g other) (incoming g other transform) (n_vox g) c0 W IC B R)
    as (v & EV & WV & SV & TV).
  destruct (merge_keep merge (with_vox g v) (incoming g other transform))
    as (g' & EM & W' & SH & _ & SW & ME & CT).
  { split; [exact WV|]. cbn. rewrite S. symmetry. apply SV. }
  { exact I. }
  { exact O. }
  exists g'. split.
  { unfold mergeInTraced. fold (sensor g other).
    change (if transform then transformNDTCells tcell (getValidCells (n_vox other))
              (btw (n_pose other) (n_pose g)) else getValidCells (n_vox other))
      with (incoming g other transform).
    rewrite EV. cbn [bind]. exact EM. }
  split; [exact W'|]. split; [exact SH|].
  split; [eapply same_window_trans; [exact SV|exact SW]|].
  split; [apply cloud_of_gaussians; exact ME|].
  intros c hit H. rewrite CT. cbn [n_vox n_cs with_vox]. rewrite (same_window_box _ _ c SV), (TV c hit H). reflexivity.
Qed.

Lemma beams_replace (g other : grid) transform resize c0 :
  nwf g -> resize = true \/ n_init g = false ->
  in_cell (n_cs g) c0 (sensor g other) -> in_box (n_vox g) c0 = true ->
  beams_ok (n_cs g) (sensor g other) (incoming g other transform) ->
  off_borders (n_cs g) (incoming g other transform) ->
  exists g', mergeInTraced merge dflt tcell occRay btw tp g other transform resize = Ok g' /\
    nwf g' /\ same_header g g' /\ grows (n_vox g) (n_vox g') /\ cloud_current g' /\
    forall c hit, seen_through (n_vox g) (sensor g other) (incoming g other transform) c hit ->
      content (n_vox g') c =
      latest (evidence (sensor g other) (filter hit (incoming g other transform)) (content (n_vox g) c))
        (landing (n_cs g) c (incoming g other transform)).
Proof.
  intros [W S] I IC B R O. rewrite S in IC, R.
  destruct (beam_all dflt occRay (sensor g other) (incoming g other transform) (n_vox g) c0 W IC B R)
    as (v & EV & WV & SV & TV).
  destruct (merge_replace merge (with_vox g v) (incoming g other transform) resize)
    as (g' & EM & W' & SH & _ & SW & ME & _ & CT).
  { split; [exact WV|]. cbn. rewrite S. symmetry. apply SV. }
  { exact I. }
  { exact O. }
  exists g'. split.
  { unfold mergeInTraced. fold (sensor g other).
    change (if transform then transformNDTCells tcell (getValidCells (n_vox other))
              (btw (n_pose other) (n_pose g)) else getValidCells (n_vox other))
      with (incoming g other transform).
    rewrite EV. cbn [bind]. exact EM. }
  split; [exact W'|]. split; [exact SH|].
  split. { destruct SV as (S1 & S2 & S3 & S4 & S5). cbn [with_vox n_vox] in SW.
    destruct SW as [SW1 SW2]. split; [lia|congruence]. }
  split; [apply cloud_of_gaussians; exact ME|].
  intros c hit H. rewrite CT. cbn [n_vox n_cs with_vox]. rewrite (TV c hit H). reflexivity.
Qed.

Variable addPt : cell -> point -> cell.
Variable compute : cell -> cell.
Hypothesis MA : means_average dflt addPt compute.
Notation scan_cell := (scan_cell dflt addPt compute).

(** The distributions of the grid made from a scan. *)
Lemma scan_list (g : grid) pcl : (0 < n_cs g)%Q ->
  (forall p, In (Some p) pcl -> off_border (n_cs g) p) ->
  exists l, createGrid merge dflt addPt compute g pcl = Ok l /\
    scan_beams dflt addPt compute (n_cs g) pcl (filter (fun x => nc_gauss x) (getValidCells (n_vox l))) /\
    off_borders (n_cs g) (getValidCells (n_vox l)) /\
    (forall c, landing (n_cs g) c (getValidCells (n_vox l)) =
               match scan_cell (n_cs g) pcl c with Some x => [x] | None => [] end) /\
    (forall x, In x (getValidCells (n_vox l)) -> nc_gauss x = true -> exists c, scan_cell (n_cs g) pcl c = Some x).
Proof using MA.
  intros HC O. destruct (scan_grid merge dflt addPt compute MA g pcl HC O) as (l & E & WL & CS & PO & LA & IN).
  destruct (createGrid_spec merge dflt addPt compute g pcl HC O) as (l2 & E2 & _ & _ & _ & CT).
  rewrite E in E2. injection E2 as <-.
  assert (GL : forall c, gauss_list (content (n_vox l) c) =
     match scan_cell (n_cs g) pcl c with Some x => [x] | None => [] end).
  { intro c. rewrite CT. unfold ScanSpec.scan_cell.
    pose proof (dflt_none dflt addPt compute MA) as DN.
    destruct (points_in (n_cs g) c pcl) as [|p t] eqn:PI.
    - cbn [fold_left]. rewrite DN. destruct (pcell_eqb c (0, 0)%Z); [|reflexivity].
      cbn [gauss_list]. rewrite DN. reflexivity.
    - cbn [gauss_list].
      destruct (nc_gauss (compute (fold_left addPt (p :: t) dflt))); reflexivity. }
  exists l. split; [exact E|]. split.
  - destruct WL as [WL SL]. rewrite (valid_flat (n_vox l) WL).
    exists (filter (fun c => match scan_cell (n_cs g) pcl c with Some _ => true | None => false end) (window (n_vox l))).
    split; [apply sorted_filter, window_sorted|]. split.
    + intro c. rewrite filter_In. split.
      * intros [_ H]. destruct (scan_cell (n_cs g) pcl c); [discriminate|discriminate H].
      * intro H. split.
        -- apply window_In. specialize (GL c). unfold content in GL. destruct (in_box (n_vox l) c); [reflexivity|].
           cbn in GL. destruct (scan_cell (n_cs g) pcl c); [discriminate|congruence].
        -- destruct (scan_cell (n_cs g) pcl c); [reflexivity|congruence].
    + generalize (window (n_vox l)). intro w. induction w as [|d w IH]; [reflexivity|].
      cbn [filter flat_map]. rewrite filter_app, map_app, <- IH. specialize (GL d). unfold gauss_list in GL.
      destruct (content (n_vox l) d) as [x|]; cbn [opt_list filter].
      * destruct (nc_gauss x); destruct (scan_cell (n_cs g) pcl d) eqn:Q; try discriminate GL.
        -- injection GL as <-. cbn [map app]. rewrite Q. reflexivity.
        -- reflexivity.
      * destruct (scan_cell (n_cs g) pcl d) eqn:Q; [discriminate GL|]. reflexivity.
  - split; [|split; [exact LA|exact IN]].
    intros x Ix Gx. destruct (IN x Ix Gx) as (c & Ec).
    apply (inner_border (n_cs g) c); [exact HC|]. apply (scan_cell_inner dflt addPt compute MA (n_cs g) pcl c x O Ec).
Qed.

Lemma filter_gauss (hit : cell -> bool) l :
  filter (fun x => nc_gauss x && hit x) l = filter hit (filter (fun x => nc_gauss x) l).
Proof.
  induction l as [|x l IH]; [reflexivity|]. cbn [filter]. rewrite IH. destruct (nc_gauss x); reflexivity.
Qed.
Lemma seen_gauss (v : vgrid cell) s l c hit :
  seen_through v s (filter (fun x => nc_gauss x) l) c hit -> seen_through v s l c (fun x => nc_gauss x && hit x).
Proof.
  intros H e I. destruct (nc_gauss e) eqn:G; cbn [andb].
  - pose proof (H e (proj2 (filter_In _ e l) (conj I G))) as Q. rewrite G in Q. exact Q.
  - split; [discriminate|intros [Y _]; discriminate].
Qed.

Section Scan.
Variable g : grid.
Variable pcl : list (option point).
Variable o : qpose.
Hypothesis W : nwf g.
Let scan := seen_from btw tp g o pcl.
Let start := tp (btw o (n_pose g)) (0, 0)%Q.
Hypothesis O : forall p, In (Some p) scan -> off_border (n_cs g) p.

Lemma scan_exact_replace resize c0 : resize = true \/ n_init g = false ->
  in_cell (n_cs g) c0 start -> in_box (n_vox g) c0 = true ->
  scan_lengths dflt addPt compute (n_cs g) start scan ->
  exists g' bs, mergeInTracedPcl merge dflt addPt compute tcell occRay btw tp g pcl o resize = Ok g' /\ nwf g' /\ same_header g g' /\
    grows (n_vox g) (n_vox g') /\ cloud_current g' /\ scan_beams dflt addPt compute (n_cs g) scan bs /\
    forall c hit, seen_through (n_vox g) start bs c hit -> content (n_vox g') c =
      match scan_cell (n_cs g) scan c with
      | Some x => Some x
      | None => evidence start (filter hit bs) (content (n_vox g) c)
      end.
Proof using MA W O.
  intros RI IC B R.
  assert (HC : (0 < n_cs g)%Q) by (destruct W as [W1 W2]; rewrite W2; apply wf_cs; exact W1).
  destruct (scan_list g scan HC O) as (l & E & SB & OB & LA & IN).
  unfold mergeInTracedPcl. change (transPcl tp (btw o (n_pose g)) pcl) with scan.
  rewrite E. cbn [bind].
  destruct (beams_replace g (n_setOrigin l o) false resize c0 W RI IC B)
    as (g' & EM & W' & SH & GR & CC & CT).
  { intros e Ie Ge. destruct (IN e Ie Ge) as (d & Ed). apply (R d e Ed). }
  { exact OB. }
  exists g', (filter (fun x => nc_gauss x) (getValidCells (n_vox l))).
  split; [exact EM|]. split; [exact W'|]. split; [exact SH|]. split; [exact GR|]. split; [exact CC|]. split; [exact SB|].
  intros c hit H. rewrite (CT c _ (seen_gauss _ _ _ _ _ H)). unfold GridOps.incoming. change (n_vox (n_setOrigin l o)) with (n_vox l).
  rewrite LA, filter_gauss. destruct (scan_cell (n_cs g) scan c); reflexivity.
Qed.

Lemma scan_exact_keep c0 : n_init g = true ->
  in_cell (n_cs g) c0 start -> in_box (n_vox g) c0 = true ->
  scan_lengths dflt addPt compute (n_cs g) start scan ->
  exists g' bs, mergeInTracedPcl merge dflt addPt compute tcell occRay btw tp g pcl o false = Ok g' /\ nwf g' /\ same_header g g' /\
    same_window (n_vox g) (n_vox g') /\ cloud_current g' /\ scan_beams dflt addPt compute (n_cs g) scan bs /\
    forall c hit, seen_through (n_vox g) start bs c hit -> content (n_vox g') c =
      if in_box (n_vox g) c then
        match scan_cell (n_cs g) scan c, evidence start (filter hit bs) (content (n_vox g) c) with
        | Some x, Some y => Some (merge y x)
        | Some x, None => Some x
        | None, m => m
        end
      else None.
Proof using MA W O.
  intros RI IC B R.
  assert (HC : (0 < n_cs g)%Q) by (destruct W as [W1 W2]; rewrite W2; apply wf_cs; exact W1).
  destruct (scan_list g scan HC O) as (l & E & SB & OB & LA & IN).
  unfold mergeInTracedPcl. change (transPcl tp (btw o (n_pose g)) pcl) with scan.
  rewrite E. cbn [bind].
  destruct (beams_keep g (n_setOrigin l o) false c0 W RI IC B)
    as (g' & EM & W' & SH & GR & CC & CT).
  { intros e Ie Ge. destruct (IN e Ie Ge) as (d & Ed). apply (R d e Ed). }
  { exact OB. }
  exists g', (filter (fun x => nc_gauss x) (getValidCells (n_vox l))).
  split; [exact EM|]. split; [exact W'|]. split; [exact SH|]. split; [exact GR|]. split; [exact CC|]. split; [exact SB|].
  intros c hit H. rewrite (CT c _ (seen_gauss _ _ _ _ _ H)). unfold GridOps.incoming. change (n_vox (n_setOrigin l o)) with (n_vox l).
  rewrite LA, filter_gauss. destruct (in_box (n_vox g) c); [|reflexivity].
  change (GridOps.sensor btw tp g (n_setOrigin l o)) with start.
  destruct (scan_cell (n_cs g) scan c), (evidence start _ (content (n_vox g) c)); reflexivity.
Qed.
End Scan.
End P.

(** In a window of one square no beam gets out of that. *)
Lemma crosses_new {X} (v : vgrid (ncell X)) s e c : wf v -> w_left v = 0 -> w_right v = 0 -> h_up v = 0 -> h_down v = 0 ->
  in_cell (cell_size v) (0, 0)%Z s -> (0 < seg_len (cell_size v) s e)%Q -> (crosses v s e c <-> c = (0, 0)%Z).
Proof.
  intros W E1 E2 E3 E4 IC LP. pose proof (wf_cs v W) as HC.
  assert (S0 : peq (ray_sample (cell_size v) s e 0) s).
  { unfold ray_sample, seg_point, peq. cbn [fst snd]. change (inject_Z (Z.of_nat 0)) with 0%Q.
    assert (Q0 : (0 / (2 * seg_len (cell_size v) s e) == 0)%Q) by (unfold Qdiv; ring).
    rewrite Q0. split; ring. }
  destruct S0 as [SX SY]. split.
  - intros (k & _ & I & H).
    assert (J : in_cell (cell_size v) (0, 0)%Z (ray_sample (cell_size v) s e k)).
    { destruct k as [|k]; [eapply in_cell_ext; [symmetry; exact SX|symmetry; exact SY|exact IC]|].
      destruct (H (S k) ltac:(lia)) as (A & B & C & D). rewrite E1 in A. rewrite E2 in B. rewrite E4 in C. rewrite E3 in D.
      unfold in_cell. cbn [fst snd]. change (inject_Z (Z.of_nat 0)) with 0%Q in *. change (inject_Z 0) with 0%Q.
      repeat split; lra. }
    rewrite <- (in_cell_unique _ _ _ HC I). apply in_cell_unique; [exact HC|exact J].
  - intros ->. exists 0. split; [apply (Z.lt_le_trans _ 1); [reflexivity|apply steps_pos]|]. split.
    + eapply in_cell_ext; [symmetry; exact SX|symmetry; exact SY|exact IC].
    + intros j J. lia.
Qed.

(** ** starting a frame *)
Section Start.
Set Default Proof Using "Type".
Context {X L : Type}.
Notation cell := (ncell X).
Variable merge : cell -> cell -> cell.
Variable dflt : cell.
Variable addPt : cell -> point -> cell.
Variable compute : cell -> cell.
Variable tcell : qtrans L -> cell -> cell.
Variable occRay : cell -> point -> cell -> cell.
Variable btw : qpose -> qpose -> qtrans L.
Variable tp : qtrans L -> point -> point.

Lemma start_exact (g : ngrid X) pcl : nwf g -> means_average dflt addPt compute ->
  let scan := seen_from btw tp g (n_pose g) pcl in
  let start := tp (btw (n_pose g) (n_pose g)) (0, 0)%Q in
  peq start (0, 0)%Q ->
  (forall p, In (Some p) scan -> off_border (n_cs g) p) ->
  scan_lengths dflt addPt compute (n_cs g) start scan ->
  exists g' bs, n_initialize merge dflt addPt compute tcell occRay btw tp g pcl = Ok g' /\ nwf g' /\
    same_header g g' /\ grows (n_vox g) (n_vox g') /\ cloud_current g' /\
    scan_beams dflt addPt compute (n_cs g) scan bs /\
    forall c hit, seen_through (n_vox g) start bs c hit -> content (n_vox g') c =
      match scan_cell dflt addPt compute (n_cs g) scan c with
      | Some x => Some x
      | None => evidence dflt occRay start (filter hit bs) None
      end.
Proof.
  intros W MA scan start PS O R. unfold n_initialize. destruct W as [W CS].
  destruct (clear_spec (n_vox g) W) as (WC & CC & _ & C1 & C2 & C3 & C4 & C5).
  set (h := with_vox g (clear (n_vox g))).
  assert (WH : nwf h) by (split; [exact WC|cbn; congruence]).
  destruct (origin_cell (n_vox h) start WC PS) as [I0 B0].
  destruct (scan_exact_replace merge dflt occRay tcell btw tp addPt compute MA h pcl (n_pose g) WH O
              true (0, 0)%Z (or_introl eq_refl)) as (g' & bs & E & W' & SH & GR & CL & SB & CT).
  { destruct WH as [_ E]. rewrite E. exact I0. }
  { exact B0. }
  { exact R. }
  exists g', bs. split; [exact E|]. split; [exact W'|]. split; [exact SH|].
  split. { eapply vgrows_trans; [|exact GR].
    subst h; cbn [n_vox with_vox]; clear; unfold clear, with_cells, grows. cbn. repeat split; lia. }
  split; [exact CL|]. split; [exact SB|]. intros c hit H.
  rewrite (CT c hit).
  - cbn [n_vox with_vox h]. subst h. cbn [n_vox with_vox]. rewrite CC. reflexivity.
  - intros e I. apply (iff_trans (H e I)).
    assert (Q : crosses (n_vox g) start (nc_mean e) c <-> crosses (n_vox h) start (nc_mean e) c).
    { apply crosses_window. subst h. cbn [n_vox with_vox]. repeat split; try assumption; reflexivity. }
    split; intros [G C]; (split; [exact G|]); apply Q; exact C.
Qed.

Lemma start_new (g : ngrid X) pcl : nwf g -> means_average dflt addPt compute ->
  w_left (n_vox g) = 0 -> w_right (n_vox g) = 0 -> h_up (n_vox g) = 0 -> h_down (n_vox g) = 0 ->
  let scan := seen_from btw tp g (n_pose g) pcl in
  let start := tp (btw (n_pose g) (n_pose g)) (0, 0)%Q in
  peq start (0, 0)%Q ->
  (forall p, In (Some p) scan -> off_border (n_cs g) p) ->
  scan_lengths dflt addPt compute (n_cs g) start scan ->
  exists g' bs, n_initialize merge dflt addPt compute tcell occRay btw tp g pcl = Ok g' /\
    scan_beams dflt addPt compute (n_cs g) scan bs /\
    forall c, content (n_vox g') c =
      match scan_cell dflt addPt compute (n_cs g) scan c with
      | Some x => Some x
      | None => if pcell_eqb c (0, 0)%Z then evidence dflt occRay start bs None else None
      end.
Proof.
  intros W MA E1 E2 E3 E4 scan start PS O R.
  destruct (start_exact g pcl W MA PS O R) as (g' & bs & E & _ & _ & _ & _ & SB & CT).
  destruct W as [W CS]. destruct (origin_cell (n_vox g) start W PS) as [I0 _].
  exists g', bs. split; [exact E|]. split; [exact SB|]. intro c.
  assert (BS : forall e, In e bs -> exists d, scan_cell dflt addPt compute (n_cs g) scan d = Some e).
  { intros e I. destruct SB as (w & _ & _ & M). apply (in_map Some) in I. rewrite <- M in I.
    apply in_map_iff in I. destruct I as (d & D & _). exists d. exact D. }
  assert (G : forall e, In e bs -> nc_gauss e = true).
  { intros e I. destruct (BS e I) as (d & D). unfold scan_cell in D.
    destruct (nc_gauss (compute (fold_left addPt (points_in (n_cs g) d scan) dflt))) eqn:Q; [|discriminate].
    injection D as <-. exact Q. }
  rewrite (CT c (fun _ => pcell_eqb c (0, 0)%Z)).
  - fold scan. destruct (scan_cell dflt addPt compute (n_cs g) scan c) as [x|]; [reflexivity|].
    destruct (pcell_eqb c (0, 0)%Z).
    + f_equal. clear. induction bs as [|a bs IH]; [reflexivity|]. cbn. congruence.
    + replace (filter (fun _ : cell => false) bs) with (@nil cell); [reflexivity|].
      clear. induction bs as [|a bs IH]; [reflexivity|]. cbn. congruence.
  - intros e I.
    assert (LP : (0 < seg_len (cell_size (n_vox g)) start (nc_mean e))%Q).
    { destruct (BS e I) as (d & D). rewrite <- CS. exact (R d e D). }
    pose proof (crosses_new (n_vox g) start (nc_mean e) c W E1 E2 E3 E4 I0 LP) as Q.
    apply (iff_trans (pcell_eqb_eq c (0, 0)%Z)). split.
    + intro Y. split; [exact (G e I)|]. apply Q. exact Y.
    + intros [_ C]. apply Q. exact C.
Qed.

(** From outside the window nothing is traced. *)
Lemma outside_none start (v : vgrid cell) l : isInside v start = false ->
  foldM (traceCell dflt occRay start) l v = Ok v.
Proof.
  intro I. induction l as [|e l IH]; [reflexivity|]. cbn [foldM]. unfold traceCell at 1.
  destruct (nc_gauss e); [|exact IH]. rewrite (rayTrace_outside dflt v start (nc_mean e) I). cbn [bind fst snd].
  unfold occSlots. cbn [foldM bind].
  replace (with_cells v (cells v)) with v by (destruct v; reflexivity). exact IH.
Qed.
Lemma outside_plain (g other : ngrid X) transform resize :
  isInside (n_vox g) (tp (btw (n_pose other) (n_pose g)) (0, 0)%Q) = false ->
  mergeInTraced merge dflt tcell occRay btw tp g other transform resize =
  mergeInGrid merge tcell btw g other transform resize.
Proof.
  intro I. unfold mergeInTraced, mergeInGrid. rewrite (outside_none _ _ _ I). cbn [bind].
  replace (with_vox g (n_vox g)) with g by (destruct g; reflexivity). reflexivity.
Qed.
End Start.

(** ** by computation *)
Definition inside_b {C} (g : vgrid C) (p : point) : bool :=
  negb (Qle_bool (fst p) ((- inject_Z (Z.of_nat (w_left g)) - (1#2)) * cell_size g)) &&
  (negb (Qle_bool ((inject_Z (Z.of_nat (w_right g)) + (1#2)) * cell_size g) (fst p)) &&
  (negb (Qle_bool (snd p) ((- inject_Z (Z.of_nat (h_down g)) - (1#2)) * cell_size g)) &&
   negb (Qle_bool ((inject_Z (Z.of_nat (h_up g)) + (1#2)) * cell_size g) (snd p)))).
Lemma nle_lt a b : negb (Qle_bool a b) = true <-> (b < a)%Q.
Proof.
  rewrite negb_true_iff. split; intro H.
  - apply Qnot_le_lt. intro Q. apply Qle_bool_iff in Q. congruence.
  - destruct (Qle_bool a b) eqn:E; [|reflexivity]. apply Qle_bool_iff in E. exfalso. lra.
Qed.
Lemma inside_b_iff {C} (g : vgrid C) p : inside_b g p = true <-> strictly_inside g p.
Proof. unfold inside_b, strictly_inside. rewrite !andb_true_iff, !nle_lt. reflexivity. Qed.
Definition crosses_b {X} (v : vgrid (ncell X)) (s e : point) (c : pcell) : bool :=
  existsb (fun k => in_cell_b (cell_size v) c (ray_sample (cell_size v) s e k) &&
                    forallb (fun j => inside_b v (ray_sample (cell_size v) s e j)) (seq 1 k))
    (seq 0 (Z.to_nat (beam_steps (seg_len (cell_size v) s e)))).
Lemma crosses_b_iff {X} (v : vgrid (ncell X)) s e c : crosses_b v s e c = true <-> crosses v s e c.
Proof.
  pose proof (steps_pos (seg_len (cell_size v) s e)) as SP.
  unfold crosses_b, crosses. rewrite existsb_exists. split.
  - intros (k & K & H). apply andb_true_iff in H. destruct H as [A B]. apply in_seq in K.
    exists k. split; [lia|]. split; [apply in_cell_b_iff; exact A|].
    intros j J. rewrite forallb_forall in B. apply inside_b_iff, B, in_seq. lia.
  - intros (k & K & A & B). exists k. split; [apply in_seq; lia|]. apply andb_true_iff. split; [apply in_cell_b_iff; exact A|].
    apply forallb_forall. intros j J. apply in_seq in J. apply inside_b_iff, B. lia.
Qed.
