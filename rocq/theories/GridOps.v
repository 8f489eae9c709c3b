(** NDT grid: histories, nearest neighbours, scans and traced merging. *)
From Coq Require Import List ZArith QArith Qround Qabs Lqa Lia Bool.
From Coq Require Import ZifyBool ZifyNat.
From Verif Require Import Base QLemmas VoxelModel VoxelSpec VoxelProofs VoxelOps VoxelAdd
  VoxelQuery VoxelRay VoxelHist VoxelFinal GridModel GridSpec GridProofs.
Import ListNotations.
Open Scope nat_scope.

Section P.
Set Default Proof Using "Type".
Context {X L : Type}.
Notation cell := (ncell X).
Notation grid := (ngrid X).
Variable merge : cell -> cell -> cell.
Variable dflt : cell.

Definition settled (cs : Q) (c : pcell) (o : option cell) : Prop :=
  forall v, o = Some v -> nc_gauss v = true -> in_cell cs c (nc_mean v).

Lemma landing_in cs c (l : list cell) v : In v (landing cs c l) <->
  In v l /\ nc_gauss v = true /\ in_cell cs c (nc_mean v).
Proof. clear merge dflt.
  unfold landing. rewrite filter_In, andb_true_iff, in_cell_b_iff. tauto.
Qed.

Lemma accumulate_settled cs c (l : list cell) : merge_stays merge -> forall o,
  settled cs c o -> (forall v, In v l -> nc_gauss v = true /\ in_cell cs c (nc_mean v)) ->
  settled cs c (accumulate merge o l).
Proof.
  intro MS. induction l as [|x t IH]; intros o S H; [exact S|].
  unfold accumulate. cbn [fold_left]. apply IH; [|intros v Hv; apply H; right; exact Hv].
  destruct (H x (or_introl eq_refl)) as [G I]. intros v E Gv. injection E as <-.
  destruct o as [a|]; [|exact I]. apply MS; auto.
Qed.
Lemma latest_settled cs c (l : list cell) : forall o,
  settled cs c o -> (forall v, In v l -> nc_gauss v = true /\ in_cell cs c (nc_mean v)) ->
  settled cs c (latest o l).
Proof.
  induction l as [|x t IH]; intros o S H; [exact S|].
  unfold latest. cbn [fold_left]. apply IH; [|intros v Hv; apply H; right; exact Hv].
  destruct (H x (or_introl eq_refl)) as [G I]. intros v E Gv. injection E as <-. exact I.
Qed.

Lemma anchored_settled (g : grid) :
  anchored g <-> forall c, settled (cell_size (n_vox g)) c (content (n_vox g) c).
Proof. unfold anchored, settled. split; intros H c; [intros v E G|intro v; intros E G]; eapply H; eauto. Qed.

Lemma gaussians_in (g : grid) v : In v (gaussians g) <->
  exists c, content (n_vox g) c = Some v /\ nc_gauss v = true.
Proof.
  unfold gaussians. rewrite in_flat_map. split.
  - intros (c & _ & H). exists c. destruct (content (n_vox g) c) as [x|]; [|destruct H].
    destruct (nc_gauss x) eqn:G; [|destruct H]. destruct H as [->|[]]. auto.
  - intros (c & E & G). exists c. split.
    + apply window_In. destruct (in_box (n_vox g) c) eqn:B; [reflexivity|].
      rewrite content_box in E by auto. discriminate.
    + rewrite E, G. left. reflexivity.
Qed.

Lemma cloud_of_gaussians (g : grid) :
  n_means g = Some (map nc_mean (gaussians g)) -> cloud_current g.
Proof.
  intro H. exists (map nc_mean (gaussians g)). split; [exact H|].
  intro p. rewrite in_map_iff. split.
  - intros (v & E & I). apply gaussians_in in I. destruct I as (c & I & G). eauto.
  - intros (c & v & E & G & P). exists v. split; [exact P|]. apply gaussians_in. eauto.
Qed.

Lemma in_cell_shift cs i j kx ky p : in_cell cs (i + kx, j + ky)%Z p ->
  in_cell cs (i, j) (fst p + - (inject_Z kx * cs), snd p + - (inject_Z ky * cs))%Q.
Proof.
  unfold in_cell. cbn [fst snd]. rewrite !inject_Z_plus. intros (A & B & C & D).
  repeat split; lra.
Qed.

Definition ginv (cs : Q) (g : grid) : Prop := nwf g /\ n_cs g = cs /\ anchored g.

Lemma ginv_header (g g' : grid) cs :
  n_vox g' = n_vox g -> n_cs g' = n_cs g -> ginv cs g -> ginv cs g'.
Proof.
  intros V C ((W & S) & E & A). unfold ginv, nwf, anchored. rewrite V, C. auto.
Qed.
Lemma cloud_header (g g' : grid) :
  n_vox g' = n_vox g -> n_means g' = n_means g -> cloud_current g -> cloud_current g'.
Proof. intros V M. unfold cloud_current. rewrite V, M. auto. Qed.

Lemma gstep_inv cs (g : grid) (o : gop X L) : merge_stays merge -> ginv cs g -> gop_ok cs o ->
  exists g', gstep merge g o = Ok g' /\ ginv cs g' /\
    (cloud_current g -> o <> GClear -> cloud_current g').
Proof.
  intros MS I OK. pose proof I as ((W & S) & E & A).
  pose proof (wf_cs _ W) as HC. rewrite <- S in HC.
  destruct o as [l r|t|a b x y| |q|ts]; cbn [gstep gop_ok] in *.
  - rewrite <- E in OK. destruct (r || negb (n_init g)) eqn:R.
    + assert (C : r = true \/ n_init g = false) by (destruct r, (n_init g); auto; discriminate).
      destruct (merge_replace merge g l r (conj W S) C OK)
        as (g' & M & W' & SH & _ & _ & CL & _ & CT).
      exists g'. split; [exact M|]. split; [|intros _ _; apply cloud_of_gaussians; exact CL].
      split; [exact W'|]. destruct SH as (S1 & S2 & S3). split; [congruence|].
      apply anchored_settled. intro c. rewrite CT. destruct W' as [W' S'].
      rewrite <- S', S2. apply latest_settled.
      * rewrite S. apply anchored_settled. exact A.
      * intros v Hv. apply landing_in in Hv. tauto.
    + assert (C : r = false /\ n_init g = true) by (destruct r, (n_init g); auto; discriminate).
      destruct C as [-> C].
      destruct (merge_keep merge g l (conj W S) C OK)
        as (g' & M & W' & SH & _ & _ & CL & CT).
      exists g'. split; [exact M|]. split; [|intros _ _; apply cloud_of_gaussians; exact CL].
      split; [exact W'|]. destruct SH as (S1 & S2 & S3). split; [congruence|].
      apply anchored_settled. intro c. rewrite CT. destruct W' as [W' S'].
      rewrite <- S', S2. destruct (in_box (n_vox g) c); [|intros v Hv; discriminate].
      apply accumulate_settled; [exact MS| |].
      * rewrite S. apply anchored_settled. exact A.
      * intros v Hv. apply landing_in in Hv. tauto.
  - destruct (Qlt_le_dec (1 # 10000000) (Qabs (p_th (n_pose g)))) as [T|T].
    + rewrite (move_rotated g t T). cbn [bind fst]. exists g. auto.
    + rewrite <- E in OK. destruct OK as [B1 B2].
      destruct (move_ok g t (conj W S) T B1 B2) as
        (g' & rx & ry & kx & ky & M & W' & SW & CS & _ & _ & _ & _ & _ & _ & _ & _ & _ & _ & _ & ALT).
      rewrite M. cbn [bind fst]. exists g'. split; [reflexivity|].
      destruct ALT as [[_ ->]|[CL CT]]; [auto|].
      split; [|intros _ _; apply cloud_of_gaussians; exact CL].
      split; [exact W'|]. split; [congruence|].
      apply anchored_settled. intros c v Ev Gv. rewrite CT in Ev.
      destruct (in_box (n_vox g) c); [|discriminate].
      destruct (content (n_vox g) (fst c + kx, snd c + ky)%Z) as [u|] eqn:EU; [|discriminate].
      injection Ev as <-. unfold shiftMean in *. destruct (nc_gauss u) eqn:GU; [|congruence].
      cbn [nc_mean]. specialize (A _ _ EU GU).
      destruct W' as [_ S']. rewrite <- S', CS. rewrite <- S in A.
      destruct c as [i j]. apply in_cell_shift. exact A.
  - unfold n_enlarge. destruct (enlarge_spec (n_vox g) a b x y W)
      as (v & EV & WV & GR & _ & CT & _). rewrite EV. cbn [bind].
    exists (with_vox g v). split; [reflexivity|]. destruct GR as [_ CSV].
    unfold with_vox. split.
    + split; [split; [exact WV|cbn; congruence]|]. split; [exact E|].
      intros c u Eu Gu. cbn [n_vox] in *. rewrite CSV. rewrite CT in Eu. apply A; auto.
    + intros (ms & M1 & M2) _. exists ms. split; [exact M1|]. intro p. rewrite M2.
      cbn [n_vox]. split; intros (c & u & H); exists c, u; rewrite CT in *; exact H.
  - exists (n_clear g). split; [reflexivity|]. split; [|intros _ H; congruence].
    destruct (clear_spec (n_vox g) W) as (WC & CC & _ & _ & _ & _ & CSC & _).
    unfold n_clear. split; [split; [exact WC|cbn [n_cs n_vox]; congruence]|].
    split; [exact E|]. intros c u Eu. cbn [n_vox] in Eu. rewrite CC in Eu. discriminate.
  - exists (n_setOrigin g q). split; [reflexivity|]. split.
    + apply (ginv_header g); auto.
    + intros H _. apply (cloud_header g); auto.
  - exists (n_setTimestamp g ts). split; [reflexivity|]. split.
    + apply (ginv_header g); auto.
    + intros H _. apply (cloud_header g); auto.
Qed.

Lemma grun_inv cs (ops : list (gop X L)) : merge_stays merge -> forall g,
  ginv cs g -> (forall o, In o ops -> gop_ok cs o) ->
  exists g', grun merge g ops = Ok g' /\ ginv cs g' /\
    (cloud_current g -> ~ In GClear ops -> cloud_current g').
Proof.
  intro MS. induction ops as [|o t IH]; intros g I H.
  - exists g. split; [reflexivity|]. auto.
  - unfold grun. cbn [foldM].
    destruct (gstep_inv cs g o MS I (H o (or_introl eq_refl))) as (g1 & E & I1 & C1).
    rewrite E. cbn [bind].
    destruct (IH g1 I1 (fun o' Ho => H o' (or_intror Ho))) as (g' & E' & I' & C').
    exists g'. split; [exact E'|]. split; [exact I'|].
    intros C N. apply C'; [apply C1; [exact C|]|].
    + intros ->. apply N. left. reflexivity.
    + intro N'. apply N. right. exact N'.
Qed.

Lemma fresh_inv ts cs : (0 < cs)%Q -> nc_gauss dflt = false ->
  ginv cs (n_setCellSize (n_new dflt ts) cs) /\ cloud_current (n_setCellSize (n_new dflt ts) cs).
Proof.
  intros HC G. split; [split; [apply fresh_nwf; exact HC|split; [reflexivity|]]|].
  - intros c v E Gv. rewrite fresh_content in E.
    destruct (pcell_eqb c (0, 0)%Z); [|discriminate]. injection E as <-. congruence.
  - exists []. split; [reflexivity|]. intro p. split; [intros []|].
    intros (c & v & E & Gv & _). rewrite fresh_content in E.
    destruct (pcell_eqb c (0, 0)%Z); [|discriminate]. injection E as <-. congruence.
Qed.

(** every well-typed history is defined and keeps each gaussian in its square *)
Lemma history ts cs (ops : list (gop X L)) : (0 < cs)%Q -> nc_gauss dflt = false ->
  merge_stays merge -> (forall o, In o ops -> gop_ok cs o) ->
  exists g, grun merge (n_setCellSize (n_new dflt ts) cs) ops = Ok g /\
    nwf g /\ n_cs g = cs /\ anchored g /\ (~ In GClear ops -> cloud_current g).
Proof.
  intros HC G MS H. destruct (fresh_inv ts cs HC G) as [I C].
  destruct (grun_inv cs ops MS _ I H) as (g & E & (W & S & A) & CC).
  exists g. split; [exact E|]. split; [exact W|]. split; [exact S|]. split; [exact A|].
  intro N. apply CC; assumption.
Qed.

(** ** nearest neighbours through the cloud of means *)
Lemma knn_loop (g : grid) ms : nwf g -> anchored g -> n_means g = Some ms ->
  (forall p, In p ms -> exists c v, content (n_vox g) c = Some v /\
                                    nc_gauss v = true /\ nc_mean v = p) ->
  forall idx acc, (forall i, In i idx -> i < length ms) ->
  exists cs, foldM (fun acc i => do m <- vget ms i;
                                 do c <- getCellPtr (n_vox g) m;
                                 Ok (acc ++ [c])) idx acc = Ok (acc ++ map Some cs) /\
    Forall2 (fun i v => nth_error ms i = Some (nc_mean v) /\ nc_gauss v = true /\
                        exists c, content (n_vox g) c = Some v) idx cs.
Proof. clear merge dflt.
  intros [W S] A M CL. induction idx as [|i t IH]; intros acc H.
  - exists []. split; [cbn; rewrite app_nil_r; reflexivity|constructor].
  - cbn [foldM]. unfold vget at 1.
    destruct (nth_error ms i) as [p|] eqn:N.
    2: { apply nth_error_None in N. pose proof (H i (or_introl eq_refl)). lia. }
    cbn [bind]. destruct (CL p (nth_error_In _ _ N)) as (c & v & E & G & P).
    pose proof (A c v E G) as IC. rewrite P in IC.
    assert (B : in_box (n_vox g) c = true).
    { destruct (in_box (n_vox g) c) eqn:B; [reflexivity|].
      rewrite content_box in E by auto. discriminate. }
    destruct (lookup_in (n_vox g) p c W IC B) as (_ & _ & LP & _).
    rewrite LP, E. cbn [bind].
    destruct (IH (acc ++ [Some v]) (fun j Hj => H j (or_intror Hj))) as (cs & EC & F).
    exists (v :: cs). split.
    + rewrite EC. rewrite <- app_assoc. reflexivity.
    + constructor; [|exact F]. rewrite P. split; [exact N|]. split; [exact G|]. eauto.
Qed.

Lemma knn_spec search (g : grid) p K : nwf g -> anchored g -> cloud_current g ->
  exists ms, n_means g = Some ms /\
  ((forall i, In i (search ms p K) -> i < length ms) ->
   exists cs, getKNearest search g p K = Ok (map Some cs) /\
    Forall2 (fun i v => nth_error ms i = Some (nc_mean v) /\ nc_gauss v = true /\
                        exists c, content (n_vox g) c = Some v) (search ms p K) cs).
Proof.
  intros W A (ms & M & C). exists ms. split; [exact M|]. intro H.
  unfold getKNearest. rewrite M.
  destruct (knn_loop g ms W A M (fun q Hq => proj1 (C q) Hq) (search ms p K) [] H)
    as (cs & E & F).
  exists cs. split; [exact E|exact F].
Qed.

(** ** building a grid from a scan *)
Variable addPt : cell -> point -> cell.
Variable compute : cell -> cell.

Definition orDflt (o : option cell) : cell := match o with Some v => v | None => dflt end.

Lemma updAt_spec (v : vgrid cell) p f : wf v -> off_border (cell_size v) p ->
  in_box v (cell_of (cell_size v) p) = true ->
  content v (cell_of (cell_size v) p) <> None ->
  exists v', updAt v p f = Ok v' /\ wf v' /\ same_window v v' /\
    forall c, content v' c =
      if in_cell_b (cell_size v) c p then option_map f (content v c) else content v c.
Proof.
  intros W O B NE. pose proof (wf_cs v W) as HC. unfold updAt.
  rewrite calcIndex_box by auto. cbn [bind]. rewrite vget_box by auto. cbn [bind].
  destruct (content v (cell_of (cell_size v) p)) as [x|] eqn:E; [|congruence].
  destruct (store_spec v (cell_of (cell_size v) p) (Some (f x)) W B) as (SF & W' & C1 & C2).
  eexists. split; [reflexivity|]. split; [exact W'|].
  split; [destruct SF as (S1 & S2 & S3 & S4 & S5 & _); repeat split; assumption|].
  intro c. rewrite in_cell_b_of by auto.
  destruct (pcell_eq_dec c (cell_of (cell_size v) p)) as [->|N].
  - rewrite C1, E. unfold pcell_eqb. rewrite !Z.eqb_refl. reflexivity.
  - rewrite C2 by exact N. unfold pcell_eqb. rewrite pcell_eqb_false by exact N. reflexivity.
Qed.

Lemma addPoint_spec (v : vgrid cell) p : wf v -> off_border (cell_size v) p ->
  exists v', addPoint merge dflt addPt v p = Ok v' /\ wf v' /\ grows v v' /\
    forall c, content v' c =
      if in_cell_b (cell_size v) c p then Some (addPt (orDflt (content v c)) p)
      else content v c.
Proof. clear compute.
  intros W O. pose proof (wf_cs v W) as HC. unfold addPoint.
  set (k := cell_of (cell_size v) p).
  assert (EX : cellExists v p = Ok (match content v k with Some _ => true | None => false end)).
  { destruct (in_box v k) eqn:B.
    - apply (lookup_in v p k W (cell_of_in _ p HC) B).
    - rewrite content_box by exact B. apply lookup_out.
      rewrite (off_box v p W O). exact B. }
  rewrite EX. cbn [bind]. destruct (content v k) as [x|] eqn:E.
  - assert (B : in_box v k = true).
    { destruct (in_box v k) eqn:B; [reflexivity|]. rewrite content_box in E by auto. discriminate. }
    destruct (updAt_spec v p (fun c => addPt c p) W O B) as (v' & EV & W' & S & CT).
    { fold k. rewrite E. discriminate. }
    exists v'. split; [exact EV|]. split; [exact W'|]. split.
    { destruct S as (S1 & S2 & S3 & S4 & S5). split; [lia|exact S5]. }
    intro c. rewrite CT. destruct (in_cell_b (cell_size v) c p) eqn:I; [|reflexivity].
    apply in_cell_b_iff, in_cell_unique in I; auto. fold k in I. subst c. rewrite E. reflexivity.
  - destruct (add_off merge v p dflt false W O) as (v1 & E1 & W1 & H1 & C1).
    rewrite E1. cbn [bind]. fold k in H1.
    pose proof (hull_grows _ _ _ H1) as G1. assert (CS : cell_size v1 = cell_size v) by apply G1.
    destruct (updAt_spec v1 p (fun c => addPt c p) W1 ltac:(rewrite CS; exact O))
      as (v' & EV & W' & S & CT).
    { rewrite CS. fold k. apply hull_in_box with (g := v). exact H1. }
    { rewrite CS. fold k. rewrite C1.
      assert (IB : in_cell_b (cell_size v) k p = true)
        by (apply in_cell_b_iff; apply cell_of_in; exact HC).
      rewrite IB. discriminate. }
    exists v'. split; [exact EV|]. split; [exact W'|]. split.
    { eapply vgrows_trans; [exact G1|].
      destruct S as (S1 & S2 & S3 & S4 & S5). split; [lia|exact S5]. }
    intro c. rewrite CT, CS, C1. destruct (in_cell_b (cell_size v) c p) eqn:I; [|reflexivity].
    apply in_cell_b_iff, in_cell_unique in I; auto. fold k in I. subst c. rewrite E. reflexivity.
Qed.

Definition points_fold (o : option cell) (l : list point) : option cell :=
  fold_left (fun acc p => Some (addPt (orDflt acc) p)) l o.

Lemma scan_loop pcl : forall v : vgrid cell, wf v ->
  (forall p, In (Some p) pcl -> off_border (cell_size v) p) ->
  exists v', foldM (fun v o => match o with Some p => addPoint merge dflt addPt v p
                               | None => Ok v end) pcl v = Ok v' /\
    wf v' /\ grows v v' /\
    forall c, content v' c = points_fold (content v c) (points_in (cell_size v) c pcl).
Proof.
  induction pcl as [|[p|] t IH]; intros v W O.
  - exists v. split; [reflexivity|]. split; [exact W|].
    split; [apply vgrows_refl|]. intro c. reflexivity.
  - cbn [foldM]. destruct (addPoint_spec v p W (O p (or_introl eq_refl)))
      as (v1 & E1 & W1 & G1 & C1). rewrite E1. cbn [bind].
    assert (CS : cell_size v1 = cell_size v) by apply G1.
    destruct (IH v1 W1) as (v' & E & W' & G & CT).
    { intros q Hq. rewrite CS. apply O. right. exact Hq. }
    exists v'. split; [exact E|]. split; [exact W'|].
    split; [eapply vgrows_trans; eauto|].
    intro c. rewrite CT, CS, C1. unfold points_in. cbn [flat_map app filter].
    destruct (in_cell_b (cell_size v) c p); reflexivity.
  - cbn [foldM bind]. destruct (IH v W) as (v' & E & W' & G & CT).
    { intros q Hq. apply O. right. exact Hq. }
    exists v'. auto.
Qed.

Lemma points_fold_some l : forall x, points_fold (Some x) l = Some (fold_left addPt l x).
Proof. induction l as [|p t IH]; intro x; [reflexivity|]. cbn. apply IH. Qed.

Lemma createGrid_spec (g : grid) pcl : (0 < n_cs g)%Q ->
  (forall p, In (Some p) pcl -> off_border (n_cs g) p) ->
  exists g', createGrid merge dflt addPt compute g pcl = Ok g' /\ nwf g' /\
    n_cs g' = n_cs g /\ n_pose g' = n_pose g /\
    forall c, content (n_vox g') c =
      match points_in (n_cs g) c pcl with
      | [] => if pcell_eqb c (0, 0)%Z then Some (compute dflt) else None
      | ps => Some (compute (fold_left addPt ps dflt))
      end.
Proof.
  intros HC O. unfold createGrid.
  destruct (bbox (reals pcl)) as [[[x0 y0] x1] y1].
  set (l := n_setOrigin (n_setCellSize (n_new dflt 0) (n_cs g)) (n_pose g)).
  assert (WL : nwf l) by (apply (fresh_nwf dflt 0 (n_cs g) HC)).
  assert (LC : forall c, content (n_vox l) c = if pcell_eqb c (0, 0)%Z then Some dflt else None)
    by (intro c; apply (fresh_content dflt 0 (n_cs g) c)).
  destruct (enlarge_spec (n_vox l) x0 y0 x1 y1 (proj1 WL)) as (v0 & E0 & W0 & G0 & _ & C0 & _).
  rewrite E0. cbn [bind].
  assert (CS0 : cell_size v0 = n_cs g) by apply G0.
  destruct (scan_loop pcl v0 W0 ltac:(rewrite CS0; exact O)) as (v1 & E1 & W1 & G1 & C1).
  rewrite E1. cbn [bind]. assert (CS1 : cell_size v1 = n_cs g) by (rewrite <- CS0; apply G1).
  eexists. split; [reflexivity|]. unfold computeNDTCells, with_vox, nwf.
  cbn [n_vox n_cs n_pose l]. split.
  { split; [|cbn; symmetry; exact CS1]. destruct W1 as [H1 H2]. split; [exact H1|].
    unfold width, height, with_cells in *; cbn [cells w_left w_right h_up h_down].
    rewrite map_length. exact H2. }
  split; [reflexivity|]. split; [reflexivity|].
  intro c. rewrite content_map, C1, C0, CS0, LC.
  destruct (points_in (n_cs g) c pcl) as [|p t]; [destruct (pcell_eqb c (0, 0)%Z); reflexivity|].
  unfold points_fold. cbn [fold_left].
  replace (orDflt (if pcell_eqb c (0, 0)%Z then Some dflt else None)) with dflt
    by (destruct (pcell_eqb c (0, 0)%Z); reflexivity).
  fold (points_fold (Some (addPt dflt p)) t). rewrite points_fold_some. reflexivity.
Qed.

(** ** traced merging *)
Variable occRay : cell -> point -> cell -> cell.

Lemma occ_loop (f : cell -> cell) (v : vgrid cell) path : wf v ->
  (forall x, nc_mean (f x) = nc_mean x /\ (nc_gauss (f x) = true -> nc_gauss x = true)) ->
  (forall d, In d path -> in_box v d = true /\ content v d <> None) ->
  exists l, foldM (fun l i => do o <- vget l i;
                              match o with Some c => vset l i (Some (f c)) | None => UB end)
                  (map (slot_of v) path) (cells v) = Ok l /\
    wf (with_cells v l) /\ same_window v (with_cells v l) /\
    forall c, content (with_cells v l) c = content v c \/
      (In c path /\ exists x y, content v c = Some x /\ content (with_cells v l) c = Some y /\
         nc_mean y = nc_mean x /\ (nc_gauss y = true -> nc_gauss x = true)).
Proof. clear occRay merge compute addPt.
  intros W F. revert v W. induction path as [|d t IH]; intros v W H.
  - exists (cells v). cbn [map foldM]. split; [reflexivity|].
    assert (E : with_cells v (cells v) = v) by (destruct v; reflexivity). rewrite E.
    split; [exact W|]. split; [apply same_window_refl|]. intro c. left. reflexivity.
  - cbn [map foldM]. destruct (H d (or_introl eq_refl)) as [B NE].
    rewrite vget_box by auto. cbn [bind].
    destruct (content v d) as [x|] eqn:E; [|congruence].
    unfold vset. pose proof (slot_lt v d B) as SL. rewrite (wf_len v W).
    replace (slot_of v d <? width v * height v) with true by lia. cbn [bind].
    destruct (store_spec v d (Some (f x)) W B) as (SF & W1 & C1 & C2).
    set (v1 := with_cells v (upd (cells v) (slot_of v d) (Some (f x)))) in *.
    destruct (IH v1 W1) as (l & EL & WL & SW & CT).
    { intros e He. destruct (H e (or_intror He)) as [Be Ne]. split; [exact Be|].
      destruct (pcell_eq_dec e d) as [->|N]; [rewrite C1; discriminate|].
      rewrite C2 by exact N. exact Ne. }
    exists l. split; [exact EL|]. split; [exact WL|]. split; [exact SW|].
    intro c. change (with_cells v l) with (with_cells v1 l).
    destruct (CT c) as [Ec|(Ic & a & b & Ea & Eb & Ma & Ga)].
    + destruct (pcell_eq_dec c d) as [->|N].
      * right. split; [left; reflexivity|]. exists x, (f x). split; [exact E|].
        split; [rewrite Ec; exact C1|]. apply F.
      * left. rewrite Ec. apply C2. exact N.
    + right. split; [right; exact Ic|].
      destruct (pcell_eq_dec c d) as [->|N].
      * rewrite C1 in Ea. injection Ea as <-. exists x, b. destruct (F x) as [F1 F2].
        split; [exact E|]. split; [exact Eb|]. split; [congruence|auto].
      * rewrite C2 in Ea by exact N. exists a, b. auto.
Qed.

Lemma dedup_from_in l : forall prev d, In d (dedup_from prev l) -> In d l.
Proof.
  induction l as [|x t IH]; intros prev d H; [exact H|]. cbn [dedup_from] in H.
  destruct (pcell_eqb x prev); [right; eapply IH; eauto|].
  destruct H as [H|H]; [left; exact H|right; eapply IH; eauto].
Qed.
Lemma dedup_in l d : In d (dedup l) -> In d l.
Proof.
  destruct l as [|x t]; [auto|]. cbn [dedup]. intros [H|H]; [left; exact H|].
  right. eapply dedup_from_in; eauto.
Qed.

Lemma traced_refl cs start l (f : pcell -> option cell) : traced dflt cs start l f f.
Proof. intro c. left. reflexivity. Qed.
Lemma traced_trans cs start l (f g h : pcell -> option cell) :
  traced dflt cs start l f g -> traced dflt cs start l g h -> traced dflt cs start l f h.
Proof.
  intros A B c. destruct (B c) as [Eb|[Tb (x & Ex & Mx & Gx)]].
  - destruct (A c) as [Ea|[Ta (y & Ey & My & Gy)]]; [left; congruence|].
    right. split; [exact Ta|]. exists y. split; [congruence|auto].
  - right. split; [exact Tb|]. exists x. split; [exact Ex|].
    destruct (A c) as [Ea|[_ (y & Ey & My & Gy)]].
    + rewrite Ea in *. auto.
    + rewrite Ey in *. cbn in Mx, Gx, My, Gy |- *. split; [congruence|]. auto.
Qed.
Lemma traced_incl cs start l l' (f g : pcell -> option cell) :
  (forall x, In x l -> In x l') -> traced dflt cs start l f g -> traced dflt cs start l' f g.
Proof.
  intros I A c. destruct (A c) as [E|[(e & t & H1 & H2) H]]; [left; exact E|].
  right. split; [exists e, t; split; [apply I; exact H1|exact H2]|exact H].
Qed.

Lemma trace_one start (v : vgrid cell) e c0 : wf v -> occ_only occRay ->
  in_cell (cell_size v) c0 start -> in_box v c0 = true ->
  rays_ok (cell_size v) start [e] ->
  exists v', traceCell dflt occRay start v e = Ok v' /\ wf v' /\ same_window v v' /\
    traced dflt (cell_size v) start [e] (content v) (content v').
Proof. clear merge compute addPt.
  intros W OO IC B R. unfold traceCell. destruct (nc_gauss e) eqn:G.
  2: { exists v. split; [reflexivity|]. split; [exact W|]. split; [apply same_window_refl|].
       apply traced_refl. }
  destruct (R e (or_introl eq_refl) G) as [R1 R2].
  destruct (rayTrace_final (fun a _ => a) dflt v start (nc_mean e) c0 W IC B R1 R2)
    as (v1 & path & E1 & P1 & _ & LB & _ & _ & W1 & SF & CT).
  rewrite E1. cbn [bind fst snd]. unfold occSlots.
  assert (SLOT : map (slot_of v) (dedup path) = map (slot_of v1) (dedup path)).
  { apply map_ext. intro d. unfold slot_of, width.
    destruct SF as (S1 & S2 & S3 & S4 & _). rewrite S1, S2, S3. reflexivity. }
  rewrite SLOT.
  assert (BX : forall d, in_box v1 d = in_box v d).
  { intro d. unfold in_box. destruct SF as (S1 & S2 & S3 & S4 & _).
    rewrite S1, S2, S3, S4. reflexivity. }
  assert (EXP : forall d, In d path -> existsb (pcell_eqb d) path = true).
  { intros d Hd. apply existsb_exists. exists d. split; [exact Hd|].
    unfold pcell_eqb. rewrite !Z.eqb_refl. reflexivity. }
  destruct (occ_loop (fun c => occRay c start e) v1 (dedup path) W1) as (l & EL & WL & SL & CL).
  { intro x. apply OO. }
  { intros d Hd. apply dedup_in in Hd. split.
    - rewrite BX. apply In_nth_error in Hd. destruct Hd as [k Hk]. apply (P1 k d Hk).
    - rewrite CT, EXP by exact Hd. discriminate. }
  rewrite EL. cbn [bind]. exists (with_cells v1 l). split; [reflexivity|]. split; [exact WL|].
  assert (SW1 : same_window v v1) by (destruct SF as (S1 & S2 & S3 & S4 & S5 & _); repeat split; assumption).
  split; [eapply same_window_trans; eauto|].
  assert (SEG : forall d, In d path -> exists t, (0 <= t < 1)%Q /\
            in_cell (cell_size v) d (seg_point start (nc_mean e) t)).
  { intros d Hd. apply In_nth_error in Hd. destruct Hd as [k Hk].
    destruct (P1 k d Hk) as [I _].
    exists (inject_Z (Z.of_nat k) / (2 * seg_len (cell_size v) start (nc_mean e)))%Q.
    split; [|exact I].
    assert (KL : k < length path) by (apply nth_error_Some; congruence).
    set (len := seg_len (cell_size v) start (nc_mean e)) in *.
    pose proof (Qfloor_spec len) as [F1 F2].
    assert (F0 : (1 <= Qfloor len)%Z).
    { assert (0 < Qfloor len)%Z; [|lia]. apply inj_lt. change (inject_Z 0) with 0%Q. lra. }
    assert (KZ : (Z.of_nat k < 2 * Qfloor len)%Z) by lia.
    split.
    - apply Qle_shift_div_l; [lra|]. rewrite Qmult_0_l. change 0%Q with (inject_Z 0).
      apply le_inj. lia.
    - apply Qlt_shift_div_r; [lra|]. apply lt_inj in KZ.
      rewrite inject_Z_mult in KZ. change (inject_Z 2) with 2%Q in KZ. lra. }
  assert (INP : forall c, existsb (pcell_eqb c) path = true -> In c path).
  { intros c H. apply existsb_exists in H. destruct H as (d & Hd & E).
    unfold pcell_eqb in E. apply andb_true_iff in E. destruct E as [Ea Eb].
    apply Z.eqb_eq in Ea, Eb. destruct c, d; cbn [fst snd] in *; subst; exact Hd. }
  intro c. destruct (existsb (pcell_eqb c) path) eqn:EP.
  - right. split.
    { destruct (SEG c (INP c EP)) as (t & T1 & T2). exists e, t.
      split; [left; reflexivity|]. auto. }
    specialize (CT c). rewrite EP in CT.
    destruct (CL c) as [Ec|(_ & x & y & Ex & Ey & M & Gx)].
    + rewrite CT in Ec. eexists. split; [exact Ec|]. split; [reflexivity|]. intro Y. exact Y.
    + rewrite CT in Ex. injection Ex as Ex. exists y. split; [exact Ey|]. cbv zeta.
      rewrite Ex. auto.
  - left. specialize (CT c). rewrite EP in CT.
    destruct (CL c) as [Ec|(I & _)]; [rewrite Ec; exact CT|].
    exfalso. apply dedup_in in I. rewrite (EXP c I) in EP. discriminate.
Qed.

Lemma trace_all start l : forall (v : vgrid cell) c0, wf v -> occ_only occRay ->
  in_cell (cell_size v) c0 start -> in_box v c0 = true ->
  rays_ok (cell_size v) start l ->
  exists v', foldM (traceCell dflt occRay start) l v = Ok v' /\ wf v' /\ same_window v v' /\
    traced dflt (cell_size v) start l (content v) (content v').
Proof.
  induction l as [|e t IH]; intros v c0 W OO IC B R.
  - exists v. split; [reflexivity|]. split; [exact W|]. split; [apply same_window_refl|].
    apply traced_refl.
  - cbn [foldM]. destruct (trace_one start v e c0 W OO IC B) as (v1 & E1 & W1 & S1 & T1).
    { intros x [<-|[]]. apply R. left. reflexivity. }
    rewrite E1. cbn [bind]. assert (CS : cell_size v1 = cell_size v) by apply S1.
    destruct (IH v1 c0 W1 OO) as (v' & E & W' & S & T).
    { rewrite CS. exact IC. }
    { rewrite (same_window_box _ _ _ S1). exact B. }
    { rewrite CS. intros x Hx. apply R. right. exact Hx. }
    exists v'. split; [exact E|]. split; [exact W'|].
    split; [eapply same_window_trans; eauto|].
    rewrite CS in T. eapply traced_trans.
    + eapply traced_incl; [|exact T1]. intros x [<-|[]]. left. reflexivity.
    + eapply traced_incl; [|exact T]. intros x Hx. right. exact Hx.
Qed.

Variable tcell : qtrans L -> cell -> cell.
Variable btw : qpose -> qpose -> qtrans L.
Variable tp : qtrans L -> point -> point.

Definition incoming (g other : grid) (transform : bool) : list cell :=
  if transform then map (tcell (btw (n_pose other) (n_pose g))) (getValidCells (n_vox other))
  else getValidCells (n_vox other).
Definition sensor (g other : grid) : point := tp (btw (n_pose other) (n_pose g)) (0, 0)%Q.

Lemma mergeInTraced_keep (g other : grid) transform c0 :
  nwf g -> n_init g = true -> occ_only occRay ->
  in_cell (n_cs g) c0 (sensor g other) -> in_box (n_vox g) c0 = true ->
  rays_ok (n_cs g) (sensor g other) (incoming g other transform) ->
  off_borders (n_cs g) (incoming g other transform) ->
  exists g' mid, mergeInTraced merge dflt tcell occRay btw tp g other transform false = Ok g' /\
    nwf g' /\ same_header g g' /\ same_window (n_vox g) (n_vox g') /\ cloud_current g' /\
    traced dflt (n_cs g) (sensor g other) (incoming g other transform) (content (n_vox g)) mid /\
    forall c, content (n_vox g') c =
      if in_box (n_vox g) c
      then accumulate merge (mid c) (landing (n_cs g) c (incoming g other transform)) else None.
Proof.
  intros [W S] I OO IC B R O. rewrite S in IC, R.
  destruct (trace_all (sensor g other) (incoming g other transform) (n_vox g) c0 W OO IC B R)
    as (v & EV & WV & SV & TV).
  destruct (merge_keep merge (with_vox g v) (incoming g other transform))
    as (g' & EM & W' & SH & _ & SW & ME & CT).
  { split; [exact WV|]. cbn. rewrite S. symmetry. apply SV. }
  { exact I. }
  { exact O. }
  exists g', (content v). split.
  { unfold mergeInTraced. fold (sensor g other).
    change (if transform then transformNDTCells tcell (getValidCells (n_vox other))
              (btw (n_pose other) (n_pose g)) else getValidCells (n_vox other))
      with (incoming g other transform).
    rewrite EV. cbn [bind]. exact EM. }
  split; [exact W'|]. split; [exact SH|].
  split; [eapply same_window_trans; [exact SV|exact SW]|].
  split; [apply cloud_of_gaussians; exact ME|].
  split; [rewrite S; exact TV|].
  intro c. rewrite CT. cbn [n_vox n_cs with_vox]. rewrite (same_window_box _ _ c SV). reflexivity.
Qed.

Lemma mergeInTraced_replace (g other : grid) transform resize c0 :
  nwf g -> resize = true \/ n_init g = false -> occ_only occRay ->
  in_cell (n_cs g) c0 (sensor g other) -> in_box (n_vox g) c0 = true ->
  rays_ok (n_cs g) (sensor g other) (incoming g other transform) ->
  off_borders (n_cs g) (incoming g other transform) ->
  exists g' mid, mergeInTraced merge dflt tcell occRay btw tp g other transform resize = Ok g' /\
    nwf g' /\ same_header g g' /\ grows (n_vox g) (n_vox g') /\ cloud_current g' /\
    traced dflt (n_cs g) (sensor g other) (incoming g other transform) (content (n_vox g)) mid /\
    forall c, content (n_vox g') c =
      latest (mid c) (landing (n_cs g) c (incoming g other transform)).
Proof. clear compute addPt.
  intros [W S] I OO IC B R O. rewrite S in IC, R.
  destruct (trace_all (sensor g other) (incoming g other transform) (n_vox g) c0 W OO IC B R)
    as (v & EV & WV & SV & TV).
  destruct (merge_replace merge (with_vox g v) (incoming g other transform) resize)
    as (g' & EM & W' & SH & _ & SW & ME & _ & CT).
  { split; [exact WV|]. cbn. rewrite S. symmetry. apply SV. }
  { exact I. }
  { exact O. }
  exists g', (content v). split.
  { unfold mergeInTraced. fold (sensor g other).
    change (if transform then transformNDTCells tcell (getValidCells (n_vox other))
              (btw (n_pose other) (n_pose g)) else getValidCells (n_vox other))
      with (incoming g other transform).
    rewrite EV. cbn [bind]. exact EM. }
  split; [exact W'|]. split; [exact SH|].
  split. { destruct SV as (S1 & S2 & S3 & S4 & S5). cbn [with_vox n_vox] in SW.
    destruct SW as [SW1 SW2]. split; [lia|congruence]. }
  split; [apply cloud_of_gaussians; exact ME|].
  split; [rewrite S; exact TV|].
  intro c. rewrite CT. reflexivity.
Qed.

(** ** what a move does to the map *)
Lemma move_world (g : grid) (t : qtrans L) g' r : nwf g ->
  (Qabs (p_th (n_pose g)) <= 1 # 10000000)%Q ->
  (Qabs (tr_x t) < inject_Z (2^31) * n_cs g)%Q -> (Qabs (tr_y t) < inject_Z (2^31) * n_cs g)%Q ->
  n_move g t = Ok (g', r) ->
  exists kx ky : Z,
    (p_x (n_pose g') == p_x (n_pose g) + inject_Z kx * n_cs g)%Q /\
    (p_y (n_pose g') == p_y (n_pose g) + inject_Z ky * n_cs g)%Q /\
    same_window (n_vox g) (n_vox g') /\
    (forall c v, content (n_vox g) c = Some v ->
       if in_box (n_vox g) (fst c - kx, snd c - ky)%Z
       then exists v', content (n_vox g') (fst c - kx, snd c - ky)%Z = Some v' /\
              nc_gauss v' = nc_gauss v /\ nc_rest v' = nc_rest v /\
              (nc_gauss v = true -> peq (world_pos g' v') (world_pos g v)) /\
              (nc_gauss v = false -> v' = v)
       else content (n_vox g') (fst c - kx, snd c - ky)%Z = None) /\
    (forall d v', content (n_vox g') d = Some v' ->
       exists v, content (n_vox g) (fst d + kx, snd d + ky)%Z = Some v).
Proof. clear tp tcell occRay merge compute addPt.
  intros W TH BX BY M.
  destruct (move_ok g t W TH BX BY) as
    (g1 & rx & ry & kx & ky & M1 & W' & SW & CS & _ & _ & PX & PY & _ & _ & _ & _ & _ & _ & _ & ALT).
  rewrite M in M1. injection M1 as -> ->.
  exists kx, ky. split; [exact PX|]. split; [exact PY|]. split; [exact SW|].
  destruct ALT as [[[-> ->] ->]|[_ CT]].
  - split.
    + intros c v E. replace (fst c - 0, snd c - 0)%Z with c by (destruct c; cbn; f_equal; lia).
      destruct (in_box (n_vox g) c) eqn:B; [|rewrite content_box in E by auto; discriminate].
      exists v. split; [exact E|]. split; [reflexivity|]. split; [reflexivity|].
      split; [intros _; split; reflexivity|auto].
    + intros d v E. exists v.
      replace (fst d + 0, snd d + 0)%Z with d by (destruct d; cbn; f_equal; lia). exact E.
  - split.
    + intros c v E. rewrite CT. cbn [fst snd].
      replace (fst c - kx + kx, snd c - ky + ky)%Z with c by (destruct c; cbn; f_equal; lia).
      destruct (in_box (n_vox g) (fst c - kx, snd c - ky)%Z); [|reflexivity].
      rewrite E. eexists. split; [reflexivity|]. unfold shiftMean.
      destruct (nc_gauss v) eqn:G; cbn [nc_gauss nc_rest].
      * split; [reflexivity|]. split; [reflexivity|]. split; [|discriminate].
        intros _. unfold peq, world_pos. cbn [nc_mean fst snd]. rewrite PX, PY. split; ring.
      * split; [exact G|]. split; [reflexivity|]. split; [discriminate|auto].
    + intros d v' E. rewrite CT in E. destruct (in_box (n_vox g) d); [|discriminate].
      destruct (content (n_vox g) (fst d + kx, snd d + ky)%Z) as [v|]; [|discriminate].
      exists v. reflexivity.
Qed.

(** serialised origin *)
Lemma serialize_origin (g : grid) : w_left (n_vox g) = 0 ->
  gm_origin (n_serialize btw tp g) =
  tp (btw (n_pose g) (mkPose 0 0 0)) (inject_Z 0 * n_cs g, qn (h_up (n_vox g)) * n_cs g)%Q.
Proof. intro H. unfold n_serialize. cbn [gm_origin]. rewrite H. reflexivity. Qed.

Lemma serialize_wrapped (g : grid) : 0 < w_left (n_vox g) ->
  (Z.of_nat (w_left (n_vox g)) < 2 ^ 64)%Z ->
  gm_origin (n_serialize btw tp g) =
  tp (btw (n_pose g) (mkPose 0 0 0))
     (inject_Z (2 ^ 64 - Z.of_nat (w_left (n_vox g))) * n_cs g, qn (h_up (n_vox g)) * n_cs g)%Q.
Proof. clear tcell occRay merge dflt compute addPt.
  intros H1 H2. unfold n_serialize. cbn [gm_origin]. unfold u64.
  rewrite Z.mod_opp_l_nz.
  - rewrite Z.mod_small by lia. reflexivity.
  - lia.
  - rewrite Z.mod_small by lia. lia.
Qed.

End P.

(** At most one fine cell per coarse cell: the coarse cell is the merge of the
    fine ones. *)
Lemma coarser_small {X} (mrg : ncell X -> ncell X -> ncell X) (dflt : ncell X)
  (g g' : ngrid X) cs c : (0 < n_cs g)%Q -> (n_cs g <= cs)%Q ->
  off_borders cs (getValidCells (n_vox g)) ->
  createCoarserGrid mrg dflt g cs = Ok g' ->
  (length (landing cs c (getValidCells (n_vox g))) <= 1)%nat ->
  content (n_vox g') c =
  match merged mrg (landing cs c (getValidCells (n_vox g))) with
  | Some v => Some v
  | None => if pcell_eqb c (0, 0)%Z then Some dflt else None
  end.
Proof.
  intros HC HS O E LE.
  pose proof (coarser_spec mrg dflt g cs HC) as K. cbv zeta in K.
  pose proof (qlt_cases cs (n_cs g)) as Q.
  destruct (Qlt_b cs (n_cs g)); [exfalso; lra|].
  destruct (K O) as (g1 & E1 & _ & _ & _ & C). rewrite E in E1. injection E1 as <-.
  rewrite C. apply latest_small. exact LE.
Qed.
