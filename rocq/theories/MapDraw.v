(** What the frames draw into the map. *)
From Coq Require Import List ZArith QArith Qround Qabs Lqa Lia Bool
  Sorting.Permutation Sorting.Sorted.
From Verif Require Import Base QLemmas VoxelModel VoxelSpec VoxelProofs VoxelOps VoxelAdd VoxelRay
  GridModel GridSpec GridProofs GridOps MapModel MapSpec MapProofs MapHist.
Import ListNotations.
Open Scope nat_scope.

Section Draw.
Context {X L : Type}.
Notation cell := (ncell X).
Notation grid := (ngrid X).
Variable merge : cell -> cell -> cell.
Variable dflt : cell.
Variable tcell : qtrans L -> cell -> cell.
Variable occRay : cell -> point -> cell -> cell.
Variable rawOcc : cell -> Q.
Variable btw : qpose -> qpose -> qtrans L.
Variable tp : qtrans L -> point -> point.
Hypothesis OO : occ_only occRay.
Hypothesis DG : nc_gauss dflt = false.

Notation addToMap := (addToMap merge dflt tcell occRay btw tp).
Notation recalc := (recalc merge dflt tcell occRay rawOcc btw tp).
Notation addFrame := (addFrame merge dflt tcell occRay rawOcc btw tp).
Notation mreach := (mreach merge dflt tcell occRay rawOcc btw tp).
Notation build := (build tcell btw tp merge dflt occRay rawOcc).
Notation placed := (placed tcell btw).
Notation drawable := (drawable tcell btw tp).
Notation drawn := (drawn tcell btw).
Notation swept := (swept tcell btw tp).
Notation lasting := (lasting tcell btw tp).
Notation undisturbed := (undisturbed tcell btw tp).

Definition gmean (o : option cell) : option point :=
  match o with Some v => if nc_gauss v then Some (nc_mean v) else None | None => None end.
Definition gauss_at (g : grid) (c : pcell) : option point := gmean (content (n_vox g) c).
Definition over (o : option point) (l : list cell) : option point :=
  fold_left (fun _ v => Some (nc_mean v)) l o.

(** A later beam may drop what was there. *)
Definition fades (P : Prop) (a b : option point) : Prop := b = a \/ (P /\ b = None).
Lemma traced_gmean cs s l (f h : pcell -> option cell) c :
  traced dflt cs s l f h ->
  fades (exists e t, In e l /\ nc_gauss e = true /\ (0 <= t < 1)%Q /\ in_cell cs c (seg_point s (nc_mean e) t))
    (gmean (f c)) (gmean (h c)).
Proof using DG.
  intro T. destruct (T c) as [->|[S (x & -> & M & G)]]; [left; reflexivity|].
  cbv zeta in M, G. unfold fades, gmean. destruct (nc_gauss x) eqn:GX.
  - left. specialize (G eq_refl). destruct (f c); [rewrite G, M; reflexivity|]. rewrite DG in G. discriminate.
  - right. split; [exact S|reflexivity].
Qed.
Lemma latest_gmean (l : list cell) : (forall v, In v l -> nc_gauss v = true) ->
  forall o, gmean (latest o l) = over (gmean o) l.
Proof.
  induction l as [|v t IH]; intros H o; [reflexivity|].
  unfold latest, over. cbn [fold_left].
  change (gmean (latest (Some v) t) = over (Some (nc_mean v)) t).
  rewrite IH by (intros; apply H; right; assumption).
  unfold gmean. rewrite (H v (or_introl eq_refl)). reflexivity.
Qed.
Lemma landing_gauss cs c (l : list cell) v : In v (landing cs c l) -> nc_gauss v = true.
Proof. intro H. apply landing_in in H. apply H. Qed.
Lemma landing_app cs c (l1 l2 : list cell) :
  landing cs c (l1 ++ l2) = landing cs c l1 ++ landing cs c l2.
Proof. apply filter_app. Qed.

Lemma trace_outside s (l : list cell) (v : vgrid cell) : isInside v s = false ->
  foldM (traceCell dflt occRay s) l v = Ok v.
Proof.
  intro I. induction l as [|e t IH]; [reflexivity|]. cbn [foldM].
  assert (E : traceCell dflt occRay s v e = Ok v).
  { unfold traceCell. destruct (nc_gauss e); [|reflexivity].
    rewrite (rayTrace_outside dflt v s (nc_mean e) I). cbn [bind fst snd].
    unfold occSlots. cbn [foldM bind]. destruct v; reflexivity. }
  rewrite E. exact IH.
Qed.

Lemma draw_one (g f : grid) : nwf g -> n_pose g = world -> n_cs g = map_res -> drawable f ->
  exists g', addToMap g f = Ok g' /\ nwf g' /\ n_pose g' = world /\ n_cs g' = map_res /\
    cloud_current g' /\
    forall c, exists m, fades (swept f c) (gauss_at g c) m /\
      gauss_at g' c = over m (landing map_res c (placed f)).
Proof using OO DG.
  intros W P S (O1 & O2 & R).
  assert (TR : exists v, foldM (traceCell dflt occRay (sensor_at btw tp f)) (placed f) (n_vox g) = Ok v /\
            wf v /\ same_window (n_vox g) v /\
            traced dflt (cell_size (n_vox g)) (sensor_at btw tp f) (placed f)
              (content (n_vox g)) (content v)).
  { destruct W as [W CS]. assert (CS' : cell_size (n_vox g) = map_res) by congruence.
    destruct (isInside (n_vox g) (sensor_at btw tp f)) eqn:I.
    - apply (trace_all dflt occRay (sensor_at btw tp f) (placed f) (n_vox g)
               (cell_of map_res (sensor_at btw tp f)) W OO).
      + rewrite CS'. apply cell_of_in. reflexivity.
      + pose proof (off_box (n_vox g) (sensor_at btw tp f) W) as B. rewrite CS' in B.
        rewrite <- (B O1). exact I.
      + rewrite CS'. exact R.
    - exists (n_vox g). split; [apply trace_outside; exact I|]. split; [exact W|].
      split; [apply same_window_refl|]. apply traced_refl. }
  destruct TR as (v & EV & WV & SV & TV).
  destruct (merge_replace merge (with_vox g v) (placed f) true)
    as (g' & EM & W' & SH & _ & _ & ME & _ & CT).
  { split; [exact WV|]. cbn. destruct W as [_ W]. rewrite W. symmetry. apply SV. }
  { left. reflexivity. }
  { cbn. rewrite S. exact O2. }
  exists g'. split.
  { unfold MapModel.addToMap, mergeInTraced. rewrite P.
    change (tp (btw (n_pose f) world) (0, 0)%Q) with (sensor_at btw tp f).
    change (transformNDTCells tcell (getValidCells (n_vox f)) (btw (n_pose f) world))
      with (placed f).
    rewrite EV. cbn [bind]. exact EM. }
  split; [exact W'|]. destruct SH as (H1 & H2 & _). cbn in H1, H2.
  split; [congruence|]. split; [congruence|].
  split; [apply cloud_of_gaussians; exact ME|].
  intro c. exists (gmean (content v c)). split.
  { pose proof (traced_gmean _ _ _ _ _ c TV) as F. destruct W as [_ W]. rewrite <- W, S in F. exact F. }
  unfold gauss_at. rewrite CT. cbn [n_cs with_vox n_vox]. rewrite S.
  apply latest_gmean. intros x Hx. eapply landing_gauss. exact Hx.
Qed.

Lemma over_app o (l1 l2 : list cell) : over o (l1 ++ l2) = over (over o l1) l2.
Proof. apply fold_left_app. Qed.
Lemma over_any (l : list cell) : l <> [] -> forall o o', over o l = over o' l.
Proof. destruct l as [|v t]; [congruence|]. intros _ o o'. reflexivity. Qed.
Lemma over_none o (l : list cell) q : over None l = Some q -> over o l = Some q.
Proof. destruct l as [|v t]; [discriminate|]. intro H. exact H. Qed.
Lemma over_mono a b (l : list cell) q : (forall q, a = Some q -> b = Some q) -> over a l = Some q -> over b l = Some q.
Proof. destruct l as [|v t]; [intro H; apply H|]. intros _ H. exact H. Qed.
Lemma fades_some P a b q : fades P a b -> b = Some q -> a = Some q.
Proof. intros [->|[_ ->]] H; [exact H|discriminate]. Qed.
Lemma fades_not P a b : ~ P -> fades P a b -> b = a.
Proof. intros N [E|[H _]]; [exact E|contradiction]. Qed.

Lemma draw_all fs : forall g : grid, nwf g -> n_pose g = world -> n_cs g = map_res ->
  (forall f, In f fs -> drawable f) ->
  exists g', foldM addToMap fs g = Ok g' /\ nwf g' /\ n_pose g' = world /\ n_cs g' = map_res /\
    (fs <> [] -> cloud_current g') /\
    (forall c q, gauss_at g' c = Some q -> over (gauss_at g c) (landing map_res c (flat_map placed fs)) = Some q) /\
    forall c, (forall f, In f fs -> landing map_res c (placed f) = [] /\ ~ swept f c) -> gauss_at g' c = gauss_at g c.
Proof using OO DG.
  induction fs as [|f t IH]; intros g W P S D.
  - exists g. split; [reflexivity|]. repeat (split; [assumption|]). split; [congruence|].
    split; [|reflexivity]. intros c q H. exact H.
  - destruct (draw_one g f W P S (D f (or_introl eq_refl))) as (g1 & E1 & W1 & P1 & S1 & C1 & G1).
    destruct (IH g1 W1 P1 S1) as (g' & E & W' & P' & S' & C' & G' & K').
    { intros x Hx. apply D. right. exact Hx. }
    exists g'. cbn [foldM]. rewrite E1. cbn [bind]. split; [exact E|].
    repeat (split; [assumption|]). split.
    + intros _. destruct t as [|f' t']; [|apply C'; discriminate].
      cbn in E. injection E as <-. exact C1.
    + split.
      * intros c q H. apply G' in H. cbn [flat_map]. rewrite landing_app, over_app.
        destruct (G1 c) as (m & FM & E2). rewrite E2 in H. revert H. apply over_mono. intro q'. apply over_mono.
        intro q2. apply (fades_some _ _ _ _ FM).
      * intros c H. rewrite K' by (intros x Hx; apply H; right; exact Hx).
        destruct (H f (or_introl eq_refl)) as [LN NS]. destruct (G1 c) as (m & FM & E2).
        rewrite E2, LN. cbn [over fold_left]. apply (fades_not _ _ _ NS FM).
Qed.
(** What lasts is there. *)
Lemma draw_lasting fs g g' c q : nwf g -> n_pose g = world -> n_cs g = map_res ->
  (forall f, In f fs -> drawable f) -> foldM addToMap fs g = Ok g' ->
  lasting fs c q -> gauss_at g' c = Some q.
Proof using OO DG.
  intros W P S D E (s1 & f & s2 & -> & DF & LL). rewrite foldM_app in E.
  destruct (draw_all s1 g W P S) as (g1 & E1 & W1 & P1 & S1 & _).
  { intros x Hx. apply D. apply in_or_app. left. exact Hx. }
  rewrite E1 in E. cbn [bind foldM] in E.
  destruct (draw_one g1 f W1 P1 S1) as (g2 & E2 & W2 & P2 & S2 & _ & G2).
  { apply D. apply in_or_app. right. left. reflexivity. }
  rewrite E2 in E. cbn [bind] in E.
  destruct (draw_all s2 g2 W2 P2 S2) as (g3 & E3 & _ & _ & _ & _ & _ & K).
  { intros x Hx. apply D. apply in_or_app. right. right. exact Hx. }
  rewrite E3 in E. injection E as <-. rewrite (K c LL). destruct (G2 c) as (m & _ & ->).
  unfold MapSpec.drawn in DF. cbn [flat_map] in DF. rewrite app_nil_r in DF. apply over_none. exact DF.
Qed.
Lemma undisturbed_lasting fs c q : undisturbed fs -> drawn fs c = Some q -> lasting fs c q.
Proof.
  intro U. unfold MapSpec.drawn. induction fs as [|f t IH] using rev_ind; [discriminate|].
  rewrite flat_map_app, landing_app. cbn [flat_map]. rewrite app_nil_r, fold_left_app. intro E.
  destruct (landing map_res c (placed f)) as [|v l] eqn:LF.
  - cbn [fold_left] in E. destruct IH as (s1 & f1 & s2 & -> & D1 & LL); [|exact E|].
    { intros s1 f1 s2 c' f' EQ I. apply (U s1 f1 (s2 ++ [f]) c' f'); [rewrite EQ, <- app_assoc; reflexivity|].
      apply in_or_app. left. exact I. }
    exists s1, f1, (s2 ++ [f]). split; [rewrite <- app_assoc; reflexivity|]. split; [exact D1|].
    intros f' I. apply in_app_or in I. destruct I as [I|[<-|[]]]; [apply LL; exact I|]. split; [exact LF|].
    apply (U s1 f1 (s2 ++ [f]) c f); [rewrite <- app_assoc; reflexivity|apply in_or_app; right; left; reflexivity|].
    intro Y. unfold MapSpec.drawn in D1. cbn [flat_map] in D1. rewrite app_nil_r, Y in D1. discriminate.
  - exists t, f, []. split; [reflexivity|]. split; [|intros f' []].
    unfold MapSpec.drawn. cbn [flat_map]. rewrite app_nil_r, LF. exact E.
Qed.

(** The frames of [build] are merged like those of a redraw. *)
Lemma build_fold fs : forall (m : mapper X) g', foldM addToMap fs (m_ndt m) = Ok g' -> nwf (m_ndt m) ->
  exists m', foldM (fun m f => addFrame m f (n_time f)) fs m = Ok m' /\ m_ndt m' = g' /\
    (fs <> [] -> exists ms, n_means g' = Some ms /\
       m_cloud m' = map (tp (btw (n_pose g') world)) ms).
Proof.
  induction fs as [|f t IH]; intros m g' E W.
  - cbn in E. injection E as <-. exists m. split; [reflexivity|]. split; [reflexivity|]. congruence.
  - cbn [foldM] in E |- *. apply bind_ok_inv in E. destruct E as (g1 & E1 & E).
    assert (F1 : foldM addToMap [f] (m_ndt m) = Ok g1) by (cbn [foldM]; rewrite E1; reflexivity).
    destruct (fold_inv merge dflt tcell occRay btw tp [f] (m_ndt m) g1 W F1)
      as (W1 & _ & _ & _ & _ & [[K _]|K]); [discriminate|].
    assert (EA : addFrame m f (n_time f) =
      Ok (mkMapper g1 (m_frames m ++ [n_setTimestamp f (n_time f)])
            (createOccupancyGrid rawOcc btw tp g1)
            (map (tp (btw (n_pose g1) world)) (map nc_mean (getGaussianCells g1))) (m_time m))).
    { unfold MapModel.addFrame. rewrite E1. cbn [bind]. unfold getMeansTransformed. rewrite K.
      reflexivity. }
    rewrite EA. cbn [bind].
    destruct (IH (mkMapper g1 (m_frames m ++ [n_setTimestamp f (n_time f)])
            (createOccupancyGrid rawOcc btw tp g1)
            (map (tp (btw (n_pose g1) world)) (map nc_mean (getGaussianCells g1))) (m_time m)) g' E W1)
      as (m' & E' & N' & C').
    exists m'. split; [exact E'|]. split; [exact N'|]. intros _.
    destruct t as [|f' t']; [|apply C'; discriminate].
    cbn in E, E'. injection E as <-. injection E' as <-. cbn [m_cloud]. eauto.
Qed.

Lemma gauss_new c : gauss_at (m_ndt (m_new dflt)) c = None.
Proof using DG.
  unfold gauss_at, m_new. cbn [m_ndt]. unfold gmean, content.
  destruct (in_box _ c); [|reflexivity].
  cbn [n_setCellSize n_new_at n_vox setCellSize vempty cells].
  destruct (slot_of _ c) as [|[|k]]; cbn [nth]; [rewrite DG| |]; reflexivity.
Qed.
Lemma gauss_clear (g : grid) c : wf (n_vox g) -> gauss_at (n_clear g) c = None.
Proof.
  intro W. unfold gauss_at. cbn [n_clear n_vox]. destruct (clear_spec _ W) as (_ & E & _).
  rewrite E. reflexivity.
Qed.

Theorem redraw_cloud ops m s t : mreach ops m -> std_sorted (m_frames m) s -> s <> [] ->
  (forall f, In f s -> drawable f) ->
  exists m' mb, recalc m s t = Ok m' /\ build s = Ok mb /\
    forall mm, mm = m' \/ mm = mb -> forall p,
      (In p (getPclMap mm) -> exists c q, drawn s c = Some q /\ p = tp (btw world world) q) /\
      (forall c q, lasting s c q -> p = tp (btw world world) q -> In p (getPclMap mm)).
Proof using OO DG.
  intros R SS NE D.
  destruct (minv_reach merge dflt tcell occRay rawOcc btw tp ops m R) as (W & P & S & _).
  assert (SEEN : forall (g : grid) ms, n_pose g = world ->
     cloud_current g -> n_means g = Some ms ->
     (forall c q, gauss_at g c = Some q -> drawn s c = Some q) ->
     (forall c q, lasting s c q -> gauss_at g c = Some q) ->
     forall p, (In p (map (tp (btw (n_pose g) world)) ms) ->
       exists c q, drawn s c = Some q /\ p = tp (btw world world) q) /\
      (forall c q, lasting s c q -> p = tp (btw world world) q -> In p (map (tp (btw (n_pose g) world)) ms))).
  { intros g ms Pg (ms' & E & IN) EM G G2 p. rewrite Pg.
    rewrite EM in E. injection E as <-. split.
    - intro I. apply in_map_iff in I. destruct I as (q & <- & Hq). apply IN in Hq. destruct Hq as (c & v & E & Gv & <-).
      exists c, (nc_mean v). split; [|reflexivity]. apply G. unfold gauss_at, gmean.
      rewrite E, Gv. reflexivity.
    - intros c q E ->. apply in_map_iff. exists q. split; [reflexivity|]. apply IN.
      apply G2 in E. unfold gauss_at, gmean in E.
      destruct (content (n_vox g) c) as [v|] eqn:EC; [|discriminate].
      destruct (nc_gauss v) eqn:Gv; [|discriminate]. injection E as <-. eauto. }
  assert (W1 : nwf (n_clear (m_ndt m))).
  { destruct W as [W0 W1]. split; [apply clear_spec; exact W0|]. exact W1. }
  destruct (draw_all s (n_clear (m_ndt m)) W1 P S D) as (g & EG & WG & PG & SG & CG & GG & _).
  assert (W2 : nwf (m_ndt (m_new dflt))) by (split; [split; reflexivity|reflexivity]).
  destruct (draw_all s (m_ndt (m_new dflt)) W2 eq_refl eq_refl D) as (h & EH & WH & PH & SH & CH & GH & _).
  destruct (build_fold s (m_new dflt) h EH W2) as (mb & EB & NB & MB).
  specialize (CG NE). specialize (CH NE). specialize (MB NE).
  assert (CG' := CG). destruct CG' as (ms & Ems & _).
  exists (mkMapper g s (createOccupancyGrid rawOcc btw tp g) (map (tp (btw (n_pose g) world)) ms) t), mb.
  split.
  { unfold MapModel.recalc. rewrite EG. cbn [bind]. unfold getMeansTransformed. rewrite Ems. reflexivity. }
  split; [exact EB|]. intros mm [-> | ->].
  - unfold getPclMap. cbn [m_cloud]. apply SEEN; auto.
    + intros c q H. apply GG in H. rewrite gauss_clear in H by apply W. exact H.
    + intros c q H. apply (draw_lasting s (n_clear (m_ndt m)) g c q W1 P S D EG H).
  - destruct MB as (ns & Ens & EC). unfold getPclMap. rewrite EC. apply SEEN; auto.
    + intros c q H. apply GH in H. rewrite gauss_new in H. exact H.
    + intros c q H. apply (draw_lasting s (m_ndt (m_new dflt)) h c q W2 eq_refl eq_refl D EH H).
Qed.

Notation mstep := (mstep merge dflt tcell occRay rawOcc btw tp).
Theorem redraw_points ops m s t : mreach ops m -> Permutation (m_frames m) s -> chronological s ->
  distinct_times s -> s <> [] -> (forall f, In f s -> drawable f) ->
  exists m' mb, mstep m (MRecalc s t) m' /\ build s = Ok mb /\
    (forall s' t' m'', mstep m (MRecalc s' t') m'' ->
       s' = s /\ same_map m'' m' ) /\
    (forall p, In p (getPclMap m') -> exists c q, drawn s c = Some q /\ p = tp (btw world world) q) /\
    (forall c q, lasting s c q -> In (tp (btw world world) q) (getPclMap m')) /\
    (undisturbed s -> forall p,
       (In p (getPclMap m') <-> exists c q, drawn s c = Some q /\ p = tp (btw world world) q) /\
       (In p (getPclMap mb) <-> In p (getPclMap m'))).
Proof using OO DG.
  intros R PE CH D NE DR. rewrite chrono_sorted in CH.
  assert (SS : std_sorted (m_frames m) s) by (split; assumption).
  destruct (redraw_cloud ops m s t R SS NE DR) as (m' & mb & E & B & C).
  exists m', mb. split; [apply step_recalc; assumption|]. split; [exact B|]. split.
  - intros s' t' m'' H. inversion H as [|? ? ? SS' E'|]; subst.
    assert (EQ : s = s').
    { apply sorted_unique; [|exact CH|apply SS'|exact D].
      eapply perm_trans; [apply Permutation_sym; exact PE|apply SS']. }
    subst s'. split; [reflexivity|].
    destruct (minv_reach merge dflt tcell occRay rawOcc btw tp ops m R) as (W & _).
    apply (redraw_same merge dflt tcell occRay rawOcc btw tp m m s t' t m'' m' W W eq_refl eq_refl);
      [repeat split|reflexivity|exact E'|exact E].
  - split; [intro p; apply (C m' (or_introl eq_refl))|].
    split; [intros c q H; exact (proj2 (C m' (or_introl eq_refl) _) c q H eq_refl)|].
    intros U p. assert (EX : forall mm, mm = m' \/ mm = mb -> (In p (getPclMap mm) <->
       exists c q, drawn s c = Some q /\ p = tp (btw world world) q)).
    { intros mm M. split; [apply (C mm M)|]. intros (c & q & H & Y). apply (proj2 (C mm M p) c q); [|exact Y].
      apply undisturbed_lasting; assumption. }
    rewrite (EX m'), (EX mb); auto. split; reflexivity.
Qed.
End Draw.
