(** Histories of the mapper: what a redraw depends on. *)
From Coq Require Import List ZArith QArith Qround Qabs Lqa Lia Bool
  Sorting.Permutation Sorting.Sorted.
From Verif Require Import Base QLemmas VoxelModel VoxelSpec VoxelProofs VoxelOps VoxelAdd VoxelRay
  GridModel GridSpec GridProofs GridOps MapModel MapSpec MapProofs.
Import ListNotations.
Open Scope nat_scope.

Section Hist.
Context {X L : Type}.
Notation cell := (ncell X).
Notation grid := (ngrid X).
Variable merge : cell -> cell -> cell.
Variable dflt : cell.
Variable tcell : qtrans L -> cell -> cell.
Variable occRay : cell -> point -> cell -> cell.
Variable rawOcc : cell -> Q.
Variable btw : qpose -> qpose -> qtrans L.
Variable tp : qtrans L -> point -> point.

Notation addToMap := (addToMap merge dflt tcell occRay btw tp).
Notation recalc := (recalc merge dflt tcell occRay rawOcc btw tp).
Notation addFrame := (addFrame merge dflt tcell occRay rawOcc btw tp).
Notation mreach := (mreach merge dflt tcell occRay rawOcc btw tp).
Notation mstep := (mstep merge dflt tcell occRay rawOcc btw tp).

(** The effect of one frame on the voxels of a map at [pose]. *)
Definition boxOf (l : list cell) : Q * Q * Q * Q := bbox (map nc_mean l).
Definition mergeVox (pose : qpose) (v : vgrid cell) (f : grid) : res (vgrid cell) :=
  let tr := btw (n_pose f) pose in
  let l := map (tcell tr) (getValidCells (n_vox f)) in
  do v1 <- foldM (traceCell dflt occRay (tp tr (0, 0)%Q)) l v;
  do v2 <- enlarge v1 (fst (fst (fst (boxOf l)))) (snd (fst (fst (boxOf l))))
                      (snd (fst (boxOf l))) (snd (boxOf l));
  foldM (fun v c => if nc_gauss c then addCell merge v (nc_mean c) c false else Ok v) l v2.

Definition drawn_on (g : grid) (v : vgrid cell) : grid :=
  updateMeans (mkN (n_pose g) (n_cs g) true (n_time g) v (n_means g)).

Lemma addToMap_vox (g f : grid) :
  addToMap g f = do v <- mergeVox (n_pose g) (n_vox g) f; Ok (drawn_on g v).
Proof.
  unfold MapModel.addToMap, mergeInTraced, mergeVox. cbv zeta.
  unfold transformNDTCells.
  set (l := map _ _). destruct (foldM _ l (n_vox g)) as [v1| |]; cbn [bind]; try reflexivity.
  unfold mergeInCells. cbn [orb n_vox with_vox]. unfold boxOf.
  destruct (bbox (map nc_mean l)) as [[[x0 y0] x1] y1]. cbn [fst snd].
  destruct (enlarge v1 x0 y0 x1 y1) as [v2| |]; cbn [bind]; try reflexivity.
Qed.

Lemma fold_vox fs : forall g : grid,
  foldM addToMap fs g =
  match fs with
  | [] => Ok g
  | _ => do v <- foldM (mergeVox (n_pose g)) fs (n_vox g); Ok (drawn_on g v)
  end.
Proof.
  induction fs as [|f t IH]; intro g; [reflexivity|].
  cbn [foldM]. rewrite addToMap_vox.
  destruct (mergeVox (n_pose g) (n_vox g) f) as [v| |]; cbn [bind]; try reflexivity.
  rewrite IH. change (n_pose (drawn_on g v)) with (n_pose g).
  change (n_vox (drawn_on g v)) with v.
  destruct t as [|f' t']; [cbn [foldM bind]; reflexivity|].
  destruct (foldM (mergeVox (n_pose g)) (f' :: t') v) as [w| |]; reflexivity.
Qed.

Lemma stable_trace s e : stable (fun v => traceCell dflt occRay s v e).
Proof.
  apply stable_cells. intros v v' E. unfold traceCell in E. destruct (nc_gauss e).
  2: { injection E as <-. exists (cells v). split; [destruct v; reflexivity|reflexivity]. }
  apply bind_ok_inv in E. destruct E as (r & ER & E).
  destruct (rayTrace_cells dflt v s (nc_mean e) r ER) as (l & EL & LL).
  unfold occSlots in E. apply bind_ok_inv in E. destruct E as (l' & EF & E).
  injection E as <-. rewrite EL in EF |- *. exists l'. split; [reflexivity|].
  rewrite <- LL. cbn [cells with_cells] in EF. clear ER EL LL.
  set (slots := snd r) in *. clearbody slots. revert l EF.
  induction slots as [|i t IH]; intros l EF.
  - injection EF as <-. reflexivity.
  - cbn [foldM] in EF. apply bind_ok_inv in EF. destruct EF as (l1 & E1 & EF).
    apply IH in EF. rewrite EF. apply bind_ok_inv in E1. destruct E1 as ([c|] & _ & E1); [|discriminate].
    unfold vset in E1. destruct (i <? length l); [|discriminate]. injection E1 as <-.
    apply length_upd.
Qed.
Lemma stable_mergeVox pose f : stable (fun v => mergeVox pose v f).
Proof.
  unfold mergeVox. cbv zeta. set (l := map _ _). set (s := tp _ _).
  apply (stable_bind (foldM (traceCell dflt occRay s) l)).
  - apply stable_foldM. intros e _. apply stable_trace.
  - apply (stable_bind (fun v => enlarge v _ _ _ _)); [apply stable_enlarge|].
    apply stable_foldM. intros c _. destruct (nc_gauss c); [|apply stable_ok].
    apply stable_addCell.
Qed.
Lemma stable_frames pose fs : stable (foldM (mergeVox pose) fs).
Proof. apply stable_foldM. intros f _. apply stable_mergeVox. Qed.

Lemma traceCell_alike s e a b : alike a b ->
  likeR alike (traceCell dflt occRay s a e) (traceCell dflt occRay s b e).
Proof.
  intro H. unfold traceCell. destruct (nc_gauss e); [|exact H].
  eapply likeR_bind; [apply rayTrace_alike; exact H|].
  intros [a' p] [b' q] [A E]. cbn [fst snd] in A, E. subst q. cbn [fst snd]. unfold occSlots.
  assert (EC : cells b' = cells a') by (destruct A as [n ->]; reflexivity). rewrite EC.
  destruct (foldM _ p (cells a')); cbn; auto. apply alike_cells. exact A.
Qed.
Lemma mergeVox_alike pose f a b : alike a b ->
  likeR alike (mergeVox pose a f) (mergeVox pose b f).
Proof.
  intro H. unfold mergeVox. cbv zeta.
  eapply likeR_bind; [apply likeR_foldM; [intros; apply traceCell_alike; assumption|exact H]|].
  intros x y XY. eapply likeR_bind; [apply enlarge_alike; exact XY|].
  intros x' y' XY'. apply likeR_foldM; [|exact XY'].
  intros u w c _ UW. destruct (nc_gauss c); [|exact UW]. apply addCell_alike. exact UW.
Qed.
Lemma frames_alike pose fs a b : alike a b ->
  likeR alike (foldM (mergeVox pose) fs a) (foldM (mergeVox pose) fs b).
Proof. intro H. apply likeR_foldM; [|exact H]. intros. apply mergeVox_alike. assumption. Qed.

(** Cleared maps of the same window differ only in the counter. *)
Lemma map_none {A} (l l' : list (option A)) : length l = length l' ->
  map (fun _ => None) l = map (fun _ : option A => @None A) l'.
Proof.
  revert l'. induction l as [|x t IH]; intros [|y t'] E; try discriminate; [reflexivity|].
  cbn [map]. f_equal. apply IH. injection E as E. exact E.
Qed.
Lemma clear_window (a b : vgrid cell) : wf a -> wf b -> fixedw a b -> alike (clear a) (clear b).
Proof.
  intros [_ A] [_ B] F. exists (n_valid b). unfold clear, with_valid, with_cells.
  destruct a as [ca la ra ua da va xa], b as [cb lb rb ub db vb xb].
  cbn in *. destruct F as (F1 & F2 & F3 & F4 & F5). cbn in *. subst.
  f_equal. apply map_none. rewrite A, B. reflexivity.
Qed.

(** The published part as a function of the map's voxels *)
Lemma occ_alike (g h : grid) : n_pose g = n_pose h -> n_cs g = n_cs h -> alike (n_vox g) (n_vox h) ->
  createOccupancyGrid rawOcc btw tp g = createOccupancyGrid rawOcc btw tp h.
Proof.
  intros P S [n E]. unfold createOccupancyGrid. rewrite E, P, S. reflexivity.
Qed.
Lemma cells_alike (g h : grid) : alike (n_vox g) (n_vox h) ->
  getGaussianCells h = getGaussianCells g.
Proof. intros [n E]. unfold getGaussianCells. rewrite E. reflexivity. Qed.

(** ** Invariant of all histories *)
Definition minv (m : mapper X) : Prop :=
  nwf (m_ndt m) /\ n_pose (m_ndt m) = world /\ n_cs (m_ndt m) = map_res /\
  (m_frames m = [] \/ exists ms, n_means (m_ndt m) = Some ms) /\
  (m_frames m = [] -> n_means (m_ndt m) = None).

Lemma fold_inv fs (g g' : grid) : nwf g -> foldM addToMap fs g = Ok g' ->
  nwf g' /\ n_pose g' = n_pose g /\ n_cs g' = n_cs g /\ n_time g' = n_time g /\
  grows (n_vox g) (n_vox g') /\
  (fs = [] /\ g' = g \/ n_means g' = Some (map nc_mean (getGaussianCells g'))).
Proof.
  intros [W S] E. rewrite fold_vox in E. destruct fs as [|f t].
  - injection E as <-. split; [split; assumption|]. split; [reflexivity|]. split; [reflexivity|].
    split; [reflexivity|]. split; [apply vgrows_refl|]. left. auto.
  - apply bind_ok_inv in E. destruct E as (v & EV & E). injection E as <-.
    destruct (stable_frames (n_pose g) (f :: t) (n_vox g) v W EV) as (WV & GV & _).
    split; [split; [exact WV|]; cbn; destruct GV; congruence|].
    split; [reflexivity|]. split; [reflexivity|]. split; [reflexivity|].
    split; [exact GV|]. right. reflexivity.
Qed.

Lemma means_some (g : grid) ms : getMeansTransformed btw tp g = Ok ms ->
  exists l, n_means g = Some l /\ ms = map (tp (btw (n_pose g) world)) l.
Proof.
  unfold getMeansTransformed. destruct (n_means g) as [l|]; [|discriminate].
  intro E. injection E as <-. exists l. auto.
Qed.

Lemma minv_step m o m' : minv m -> mstep m o m' -> minv m'.
Proof.
  intros (W & P & S & M & N) H. destruct H as [f ts m' E|s t m' SS E|fs LE].
  - unfold MapModel.addFrame in E. apply bind_ok_inv in E. destruct E as (g & EG & E).
    apply bind_ok_inv in E. destruct E as (ms & EM & E). injection E as <-.
    assert (F : foldM addToMap [f] (m_ndt m) = Ok g) by (cbn [foldM]; rewrite EG; reflexivity).
    destruct (fold_inv [f] (m_ndt m) g W F) as (W' & P' & S' & _ & _ & _).
    destruct (means_some _ _ EM) as (l & El & _).
    unfold minv. cbn [m_ndt m_frames]. split; [exact W'|]. split; [congruence|].
    split; [congruence|]. split; [right; eauto|]. intro K. apply app_eq_nil in K. destruct K; discriminate.
  - unfold MapModel.recalc in E. apply bind_ok_inv in E. destruct E as (g & EG & E).
    apply bind_ok_inv in E. destruct E as (ms & EM & E). injection E as <-.
    assert (WC : nwf (n_clear (m_ndt m))).
    { destruct W as [W0 W1]. split; [apply clear_spec; exact W0|]. cbn. exact W1. }
    destruct (fold_inv s (n_clear (m_ndt m)) g WC EG) as (W' & P' & S' & _ & _ & K).
    destruct (means_some _ _ EM) as (l & El & _).
    unfold minv. cbn [m_ndt m_frames]. split; [exact W'|].
    split; [rewrite P'; exact P|]. split; [rewrite S'; exact S|].
    split; [right; eauto|]. intros ->. destruct SS as [SP _]. apply Permutation_sym, Permutation_nil in SP.
    destruct K as [[_ ->]|K]; [cbn; apply N; exact SP|].
    exfalso. cbn in EG. injection EG as <-. cbn in K. rewrite (N SP) in K. discriminate.
  - unfold minv. cbn [m_ndt m_frames]. split; [exact W|]. split; [exact P|]. split; [exact S|].
    split.
    + destruct M as [M|M]; [left|right; exact M]. rewrite M in LE. destruct fs; [reflexivity|discriminate].
    + intro K. apply N. subst fs. destruct (m_frames m); [reflexivity|discriminate].
Qed.
Lemma minv_reach ops m : mreach ops m -> minv m.
Proof.
  induction 1 as [|ops m o m' _ IH ST]; [|eapply minv_step; eauto].
  unfold minv, m_new. cbn. split; [split; [split; reflexivity|reflexivity]|].
  split; [reflexivity|]. split; [reflexivity|]. split; [left; reflexivity|reflexivity].
Qed.

(** ** A redraw depends on the frames and the extent only *)
Lemma same_map_of (a b : mapper X) : m_occ a = m_occ b -> m_cloud a = m_cloud b -> same_map a b.
Proof.
  intros O M. unfold same_map, calcOccupancyGridMsg, getPclMap. cbv zeta.
  cbn [om_height om_width om_res om_origin om_yaw om_data]. rewrite O, M. repeat split.
Qed.

Lemma redraw_same a b fs ta tb a' b' :
  nwf (m_ndt a) -> nwf (m_ndt b) -> n_pose (m_ndt a) = n_pose (m_ndt b) ->
  n_cs (m_ndt a) = n_cs (m_ndt b) -> same_extent a b ->
  (fs = [] -> n_means (m_ndt a) = n_means (m_ndt b)) ->
  recalc a fs ta = Ok a' -> recalc b fs tb = Ok b' ->
  same_map a' b' /\ alike (n_vox (m_ndt a')) (n_vox (m_ndt b')).
Proof.
  intros [WA SA] [WB SB] P S F NE EA EB. unfold MapModel.recalc in EA, EB.
  apply bind_ok_inv in EA. destruct EA as (g & EG & EA).
  apply bind_ok_inv in EA. destruct EA as (ms & EM & EA). injection EA as <-.
  apply bind_ok_inv in EB. destruct EB as (h & EH & EB).
  apply bind_ok_inv in EB. destruct EB as (ns & EN & EB). injection EB as <-.
  pose proof (clear_window _ _ WA WB F) as AL.
  rewrite fold_vox in EG, EH. cbn [n_clear n_pose n_vox m_ndt] in *. rewrite P in EG.
  assert (K : n_pose g = n_pose h /\ n_cs g = n_cs h /\ alike (n_vox g) (n_vox h) /\
              n_means g = n_means h).
  { destruct fs as [|f t].
    - injection EG as <-. injection EH as <-. cbn. split; [exact P|]. split; [exact S|].
      split; [exact AL|]. apply NE. reflexivity.
    - pose proof (frames_alike (n_pose (m_ndt b)) (f :: t) _ _ AL) as LK.
      apply bind_ok_inv in EG. destruct EG as (v & EV & EG). injection EG as <-.
      apply bind_ok_inv in EH. destruct EH as (w & EW & EH). injection EH as <-.
      rewrite EV, EW in LK. cbn [likeR] in LK. cbn [drawn_on updateMeans n_pose n_cs n_vox n_means n_clear].
      split; [exact P|]. split; [exact S|]. split; [exact LK|].
      f_equal. f_equal. symmetry. apply (cells_alike (mkN _ _ true _ v _) (mkN _ _ true _ w _)). exact LK. }
  destruct K as (K1 & K2 & K3 & K4). split; [|exact K3].
  apply same_map_of; cbn [m_occ m_cloud].
  - apply occ_alike; assumption.
  - unfold getMeansTransformed in EM, EN. rewrite K4 in EM. destruct (n_means h); [|discriminate].
    injection EM as <-. injection EN as <-. rewrite K1. reflexivity.
Qed.

Lemma redraw_ok a b fs ta tb a' :
  nwf (m_ndt a) -> nwf (m_ndt b) -> n_pose (m_ndt a) = n_pose (m_ndt b) ->
  same_extent a b -> (fs = [] -> n_means (m_ndt a) = n_means (m_ndt b)) ->
  recalc a fs ta = Ok a' -> exists b', recalc b fs tb = Ok b'.
Proof.
  intros [WA SA] [WB SB] P F NE EA. unfold MapModel.recalc in EA |- *.
  apply bind_ok_inv in EA. destruct EA as (g & EG & EA).
  apply bind_ok_inv in EA. destruct EA as (ms & EM & EA).
  pose proof (clear_window _ _ WA WB F) as AL.
  rewrite fold_vox in EG |- *. cbn [n_clear n_pose n_vox m_ndt] in *. rewrite P in EG.
  destruct fs as [|f t].
  - cbn [bind]. injection EG as <-. unfold getMeansTransformed in *. cbn [n_clear n_means] in *.
    rewrite <- (NE eq_refl). destruct (n_means (m_ndt a)); [|discriminate]. eexists. reflexivity.
  - pose proof (frames_alike (n_pose (m_ndt b)) (f :: t) _ _ AL) as LK.
    apply bind_ok_inv in EG. destruct EG as (v & EV & EG).
    rewrite EV in LK. destruct (foldM _ (f :: t) (clear (n_vox (m_ndt b)))) as [w| |];
      cbn [likeR] in LK; try contradiction. eexists. reflexivity.
Qed.

(** ** Redrawing settles after one redraw *)
Lemma recalc_window m fs t m' : nwf (m_ndt m) -> recalc m fs t = Ok m' ->
  nwf (m_ndt m') /\ n_pose (m_ndt m') = n_pose (m_ndt m) /\ n_cs (m_ndt m') = n_cs (m_ndt m) /\
  m_frames m' = fs /\
  forall k t' k', nwf (m_ndt k) -> n_pose (m_ndt k) = n_pose (m_ndt m) ->
    grows (n_vox (m_ndt m')) (n_vox (m_ndt k)) -> recalc k fs t' = Ok k' -> same_extent k k'.
Proof.
  intros [W S] E. unfold MapModel.recalc in E.
  apply bind_ok_inv in E. destruct E as (g & EG & E).
  apply bind_ok_inv in E. destruct E as (ms & EM & E). injection E as <-. cbn [m_ndt m_frames].
  assert (WC : nwf (n_clear (m_ndt m))).
  { split; [apply clear_spec; exact W|]. cbn. exact S. }
  destruct (fold_inv fs (n_clear (m_ndt m)) g WC EG) as (W' & P' & S' & _ & _ & _).
  split; [exact W'|]. split; [exact P'|]. split; [exact S'|]. split; [reflexivity|].
  intros k t' k' [Wk Sk] Pk Gk Ek. unfold MapModel.recalc in Ek.
  apply bind_ok_inv in Ek. destruct Ek as (h & EH & Ek).
  apply bind_ok_inv in Ek. destruct Ek as (ns & EN & Ek). injection Ek as <-.
  unfold same_extent. cbn [m_ndt].
  rewrite fold_vox in EG, EH. cbn [n_clear n_pose n_vox] in EG, EH.
  destruct fs as [|f l].
  - injection EH as <-. cbn. repeat split.
  - apply bind_ok_inv in EG. destruct EG as (v & EV & EG). injection EG as <-.
    apply bind_ok_inv in EH. destruct EH as (w & EW & EH). injection EH as <-.
    rewrite Pk in EW.
    destruct (stable_frames (n_pose (m_ndt m)) (f :: l) _ v (proj1 WC) EV) as (_ & _ & ST).
    exact (ST (clear (n_vox (m_ndt k))) w ltac:(apply clear_spec; exact Wk) Gk EW).
Qed.

Lemma recalc_settles m fs t1 t2 t3 m1 m2 : nwf (m_ndt m) ->
  recalc m fs t1 = Ok m1 -> recalc m1 fs t2 = Ok m2 ->
  exists m3, recalc m2 fs t3 = Ok m3 /\ same_map m2 m3 /\ same_extent m1 m2.
Proof.
  intros W E1 E2.
  destruct (recalc_window m fs t1 m1 W E1) as (W1 & P1 & S1 & _ & K).
  assert (X12 : same_extent m1 m2).
  { apply (K m1 t2 m2 W1 P1); [apply vgrows_refl|exact E2]. }
  destruct (recalc_window m1 fs t2 m2 W1 E2) as (W2 & P2 & S2 & _ & _).
  assert (NE : fs = [] -> n_means (m_ndt m1) = n_means (m_ndt m2)).
  { intros ->. unfold MapModel.recalc in E2. cbn [foldM bind] in E2.
    apply bind_ok_inv in E2. destruct E2 as (ms & EM & E2). injection E2 as <-. reflexivity. }
  destruct (redraw_ok m1 m2 fs t2 t3 m2 W1 W2 (eq_sym P2) X12 NE E2) as (m3 & E3).
  exists m3. split; [exact E3|]. split; [|exact X12].
  apply (redraw_same m1 m2 fs t2 t3 m2 m3 W1 W2 (eq_sym P2) (eq_sym S2) X12 NE E2 E3).
Qed.

(** The order of frames with different time stamps is unique. *)
Lemma distinct_in (f g : grid) l : distinct_times (f :: l) -> In g l -> ~ (n_time f == n_time g)%Q.
Proof. intros [H _]. apply H. Qed.
Lemma sorted_unique (s1 : list grid) : forall s2, Permutation s1 s2 ->
  StronglySorted earlier s1 -> StronglySorted earlier s2 -> distinct_times s1 -> s1 = s2.
Proof.
  induction s1 as [|a t1 IH]; intros s2 P O1 O2 D.
  - apply Permutation_nil in P. congruence.
  - destruct s2 as [|b t2]; [apply Permutation_sym, Permutation_nil in P; discriminate|].
    assert (AB : a = b).
    { assert (IB : In b (a :: t1)) by (eapply Permutation_in; [apply Permutation_sym; exact P|left; reflexivity]).
      assert (IA : In a (b :: t2)) by (eapply Permutation_in; [exact P|left; reflexivity]).
      destruct IB as [E|IB]; [exact E|]. destruct IA as [E|IA]; [symmetry; exact E|]. exfalso.
      apply StronglySorted_inv in O1, O2. destruct O1 as [_ O1], O2 as [_ O2].
      rewrite Forall_forall in O1, O2. apply (distinct_in a b t1 D IB).
      apply Qle_antisym; [apply O1; exact IB|apply O2; exact IA]. }
    subst b. f_equal. apply IH.
    + eapply Permutation_cons_inv. exact P.
    + apply StronglySorted_inv in O1. apply O1.
    + apply StronglySorted_inv in O2. apply O2.
    + apply D.
Qed.
Lemma distinct_perm (l l' : list grid) : Permutation l l' -> distinct_times l -> distinct_times l'.
Proof.
  induction 1 as [|x l l' P IH|x y l|l l' l'' P1 IH1 P2 IH2]; intro D.
  - exact D.
  - destruct D as [D1 D2]. split; [|auto]. intros f Hf. apply D1.
    eapply Permutation_in; [apply Permutation_sym; exact P|exact Hf].
  - destruct D as [D1 [D2 D3]]. split.
    + intros f [<-|Hf].
      * intro E. apply (D1 x); [left; reflexivity|]. symmetry. exact E.
      * apply D2. exact Hf.
    + split; [|exact D3]. intros f Hf. apply D1. right. exact Hf.
  - auto.
Qed.

Theorem third_redraw ops m s1 t1 m1 s2 t2 m2 s3 t3 : mreach ops m -> distinct_times (m_frames m) ->
  mstep m (MRecalc s1 t1) m1 -> mstep m1 (MRecalc s2 t2) m2 ->
  std_sorted (m_frames m2) s3 ->
  exists m3, recalc m2 s3 t3 = Ok m3 /\ same_map m2 m3.
Proof.
  intros R D H1 H2 S3. inversion H1 as [|? ? ? SS1 E1|]; subst. inversion H2 as [|? ? ? SS2 E2|]; subst.
  destruct (minv_reach _ _ R) as (W & _).
  destruct (recalc_window m s1 t1 m1 W E1) as (W1 & _ & _ & F1 & _).
  destruct (recalc_window m1 s2 t2 m2 W1 E2) as (W2 & _ & _ & F2 & _).
  rewrite F1 in SS2. rewrite F2 in S3. clear F1 F2.
  assert (D1 : distinct_times s1) by (eapply distinct_perm; [apply SS1|exact D]).
  assert (E : s1 = s2) by (apply sorted_unique; [apply SS2|apply SS1|apply SS2|exact D1]). subst s2.
  assert (E' : s1 = s3) by (apply sorted_unique; [apply S3|apply SS1|apply S3|exact D1]). subst s3.
  destruct (recalc_settles m s1 t1 t2 t3 m1 m2 W E1 E2) as (m3 & E3 & SM & _). eauto.
Qed.

Theorem redraw_extent opsa a opsb b sa sb ta tb a' b' : mreach opsa a -> mreach opsb b ->
  Permutation (m_frames a) (m_frames b) -> distinct_times (m_frames a) -> same_extent a b ->
  mstep a (MRecalc sa ta) a' -> mstep b (MRecalc sb tb) b' -> same_map a' b'.
Proof.
  intros RA RB P D F HA HB. inversion HA as [|? ? ? SA EA|]; subst. inversion HB as [|? ? ? SB EB|]; subst.
  destruct (minv_reach _ _ RA) as (WA & PA & CA & _ & NA).
  destruct (minv_reach _ _ RB) as (WB & PB & CB & _ & NB).
  assert (D1 : distinct_times sa) by (eapply distinct_perm; [apply SA|exact D]).
  assert (E : sa = sb).
  { apply sorted_unique; [|apply SA|apply SB|exact D1].
    destruct SA as [SA _], SB as [SB _]. eapply perm_trans; [apply Permutation_sym; exact SA|].
    eapply perm_trans; [exact P|exact SB]. }
  subst sb. apply (redraw_same a b sa ta tb a' b' WA WB ltac:(congruence) ltac:(congruence) F); auto.
  intros ->. rewrite NA, NB; [reflexivity| |].
  - destruct SB as [SB _]. apply Permutation_nil. apply Permutation_sym. exact SB.
  - destruct SA as [SA _]. apply Permutation_nil. apply Permutation_sym. exact SA.
Qed.

(** ** Order and bookkeeping of the frames *)
Lemma chrono_sorted (s : list grid) : chronological s <-> StronglySorted earlier s.
Proof.
  induction s as [|f t IH]; split; intro H; try constructor.
  - apply IH. apply H.
  - apply Forall_forall. apply H.
  - apply StronglySorted_inv in H. destruct H as [_ H]. rewrite Forall_forall in H. exact H.
  - apply IH. apply StronglySorted_inv in H. apply H.
Qed.
Lemma frames_given ops m : mreach ops m -> untouched ops -> Permutation (given ops) (m_frames m).
Proof.
  induction 1 as [|ops m o m' R IH ST]; intro U; [constructor|].
  assert (U' : untouched ops) by (intros fs H; apply (U fs); apply in_or_app; left; exact H).
  specialize (IH U'). unfold given. rewrite flat_map_app. fold (given ops).
  destruct ST as [f ts m' E|s t m' SS E|fs LE]; cbn [flat_map].
  - unfold MapModel.addFrame in E. apply bind_ok_inv in E. destruct E as (g & _ & E).
    apply bind_ok_inv in E. destruct E as (ms & _ & E). injection E as <-. cbn [m_frames app].
    apply Permutation_app_tail. exact IH.
  - unfold MapModel.recalc in E. apply bind_ok_inv in E. destruct E as (g & _ & E).
    apply bind_ok_inv in E. destruct E as (ms & _ & E). injection E as <-. cbn [m_frames].
    rewrite app_nil_r. eapply perm_trans; [exact IH|apply SS].
  - exfalso. apply (U fs). apply in_or_app. right. left. reflexivity.
Qed.
Lemma redraw_time ops m : mreach ops m -> om_time (calcOccupancyGridMsg m) = last_redraw ops.
Proof.
  induction 1 as [|ops m o m' R IH ST]; [reflexivity|].
  unfold last_redraw. rewrite fold_left_app. fold (last_redraw ops). cbn [fold_left].
  cbn [calcOccupancyGridMsg om_time] in IH |- *. rewrite <- IH.
  destruct ST as [f ts m' E|s t m' SS E|fs LE]; [| |reflexivity].
  - unfold MapModel.addFrame in E. apply bind_ok_inv in E. destruct E as (g & _ & E).
    apply bind_ok_inv in E. destruct E as (ms & _ & E). injection E as <-. reflexivity.
  - unfold MapModel.recalc in E. apply bind_ok_inv in E. destruct E as (g & _ & E).
    apply bind_ok_inv in E. destruct E as (ms & _ & E). injection E as <-. reflexivity.
Qed.

(** Redrawing before the first frame dereferences a null pointer. *)
Lemma recalc_empty ops m t : mreach ops m -> m_frames m = [] -> recalc m [] t = UB.
Proof.
  intros R E. destruct (minv_reach _ _ R) as (_ & _ & _ & _ & N).
  unfold MapModel.recalc. cbn [foldM bind]. unfold getMeansTransformed. cbn [n_clear n_means].
  rewrite (N E). reflexivity.
Qed.
End Hist.
