(** Proofs for C148. *)
From Coq Require Import Reals Qreals List ZArith QArith Qround Bool Arith Lia Sorting.Permutation Sorting.Sorted.
From Verif Require Import Base LinAlg3 GeoModel GraphModel LoopModel SlamModel AlgModel NodeModel.
From Verif Require Import VoxelModel GridModel MapModel ExportModel SysModel RunModel RetimeSpec.
Import ListNotations.
Open Scope nat_scope.

Section Run.
Context {X Guess D : Type}.
Notation cell := (ncell X).
Notation body := (res (ngrid X)).
Notation msg := (nmsg (option point)).
Variable merge : cell -> cell -> cell.
Variable dflt : cell.
Variable tcell : qt -> cell -> cell.
Variable occRay : cell -> point -> cell -> cell.
Variable rawOcc : cell -> Q.
Variable btw : qpose -> qpose -> qt.
Variable tp : qt -> point -> point.
Variable dbl : R -> Q.
Variable oob : option bool.
Variable ser : bool.
Variable env : aenv body body (option point) Guess D.
Variable g : Z -> Z.
Hypothesis G : forward g.
Notation addToMap := (addToMap merge dflt tcell occRay btw tp).
Notation addFrame := (addFrame merge dflt tcell occRay rawOcc btw tp).
Notation recalc := (recalc merge dflt tcell occRay rawOcc btw tp).
Notation drawMap := (drawMap merge dflt tcell occRay rawOcc btw tp dbl).
Notation ystep := (ystep merge dflt tcell occRay rawOcc btw tp dbl env).
Notation rstep := (rstep merge dflt tcell occRay rawOcc btw tp dbl oob ser env).
Notation rreach := (rreach merge dflt tcell occRay rawOcc btw tp dbl oob ser env).
Notation frameNow := (frameNow dbl).
Notation topics := (topics dflt btw tp oob ser).

Definition f (q : Q) : Q := inject_Z (g (Qfloor q)).
Lemma f_Z z : f (inject_Z z) = inject_Z (g z).
Proof using Type. unfold f. rewrite Qfloor_Z. reflexivity. Qed.
Lemma f_mono a b : (a <= b)%Q -> (f a <= f b)%Q.
Proof using G. intro H. unfold f. rewrite <- Zle_Qle. apply G, Qfloor_resp_le, H. Qed.
Definition retag (k : nat * Q) : nat * Q := (fst k, f (snd k)).
Definition restamp (x : ngrid X) : ngrid X := n_setTimestamp x (f (n_time x)).

Lemma add_restamp x y : addToMap x (restamp y) = addToMap x y.
Proof using Type. reflexivity. Qed.
Lemma fold_restamp l : forall x, foldM addToMap (map restamp l) x = foldM addToMap l x.
Proof using Type. induction l as [|y l IH]; intro x; cbn [foldM map]; [reflexivity|]. rewrite add_restamp. destruct (addToMap x y); cbn; auto. Qed.

(** the mapper but for its stamp and those of its frames *)
Definition msim (m m' : mapper X) : Prop :=
  m_ndt m' = m_ndt m /\ m_occ m' = m_occ m /\ m_cloud m' = m_cloud m /\ stamp g (m_time m) (m_time m').
Lemma addFrame_sim m m' x ts ts' r : msim m m' -> addFrame m x ts = Ok r -> exists r', addFrame m' x ts' = Ok r' /\ msim r r'.
Proof using Type.
  intros (N & _ & _ & T) H. unfold MapModel.addFrame in *. rewrite N. destruct (addToMap (m_ndt m) x) as [v| |]; cbn [bind] in *; try discriminate.
  destruct (getMeansTransformed btw tp v) as [ms| |]; cbn [bind] in *; try discriminate. injection H as <-.
  eexists. split; [reflexivity|]. repeat split. exact T.
Qed.
Lemma recalc_sim m m' l ts ts' r : msim m m' -> stamp g ts ts' -> recalc m l ts = Ok r ->
  exists r', recalc m' (map restamp l) ts' = Ok r' /\ msim r r'.
Proof using Type.
  intros (N & _ & _ & _) T H. unfold MapModel.recalc in *. rewrite N, fold_restamp. destruct (foldM addToMap l _) as [v| |]; cbn [bind] in *; try discriminate.
  destruct (getMeansTransformed btw tp v) as [ms| |]; cbn [bind] in *; try discriminate. injection H as <-.
  eexists. split; [reflexivity|]. repeat split. exact T.
Qed.
Lemma frameNow_sim a k x : frameNow a k = Ok x -> frameNow a (retag k) = Ok (restamp x).
Proof using Type.
  unfold SysModel.frameNow. intro H. cbn [retag fst snd]. destruct (getPoseData (a_slam a) (fst k)) as [fr| |]; cbn [bind] in *; try discriminate.
  destruct (gridOf dbl fr) as [y| |]; cbn [bind] in *; try discriminate. injection H as <-. reflexivity.
Qed.
Lemma allOk_sim a l : forall fs, allOk (map (frameNow a) l) = Ok fs -> allOk (map (frameNow a) (map retag l)) = Ok (map restamp fs).
Proof using Type.
  induction l as [|k l IH]; intros fs H; cbn [map allOk] in *; [injection H as <-; reflexivity|].
  destruct (frameNow a k) as [x| |] eqn:E; cbn [bind] in H; try discriminate.
  destruct (allOk (map (frameNow a) l)) as [r| |] eqn:E2; cbn [bind] in H; try discriminate. injection H as <-.
  rewrite (frameNow_sim _ _ _ E). cbn [bind]. rewrite (IH _ eq_refl). reflexivity.
Qed.
Definition both (p : (nat * Q) * ngrid X) := (retag (fst p), restamp (snd p)).
Lemma combine_both l : forall fs, combine (map retag l) (map restamp fs) = map both (combine l fs).
Proof using Type. induction l as [|k l IH]; intros [|x fs]; cbn; [reflexivity..|]. rewrite IH. reflexivity. Qed.
Lemma sorted_restamp l : StronglySorted earlier l -> StronglySorted earlier (map restamp l).
Proof using G.
  induction 1 as [|x l S IH F]; cbn [map]; constructor; [exact IH|]. apply Forall_map. revert F. apply Forall_impl.
  intros y H. unfold earlier in *. cbn [restamp n_setTimestamp n_time]. apply f_mono, H.
Qed.

(** the system but for its stamps *)
Definition ysim (y y' : sys X) : Prop :=
  y_alg y' = y_alg y /\ msim (y_map y) (y_map y') /\ y_order y' = map retag (y_order y) /\ y_seq y' = y_seq y /\
  stamp g (y_time y) (y_time y').
Lemma drawMap_sim y y' a evs z m o : ysim y y' -> drawMap y a evs (inject_Z z) m o ->
  exists m', drawMap y' a evs (inject_Z (g z)) m' (map retag o) /\ msim m m'.
Proof using G.
  intros (A & M & O & _) H.
  assert (OZ : forall id, map retag (y_order y ++ [(id, inject_Z z)]) = y_order y' ++ [(id, inject_Z (g z))]).
  { intro id. rewrite map_app, O. cbn [map retag fst snd]. unfold retag at 2. cbn [fst snd]. rewrite f_Z. reflexivity. }
  destruct H as [N|id x m I NR F AF|id x m fs s m2 I IR F AF AO P S R].
  - exists (y_map y'). split; [|exact M]. rewrite <- O. apply draw_none, N.
  - destruct (addFrame_sim _ _ _ _ (inject_Z (g z)) _ M AF) as (m' & AF' & M'). exists m'. split; [|exact M'].
    rewrite OZ. eapply draw_add; eauto. rewrite A. exact F.
  - destruct (addFrame_sim _ _ _ _ (inject_Z (g z)) _ M AF) as (m' & AF' & M').
    destruct (recalc_sim _ _ _ _ (inject_Z (g z)) _ M' (or_introl (ex_intro _ z (conj eq_refl eq_refl))) R) as (m3 & R' & M3).
    exists m3. split; [|exact M3]. replace (map retag (map fst s)) with (map fst (map both s)) by (rewrite !map_map; reflexivity).
    eapply (draw_again _ _ _ _ _ _ _ _ _ _ _ _ id x m' (map restamp fs) (map both s)); eauto.
    + rewrite A. exact F.
    + rewrite <- OZ. apply allOk_sim, AO.
    + rewrite <- OZ, combine_both. apply Permutation_map, P.
    + replace (map snd (map both s)) with (map restamp (map snd s)) by (rewrite !map_map; reflexivity). apply sorted_restamp, S.
    + replace (map snd (map both s)) with (map restamp (map snd s)) by (rewrite !map_map; reflexivity). exact R'.
Qed.
Lemma ystep_sim y y' i z evs y2 : ysim y y' -> ystep y (mkYE i (inject_Z z) evs) y2 ->
  exists y2', ystep y' (mkYE i (inject_Z (g z)) evs) y2' /\ ysim y2 y2'.
Proof using G.
  intros S H. inversion H as [i0 ts a evs0 m o U DM]; subst. destruct (drawMap_sim _ _ _ _ _ _ _ S DM) as (m' & DM' & M').
  destruct S as (A & M & O & Q & T). eexists. split.
  - apply ystep_intro; [rewrite A; exact U|exact DM'].
  - rewrite Q. unfold ysim. cbn [y_alg y_map y_order y_seq y_time]. split; [reflexivity|]. split; [exact M'|]. split; [reflexivity|].
    assert (Z0 : stamp g (inject_Z z) (inject_Z (g z))) by (left; exists z; split; reflexivity).
    unfold tick. destruct (kindOf evs) as [[]|]; cbn [fst snd]; split; auto.
Qed.

Lemma topics_sim y y' o : ysim y y' -> topics y = Ok o -> exists o', topics y' = Ok o' /\ Forall2 (retimed g) o o'.
Proof using Type.
  intros (A & (N & OC & CL & T) & O & Q & TY) H. unfold RunModel.topics in *.
  destruct (getNDTMap dflt btw tp y) as [w| |] eqn:W; cbn [bind] in H; try discriminate.
  destruct (getPclMap2 dflt btw tp y) as [c| |] eqn:C; cbn [bind] in H; try discriminate.
  destruct (graphOut oob ser y) as [gr| |] eqn:GR; cbn [bind] in H; try discriminate. injection H as <-.
  assert (W' : exists t n m t', w = (t, n, m) /\ getNDTMap dflt btw tp y' = Ok (t', n, m) /\ stamp g t t').
  { unfold getNDTMap in *. rewrite A, Q. destruct (a_win (y_alg y)) as [b|].
    - destruct b as [x| |]; cbn [bind] in *; try discriminate. injection W as <-. eauto 10.
    - injection W as <-. eauto 10. }
  destruct W' as (t & n & m & t' & -> & W' & ST). rewrite W'. cbn [bind].
  replace (getPclMap2 dflt btw tp y') with (Ok c) by (rewrite <- C; unfold getPclMap2; rewrite A; reflexivity).
  replace (graphOut oob ser y') with (Ok gr) by (rewrite <- GR; unfold graphOut; rewrite A; reflexivity). cbn [bind].
  eexists. split; [reflexivity|]. cbn [app]. repeat apply Forall2_cons.
  - apply rt_win, ST.
  - unfold calcOccupancyGridMsg. rewrite OC. apply rt_map, T.
  - apply rt_wpcl.
  - unfold getPclMap. rewrite CL. apply rt_pcl.
  - unfold graphOut in GR. destruct ser; [|injection GR as <-; apply Forall2_nil].
    destruct (graphMarkers _ oob (a_slam (y_alg y))) as [l| |]; cbn [bind] in GR; try discriminate. injection GR as <-.
    apply Forall2_cons; [apply rt_graph|apply Forall2_nil].
Qed.

Definition rsim (r r' : run X) : Prop :=
  ysim (r_sys r) (r_sys r') /\ r_ready r' = r_ready r /\ r_odom r' = r_odom r /\ r_tf r' = r_tf r.
Lemma rstep_sim r r' m r2 o c : rsim r r' -> rstep r m r2 o c ->
  exists r2' o' c', rstep r' (retime g m) r2' o' c' /\ rsim r2 r2' /\ Forall2 (retimed g) o o' /\ Forall2 (recall g) c c'.
Proof using G.
  intros (S & RD & RO & RT) H. assert (P0 : prepareAllData (retime g m) = prepareAllData m) by reflexivity.
  assert (C1 : forall i evs, Forall2 (recall g) [@mkYE D i (inject_Z (ms_time m)) evs] [mkYE i (inject_Z (ms_time (retime g m))) evs]).
  { intros i evs. apply Forall2_cons; [|apply Forall2_nil]. split; [reflexivity|]. split; [reflexivity|]. left. exists (ms_time m). split; reflexivity. }
  destruct H as [P|odom pts i evs y' P R0 M SC Y|odom pts i evs y' p out P R0 M SC Y RR TP].
  - exists r', [RTf (g (ms_time m)) (r_tf r)], []. split; [rewrite <- RT; apply rstep_reject; exact P|].
    split; [split; auto|]. split; [apply Forall2_cons; [apply rt_tf|apply Forall2_nil]|apply Forall2_nil].
  - destruct (ystep_sim _ _ _ _ _ _ S Y) as (y2 & Y' & S').
    exists (mkRun y2 true odom (r_tf r')). eexists _, _. split; [eapply rstep_first; [exact P|congruence|exact M|exact SC|exact Y']|].
    split; [split; [exact S'|]; cbn; auto|]. rewrite RT. split; [apply Forall2_cons; [apply rt_tf|apply Forall2_nil]|apply C1].
  - destruct (ystep_sim _ _ _ _ _ _ S Y) as (y2 & Y' & S'). destruct (topics_sim _ _ _ S' TP) as (o' & TP' & F).
    exists (mkRun y2 true odom (Some (tfTrans odom p))). eexists _, _.
    split; [eapply rstep_next; [exact P|congruence|rewrite RO; exact M|exact SC|exact Y'|exact RR|exact TP']|].
    split; [split; [exact S'|]; cbn; auto|]. split; [apply Forall2_cons; [apply rt_tf|exact F]|apply C1].
Qed.

Lemma rreach_sim t h r : rreach t h r -> exists t' h' r', rreach t' h' r' /\ rsim r r' /\
  map fst t' = map (retime g) (map fst t) /\ Forall2 (Forall2 (retimed g)) (map snd t) (map snd t') /\ Forall2 (recall g) h h'.
Proof using G.
  induction 1 as [|t h r m r2 o c R IH S].
  - exists [], [], (run_new dflt env). split; [constructor|]. split; [|repeat split; constructor].
    split; [|repeat split]. split; [reflexivity|]. split; [repeat split; right; split; reflexivity|]. repeat split. right. split; reflexivity.
  - destruct IH as (t' & h' & r' & R' & RS & T & F & C).
    destruct (rstep_sim _ _ _ _ _ _ RS S) as (r2' & o' & c' & S' & RS' & FO & FC).
    exists ((retime g m, o') :: t'), (c' ++ h'), r2'. split; [eapply rreach_step; eauto|]. split; [exact RS'|]. cbn [map fst snd].
    split; [rewrite T; reflexivity|]. split; [apply Forall2_cons; assumption|apply Forall2_app; assumption].
Qed.
End Run.
