(** Proofs about the map the whole system publishes. *)
From Coq Require Import Reals Qreals List ZArith QArith Bool Lia Arith Sorting.Permutation Sorting.Sorted.
From Verif Require Import Base LinAlg3 GeoModel GeoSpec GeoProofs.
From Verif Require Import GraphModel GraphSpec GraphProofs LoopModel LoopSpec LoopProofs SlamModel SlamSpec SlamProofs.
From Verif Require Import AlgModel AlgSpec AlgProofs.
From Verif Require Import VoxelModel VoxelSpec VoxelProofs VoxelOps VoxelAdd VoxelRay GridModel GridSpec GridProofs GridOps ScanSpec ScanProofs ScanInit MapModel MapSpec MapHist MapDraw SysModel SysSpec SysProofs.
Import ListNotations.
Open Scope nat_scope.
Set Default Proof Using "Type".

Lemma made_in l id : In id (made l) -> In (ANode id) l.
Proof. induction l as [|e r IH]; [intros []|]. destruct e; cbn; intuition congruence. Qed.
Lemma in_made l id : In (ANode id) l -> In id (made l).
Proof. induction l as [|e r IH]; [intros []|]. destruct e; cbn; intros [E|E]; try discriminate; auto. injection E as ->. auto. Qed.

Section Lists.
Context {A B : Type}.
Lemma allOk_app (l l' : list (res A)) : allOk (l ++ l') = do a <- allOk l; do b <- allOk l'; Ok (a ++ b).
Proof.
  induction l as [|x t IH]; cbn [app allOk bind].
  - destruct (allOk l'); reflexivity.
  - destruct x as [a| |]; [|reflexivity|reflexivity]. cbn [bind]. rewrite IH.
    destruct (allOk t); [|reflexivity|reflexivity]. cbn [bind]. destruct (allOk l'); reflexivity.
Qed.
Lemma allOk_zip (f : B -> res A) (l : list B) fs : allOk (map f l) = Ok fs ->
  length fs = length l /\ Forall (fun p => f (fst p) = Ok (snd p)) (combine l fs).
Proof.
  revert fs. induction l as [|b t IH]; intros fs E; cbn [map allOk] in E.
  - injection E as <-. split; [reflexivity|constructor].
  - apply bind_ok_inv in E. destruct E as (a & EA & E). apply bind_ok_inv in E. destruct E as (r & ER & E).
    injection E as <-. destruct (IH r ER) as [L F]. split; [cbn; lia|]. cbn [combine]. constructor; assumption.
Qed.
Lemma allOk_unzip (f : B -> res A) (s : list (B * A)) : Forall (fun p => f (fst p) = Ok (snd p)) s ->
  allOk (map f (map fst s)) = Ok (map snd s).
Proof. induction 1 as [|[b a] t E _ IH]; [reflexivity|]. cbn in *. rewrite E, IH. reflexivity. Qed.
Lemma map_fst_combine (l : list B) (l' : list A) : length l' = length l -> map fst (combine l l') = l.
Proof.
  revert l'. induction l as [|b t IH]; intros [|a l']; cbn; intro L; try discriminate; [reflexivity|].
  f_equal. apply IH. congruence.
Qed.
Lemma map_snd_combine (l : list B) (l' : list A) : length l' = length l -> map snd (combine l l') = l'.
Proof.
  revert l'. induction l as [|b t IH]; intros [|a l']; cbn; intro L; try discriminate; [reflexivity|].
  f_equal. apply IH. congruence.
Qed.
Lemma allOk_ext (f g : B -> res A) l : (forall b, In b l -> f b = g b) -> allOk (map f l) = allOk (map g l).
Proof. intro H. f_equal. apply map_ext_in. exact H. Qed.
End Lists.

(** Two chronological orders of the same things are equal. *)
Section Order.
Notation item := (nat * Q)%type.
Definition before (a b : item) : Prop := (snd a <= snd b)%Q.
Definition strictly (a b : item) : Prop := (snd a < snd b)%Q.
Lemma order_unique (s1 : list item) : forall s2, Permutation s1 s2 ->
  StronglySorted strictly s1 -> StronglySorted before s2 -> s1 = s2.
Proof.
  induction s1 as [|a t1 IH]; intros s2 P O1 O2.
  - apply Permutation_nil in P. congruence.
  - destruct s2 as [|b t2]; [apply Permutation_sym, Permutation_nil in P; discriminate|].
    assert (AB : a = b).
    { assert (IB : In b (a :: t1)) by (eapply Permutation_in; [apply Permutation_sym; exact P|left; reflexivity]).
      assert (IA : In a (b :: t2)) by (eapply Permutation_in; [exact P|left; reflexivity]).
      destruct IB as [E|IB]; [exact E|]. destruct IA as [E|IA]; [symmetry; exact E|]. exfalso.
      apply StronglySorted_inv in O1, O2. destruct O1 as [_ O1], O2 as [_ O2].
      rewrite Forall_forall in O1, O2. specialize (O1 b IB). specialize (O2 a IA). unfold strictly, before in *.
      apply Qlt_not_le in O1. auto. }
    subst b. f_equal. apply IH.
    + eapply Permutation_cons_inv. exact P.
    + apply StronglySorted_inv in O1. apply O1.
    + apply StronglySorted_inv in O2. apply O2.
Qed.
Lemma sorted_snoc (R : item -> item -> Prop) l x : StronglySorted R l -> (forall y, In y l -> R y x) ->
  StronglySorted R (l ++ [x]).
Proof.
  induction 1 as [|a t S IH F]; intro H; cbn; [constructor; [constructor|constructor]|].
  constructor; [apply IH; intros; apply H; right; assumption|].
  apply Forall_app. split; [exact F|]. constructor; [apply H; left; reflexivity|constructor].
Qed.
End Order.

Section Born.
Context {D : Type}.
Notation yev := (yev D).
Lemma born_times (h : list yev) k : In k (born h) -> exists e, In e h /\ v_time e = snd k.
Proof.
  induction h as [|e r IH]; [intros []|]. cbn [born]. intro I. apply in_app_or in I. destruct I as [I|I].
  - destruct (IH I) as (e' & I' & E). exists e'. split; [right; exact I'|exact E].
  - apply in_map_iff in I. destruct I as (id & <- & _). exists e. split; [left; reflexivity|reflexivity].
Qed.
Lemma born_sorted (h : list yev) : (forall e, In e h -> length (made (v_evs e)) <= 1) -> clock h ->
  StronglySorted strictly (born h).
Proof.
  induction h as [|e r IH]; intros ON CK; [constructor|]. cbn [born]. destruct CK as [CE CR].
  assert (S : StronglySorted strictly (born r)).
  { apply IH; [|exact CR]. intros e' I. apply ON. right. exact I. }
  pose proof (ON e (or_introl eq_refl)) as L.
  destruct (made (v_evs e)) as [|id [|id' t]]; cbn [length] in L; [|clear L|lia]; cbn [map].
  - rewrite app_nil_r. exact S.
  - apply sorted_snoc; [exact S|]. intros k I. destruct (born_times r k I) as (e' & IE & E).
    unfold strictly. cbn [snd]. rewrite <- E. apply (CE e' IE).
Qed.
End Born.

Section System.
Context {X Guess D : Type}.
Notation cell := (ncell X).
Notation grid := (ngrid X).
Notation scan := (list (option point)).
Notation body := (res grid).
Variable merge : cell -> cell -> cell.
Variable dflt : cell.
Variable addPt : cell -> point -> cell.
Variable compute : cell -> cell.
Variable tcell : qt -> cell -> cell.
Variable occRay : cell -> point -> cell -> cell.
Variable rawOcc : cell -> Q.
Variable btw : qpose -> qpose -> qt.
Variable tp : qt -> point -> point.
Variable noLin : T2.
Variable moveOrigin : qpose -> qt -> qpose.
Variable moveScan : T2 -> point -> point.
Variable dbl : R -> Q.
Variable radius : Q.
Variable le : lenv pose (frame body) M3 Guess D.
Variable se2' : pose -> pose.
Variable odo : M3.
Variable dist : R.

Notation env := (sysEnv merge dflt addPt compute tcell occRay btw tp noLin moveOrigin moveScan dbl radius le se2' odo dist).
Notation yreach := (yreach merge dflt tcell occRay rawOcc btw tp dbl env).
Notation ystep := (ystep merge dflt tcell occRay rawOcc btw tp dbl env).
Notation drawMap := (drawMap merge dflt tcell occRay rawOcc btw tp dbl).
Notation addToMap := (addToMap merge dflt tcell occRay btw tp).
Notation fill := (fill merge dflt addPt compute tcell occRay btw tp moveScan dbl).
Notation frame_of := (frame_of merge dflt addPt compute tcell occRay btw tp moveScan dbl).
Notation sys := (sys X).
Notation yev := (yev D).
Notation frameNow := (frameNow dbl).
Notation gridOf := (gridOf dbl).
Notation drawable := (drawable tcell btw tp).
Notation drawn := (drawn tcell btw).

Lemma frameNow_nth (a : alg body body) k :
  frameNow a k = match nth_error (objs a) (fst k) with
                 | Some f => do g <- gridOf f; Ok (n_setTimestamp g (snd k))
                 | None => Throw
                 end.
Proof.
  unfold SysModel.frameNow, getPoseData. rewrite getNode_nth. unfold objs, nodes. rewrite nth_error_map.
  destruct (nth_error (g_nodes (s_graph (a_slam a))) (fst k)); reflexivity.
Qed.

Notation blank := (blank dflt).
Lemma blank_ok g : blank g -> nwf g /\ n_pose g = world /\ n_cs g = map_res.
Proof.
  intros [->|(g0 & [W S] & P & C & ->)].
  - split; [split; [split; reflexivity|reflexivity]|]. split; reflexivity.
  - split; [|split; [exact P|exact C]]. split; [apply clear_spec; exact W|exact S].
Qed.

Record MI (h : list yev) (y : sys) : Prop := {
  mi_perm : Permutation (y_order y) (born h);
  mi_frames : allOk (map (frameNow (y_alg y)) (y_order y)) = Ok (m_frames (y_map y));
  mi_drawn : exists g0, blank g0 /\ foldM addToMap (m_frames (y_map y)) g0 = Ok (m_ndt (y_map y));
  mi_means : m_frames (y_map y) <> [] ->
    getMeansTransformed btw tp (m_ndt (y_map y)) = Ok (m_cloud (y_map y)) /\
    m_occ (y_map y) = createOccupancyGrid rawOcc btw tp (m_ndt (y_map y));
  mi_empty : m_frames (y_map y) = [] -> y_map y = m_new dflt;
  mi_sorted : clock h -> StronglySorted before (y_order y)
}.

Lemma born_length h y : yreach h y -> length (born h) = length (objs (y_alg y)) /\
  map fst (born h) = seq 0 (length (objs (y_alg y))).
Proof.
  intro R. pose proof (yreach_AI _ _ _ _ _ _ _ _ _ _ _ _ _ _ _ _ _ _ h y R) as [C _ _ _].
  pose proof (born_made h) as B. rewrite (ai_made _ _ _ C) in B. unfold objs. rewrite map_length.
  split; [|exact B]. rewrite <- (map_length fst), B, seq_length. reflexivity.
Qed.
Lemma addToMap_stamp g (f : grid) ts : addToMap g (n_setTimestamp f ts) = addToMap g f.
Proof. reflexivity. Qed.

Lemma addFrame_inv (m : mapper X) (f : grid) ts m' : addFrame merge dflt tcell occRay rawOcc btw tp m f ts = Ok m' ->
  addToMap (m_ndt m) f = Ok (m_ndt m') /\ getMeansTransformed btw tp (m_ndt m') = Ok (m_cloud m') /\
  m_frames m' = m_frames m ++ [n_setTimestamp f ts] /\ m_occ m' = createOccupancyGrid rawOcc btw tp (m_ndt m').
Proof.
  unfold addFrame. intro E. apply bind_ok_inv in E. destruct E as (g & EG & E).
  apply bind_ok_inv in E. destruct E as (ms & EM & E). injection E as <-. cbn. auto.
Qed.
Lemma recalc_inv (m : mapper X) s ts m' : recalc merge dflt tcell occRay rawOcc btw tp m s ts = Ok m' ->
  foldM addToMap s (n_clear (m_ndt m)) = Ok (m_ndt m') /\
  getMeansTransformed btw tp (m_ndt m') = Ok (m_cloud m') /\
  m_frames m' = s /\ m_occ m' = createOccupancyGrid rawOcc btw tp (m_ndt m').
Proof.
  unfold recalc. intro E. apply bind_ok_inv in E. destruct E as (g & EG & E).
  apply bind_ok_inv in E. destruct E as (ms & EM & E). injection E as <-. cbn. auto.
Qed.

Lemma MI_reach h y : yreach h y -> MI h y.
Proof.
  induction 1 as [|h y e y' R IH S].
  { split; cbn; auto.
    - exists (m_ndt (m_new dflt)). split; [left; reflexivity|reflexivity].
    - congruence.
    - intros _. constructor. }
  pose proof (yreach_AI _ _ _ _ _ _ _ _ _ _ _ _ _ _ _ _ _ _ h y R) as A.
  destruct (born_length h y R) as [BL BS].
  destruct S as [i ts a' evs m' o' U DM].
  pose proof (update_frames _ _ _ _ _ _ A U) as DID.
  destruct IH as [P F (g0 & B0 & DR) ME EM SO].
  (* the node made, if any *)
  assert (MADE : (made evs = [] /\ objs a' = objs (y_alg y)) \/
    (made evs = [length (objs (y_alg y))] /\
     (~ In ARedraw evs -> objs a' = objs (y_alg y) ++ [a_frame (y_alg y)]))).
  { destruct DID as [IN MD NR D1 SL FR|IN MD NR D1 SL FR|o m IN MD NR D1 O SL FR|o IN MD D1 B O FR];
      [left|left|left|right]; split; auto; unfold objs; rewrite SL; reflexivity. }
  assert (KEEP : forall a1 : alg body body, (forall n, n < length (objs (y_alg y)) -> nth_error (objs a1) n = nth_error (objs (y_alg y)) n) ->
     allOk (map (frameNow a1) (y_order y)) = Ok (m_frames (y_map y))).
  { intros a1 K. rewrite <- F. apply allOk_ext. intros k I. rewrite !frameNow_nth, K; [reflexivity|].
    apply (Permutation_in _ P) in I. apply (in_map fst) in I. rewrite BS in I. apply in_seq in I. lia. }
  assert (TIMES : clock (mkYE i ts evs :: h) -> forall k, In k (y_order y) -> (snd k < ts)%Q).
  { intros [CK _] k I. apply (Permutation_in _ P) in I. destruct (born_times h k I) as (e & IE & <-).
    apply (CK e IE). }
  destruct DM as [NN|id f m IA NR GF AF|id f m fs s m'' IA RD GF AF AO PS SS RC].
  - destruct MADE as [[MD OB]|[MD _]].
    2:{ exfalso. apply (NN (length (objs (y_alg y)))). apply made_in. rewrite MD. left. reflexivity. }
    split; cbn [y_order y_map y_alg born v_evs].
    + rewrite MD. cbn [map]. rewrite app_nil_r. exact P.
    + apply KEEP. intros n _. rewrite OB. reflexivity.
    + exists g0. auto.
    + exact ME.
    + exact EM.
    + intros [_ CK]. apply SO. exact CK.
  - destruct MADE as [[MD _]|[MD OB]].
    { exfalso. apply in_made in IA. rewrite MD in IA. destruct IA. }
    specialize (OB NR).
    assert (ID : id = length (objs (y_alg y))).
    { apply in_made in IA. rewrite MD in IA. destruct IA as [IA|[]]. auto. }
    destruct (addFrame_inv _ _ _ _ AF) as (EA & EC & EF & EO).
    split; cbn [y_order y_map y_alg born v_evs v_time].
    + rewrite MD, ID. cbn [map]. apply Permutation_app; [exact P|apply Permutation_refl].
    + rewrite map_app, allOk_app. rewrite KEEP.
      2:{ intros n L. rewrite OB, nth_error_app1 by exact L. reflexivity. }
      cbn [map allOk]. rewrite frameNow_nth. cbn [fst snd]. rewrite OB, ID, nth_error_app2, Nat.sub_diag by auto.
      cbn [nth_error]. rewrite GF. cbn [bind]. rewrite EF. reflexivity.
    + exists g0. split; [exact B0|]. rewrite EF, foldM_app, DR. cbn [bind foldM].
      rewrite addToMap_stamp, EA. reflexivity.
    + intros _. auto.
    + rewrite EF. intro Y. apply app_eq_nil in Y. destruct Y; discriminate.
    + intros CK. apply sorted_snoc; [apply SO; apply CK|].
      intros k I. unfold before. cbn [snd]. apply Qlt_le_weak. apply TIMES; assumption.
  - destruct MADE as [[MD _]|[MD _]].
    { exfalso. apply in_made in IA. rewrite MD in IA. destruct IA. }
    assert (ID : id = length (objs (y_alg y))).
    { apply in_made in IA. rewrite MD in IA. destruct IA as [IA|[]]. auto. }
    destruct (addFrame_inv _ _ _ _ AF) as (EA & EC & EF & EO).
    destruct (recalc_inv _ _ _ _ RC) as (RA & RM & RF & RO).
    destruct (allOk_zip _ _ _ AO) as [LF FA].
    assert (PO : Permutation (y_order y ++ [(id, ts)]) (map fst s)).
    { rewrite <- (map_fst_combine (y_order y ++ [(id, ts)]) fs LF) at 1. apply Permutation_map. exact PS. }
    assert (NE : m_frames m'' <> []).
    { rewrite RF. intro Y. apply map_eq_nil in Y. subst s. apply Permutation_length in PO.
      rewrite app_length in PO. cbn in PO. lia. }
    split; cbn [y_order y_map y_alg born v_evs v_time].
    + rewrite MD, <- ID. cbn [map]. eapply Permutation_trans; [apply Permutation_sym; exact PO|].
      apply Permutation_app; [exact P|apply Permutation_refl].
    + rewrite RF. apply allOk_unzip. rewrite Forall_forall in FA |- *. intros k I. apply FA.
      eapply Permutation_in; [apply Permutation_sym; exact PS|exact I].
    + destruct (blank_ok g0 B0) as (W0 & P0 & S0).
      destruct (fold_inv merge dflt tcell occRay btw tp _ _ _ W0 DR) as (W1 & P1 & S1 & _ & _ & _).
      assert (DR2 : foldM addToMap (m_frames m) g0 = Ok (m_ndt m)).
      { rewrite EF, foldM_app, DR. cbn [bind foldM]. rewrite addToMap_stamp, EA. reflexivity. }
      destruct (fold_inv merge dflt tcell occRay btw tp _ _ _ W0 DR2) as (W2 & P2 & S2 & _ & _ & _).
      exists (n_clear (m_ndt m)). split.
      * right. exists (m_ndt m). split; [exact W2|]. split; [congruence|]. split; [congruence|reflexivity].
      * rewrite RF. exact RA.
    + intros _. auto.
    + intro Y. destruct (NE Y).
    + intros _. rewrite Forall_forall in FA.
      assert (ST : forall p, In p s -> n_time (snd p) = snd (fst p)).
      { intros [k f1] I. eapply Permutation_in in I; [|apply Permutation_sym; exact PS].
        specialize (FA _ I). cbn [fst snd] in *. rewrite frameNow_nth in FA.
        destruct (nth_error (objs a') (fst k)) as [f2|]; [|discriminate].
        apply bind_ok_inv in FA. destruct FA as (g & _ & FA). injection FA as <-. reflexivity. }
      clear - SS ST. induction s as [|p t IHs]; [constructor|]. cbn [map] in *.
      apply StronglySorted_inv in SS. destruct SS as [SS SF]. constructor.
      * apply IHs; [exact SS|]. intros q I. apply ST. right. exact I.
      * rewrite Forall_forall in SF |- *. intros k I. apply in_map_iff in I. destruct I as (q & <- & I).
        unfold before. rewrite <- (ST p (or_introl eq_refl)), <- (ST q (or_intror I)).
        apply SF. apply in_map. exact I.
Qed.

Lemma one_node h y : yreach h y -> forall e, In e h -> length (made (v_evs e)) <= 1.
Proof.
  induction 1 as [|h y e y' R IH S]; intros e' I; [destruct I|]. destruct I as [<-|I]; [|apply IH; exact I].
  pose proof (yreach_AI _ _ _ _ _ _ _ _ _ _ _ _ _ _ _ _ _ _ h y R) as A.
  destruct S as [i ts a' evs m' o' U DM]. cbn [v_evs].
  destruct (update_frames _ _ _ _ _ _ A U) as [IN MD NR D1 SL FR|IN MD NR D1 SL FR|o m IN MD NR D1 O SL FR|o IN MD D1 B O FR];
    rewrite MD; cbn; lia.
Qed.

Lemma frame_of_now h y k : yreach h y -> frame_of h (y_alg y) k = frameNow (y_alg y) k.
Proof.
  intro R. rewrite frameNow_nth. unfold SysSpec.frame_of, getPoseLocation. rewrite getNode_nth.
  pose proof (yreach_AI _ _ _ _ _ _ _ _ _ _ _ _ _ _ _ _ _ _ h y R) as [C _ _ _].
  pose proof (FI_reach _ _ _ _ _ _ _ _ _ _ _ _ _ _ _ _ _ _ h y R) as [_ _ _ DONE _].
  specialize (DONE (fst k)). unfold objs, nodes in *. rewrite nth_error_map in *.
  destruct (nth_error (g_nodes (s_graph (a_slam (y_alg y)))) (fst k)) as [n|] eqn:E; [|reflexivity].
  cbn [option_map bind] in *. specialize (DONE _ eq_refl). unfold SysModel.gridOf. rewrite DONE.
  pose proof (ai_al _ _ _ C (fst k) n E) as AL. rewrite AL.
  destruct (fill _ _); reflexivity.
Qed.

(** Everything the published map depends on. *)
Theorem sys_map h y : yreach h y ->
  exists order fs g0 g,
    Permutation order (born h) /\ (clock h -> order = born h) /\
    allOk (map (frame_of h (y_alg y)) order) = Ok fs /\
    blank g0 /\ foldM addToMap fs g0 = Ok g /\
    (fs = [] -> y_map y = m_new dflt) /\
    (fs <> [] -> getMeansTransformed btw tp g = Ok (getPclMap (y_map y)) /\
                 m_occ (y_map y) = createOccupancyGrid rawOcc btw tp g).
Proof.
  intro R. destruct (MI_reach h y R) as [P F (g0 & B0 & DR) ME EM SO].
  exists (y_order y), (m_frames (y_map y)), g0, (m_ndt (y_map y)).
  split; [exact P|]. split.
  { intro CK. symmetry. apply order_unique; [apply Permutation_sym; exact P| |apply SO; exact CK].
    apply born_sorted; [eapply one_node; exact R|exact CK]. }
  split.
  { rewrite <- F. apply allOk_ext. intros k _. apply frame_of_now. exact R. }
  split; [exact B0|]. split; [exact DR|]. split; [exact EM|exact ME].
Qed.
End System.
