(** Proofs about Slam2D. *)
From Coq Require Import List ZArith Bool Arith Lia Permutation.
From Coq Require Import ZifyBool ZifyNat.
From Verif Require Import Base GraphModel GraphSpec GraphProofs LoopModel LoopSpec LoopProofs
  SlamModel SlamSpec.
Import ListNotations.
Open Scope nat_scope.

Lemma Forall2_length {A B} (P : A -> B -> Prop) l l' : Forall2 P l l' -> length l = length l'.
Proof. induction 1; cbn; congruence. Qed.

Section S.
Context {Pose Obj Info Guess D : Type}.
Notation graph := (graph Pose Obj Info).
Notation edge := (edge Pose Info).
Notation node := (node Pose Obj).
Notation slam := (slam Pose Obj Info).
Notation senv := (senv Pose Obj Info Guess D).
Notation sop := (sop Pose Obj Info D).
Notation sev := (sev Pose Obj Info).

(** ** graph lemmas *)
Lemma clr_iff (g : graph) : clr g = g <->
  (forall k n, nth_error (g_nodes g) k = Some n -> n_visited n = false) /\
  (forall id a e, slot g id = Some (Some (a, e)) -> e_used e = false).
Proof.
  split.
  - intro C. split.
    + intros k n H. apply (f_equal (@g_nodes _ _ _)) in C. cbn [clr g_nodes] in C.
      rewrite <- C, nth_error_map in H. destruct (nth_error (g_nodes g) k); [|discriminate].
      injection H as <-. reflexivity.
    + intros id a e H. unfold slot in H. apply (f_equal (@g_edges _ _ _)) in C. cbn [clr g_edges] in C.
      rewrite <- C, nth_error_map in H. destruct (nth_error (g_edges g) id) as [[[b f]|]|]; try discriminate.
      injection H as _ <-. reflexivity.
  - intros [A B]. destruct g as [es ns pl]. unfold clr, slot in *. cbn [g_edges g_nodes g_pool] in *. f_equal.
    + apply nth_error_ext. intro j. rewrite nth_error_map.
      destruct (nth_error es j) as [[[a e]|]|] eqn:E; cbn; auto.
      specialize (B j a e E). destruct e; cbn in *; subst; reflexivity.
    + apply nth_error_ext. intro j. rewrite nth_error_map.
      destruct (nth_error ns j) as [n|] eqn:E; cbn; auto.
      specialize (A j n E). destruct n; cbn in *; subst; reflexivity.
Qed.

Lemma unmarked_iff (g : graph) : clr g = g <-> unmarked g.
Proof.
  rewrite clr_iff. unfold unmarked, has_edge, slot. split.
  - intros [A B]. split.
    + intros n H. apply In_nth_error in H. destruct H as (k & H). eauto.
    + intros e (id & a & H). eauto.
  - intros [A B]. split.
    + intros k n H. apply A. eapply nth_error_In; eauto.
    + intros id a e H. apply B. eauto.
Qed.

Lemma upd_snoc {A} (l : list A) x y : upd (l ++ [x]) (length l) y = l ++ [y].
Proof.
  apply nth_error_ext. intro j. rewrite nth_error_upd, !nth_error_snoc, app_length. simpl.
  destruct (Nat.eqb_spec j (length l)) as [->|N]; cbn [andb]; [|reflexivity].
  assert (length l <? length l + 1 = true) as -> by lia. reflexivity.
Qed.

Lemma modEdge_spec (g : graph) id a e f : Inv g -> slot g id = Some (Some (a, e)) ->
  modEdge g id f = Ok (mkGraph (upd (g_edges g) id (Some (a, f e))) (g_nodes g) (g_pool g)).
Proof.
  intros I S. unfold modEdge. rewrite (getEdge_slot g id I), S. cbn [bind].
  unfold vget. unfold slot in S. rewrite S. reflexivity.
Qed.

Lemma Inv_set_edge (g : graph) id a e e' : Inv g -> slot g id = Some (Some (a, e)) ->
  e_id e' = e_id e -> e_from e' = e_from e -> e_to e' = e_to e ->
  Inv (mkGraph (upd (g_edges g) id (Some (a, e'))) (g_nodes g) (g_pool g)).
Proof.
  intros I S E1 E2 E3. pose proof (nth_error_lt _ _ _ S) as L. apply Nat.ltb_lt in L.
  assert (SL : forall j, slot (mkGraph (upd (g_edges g) id (Some (a, e'))) (g_nodes g) (g_pool g)) j =
     if j =? id then Some (Some (a, e')) else slot g j).
  { intro j. unfold slot. cbn [g_edges]. rewrite nth_error_upd, L, andb_true_r. reflexivity. }
  destruct I as [I1 I2 I3 I4 I5 I6 I7]. split; cbn [g_pool g_nodes].
  - auto.
  - intro j. rewrite SL, I2. destruct (Nat.eqb_spec j id) as [->|N]; [|tauto].
    rewrite S. split; discriminate.
  - intros j b f. rewrite SL. destruct (Nat.eqb_spec j id) as [->|N]; [|apply I3].
    intro X. injection X as <- <-. rewrite E1, E2, E3. eapply I3; eauto.
  - intros i j b f f'. rewrite !SL.
    destruct (Nat.eqb_spec i id) as [->|N1]; destruct (Nat.eqb_spec j id) as [->|N2]; auto.
    + intros X Y. injection X as <- <-. eapply I4; eauto.
    + intros X Y. injection Y as <- <-. eapply I4; eauto.
    + apply I4.
  - auto.
  - intros j b f n. rewrite SL. destruct (Nat.eqb_spec j id) as [->|N]; [|apply I6].
    intro X. injection X as <- <-. rewrite E2. eapply I6; eauto.
  - intros j b f n. rewrite SL. destruct (Nat.eqb_spec j id) as [->|N]; [|apply I7].
    intro X. injection X as <- <-. rewrite E3. eapply I7; eauto.
Qed.

Lemma addEdge_full (g : graph) a e : Inv g -> g_pool g = [] ->
  live_addr g a = false -> e_from e < length (g_nodes g) -> e_to e < length (g_nodes g) ->
  exists ns, addEdge g a e =
     Ok (mkGraph (g_edges g ++ [Some (a, e_setId e (length (g_edges g)))]) ns [], length (g_edges g)) /\
    length ns = length (g_nodes g) /\
    (forall k, nth_error ns k =
       option_map (touch_node a (e_from e) (e_to e) k) (nth_error (g_nodes g) k)).
Proof.
  intros I PE LA HF HT.
  destruct (addEdge_spec g a e I (conj LA (conj HF HT))) as (g' & id & E & PL & LE & LN & SL & ND).
  destruct PL as [(_ & -> & PP)|(X & _)]; [|rewrite PE in X; discriminate].
  exists (g_nodes g'). split; [|split; auto]. rewrite E. destruct g' as [es ns pl]. cbn in *. subst pl.
  do 3 f_equal. apply nth_error_ext. intro j. specialize (SL j). unfold slot in SL. cbn in SL.
  rewrite SL, nth_error_snoc. reflexivity.
Qed.

(** ** invariant *)
Record SI (env : senv) (s : slam) : Prop := {
  si_ready : ready (s_graph s);
  si_pool : g_pool (s_graph s) = [];
  si_some : forall id, id < length (g_edges (s_graph s)) ->
     exists a e, slot (s_graph s) id = Some (Some (a, e)) /\ e_state e = Active /\ e_info e = odo_info env;
  si_vlen : length (s_verts s) = length (g_nodes (s_graph s));
  si_vert : forall k v, nth_error (s_verts s) k = Some v -> v_id v = k /\ v_fixed v = (k =? 0);
  si_map : s_map s = map (fun i => (i, i)) (seq 0 (length (g_nodes (s_graph s))));
  si_vseq : s_vseq s = length (g_nodes (s_graph s));
  si_gelen : length (s_gedges s) = length (g_edges (s_graph s));
  si_eseq : s_eseq s = length (g_edges (s_graph s));
  si_ge : forall id a e, slot (s_graph s) id = Some (Some (a, e)) ->
     nth_error (s_gedges s) id =
       Some (mkGE id (Some (e_from e)) (Some (e_to e)) (se2 env (e_trans e)) (e_info e));
  si_first : s_first_added s = (0 <? length (g_nodes (s_graph s))) /\ s_first s = 0;
  si_last : s_last s = length (g_nodes (s_graph s)) - 1 /\ s_prev s = length (g_nodes (s_graph s)) - 2
}.

Lemma SI_init env : SI env slam_init.
Proof.
  split; cbn; auto.
  - split; [apply Inv_empty|reflexivity|exact I|intros [|]; discriminate].
  - lia.
  - intros [|]; discriminate.
  - unfold slot. intros [|]; discriminate.
Qed.

Lemma map_get_id n k : forall b, map_get (map (fun i => (i, i)) (seq b n)) k =
  if (b <=? k) && (k <? b + n) then Some k else None.
Proof.
  induction n as [|n IH]; intro b; cbn [seq map map_get].
  - assert ((b <=? k) && (k <? b + 0) = false) as -> by lia. reflexivity.
  - rewrite IH. destruct (Nat.eqb_spec b k) as [->|N].
    + assert ((k <=? k) && (k <? k + S n) = true) as -> by lia. reflexivity.
    + assert ((S b <=? k) && (k <? S b + n) = (b <=? k) && (k <? b + S n)) as -> by lia. reflexivity.
Qed.

Lemma map_set_id n : forall b, map_set (map (fun i => (i, i)) (seq b n)) (b + n) (b + n) =
  map (fun i => (i, i)) (seq b (S n)).
Proof.
  induction n as [|n IH]; intro b.
  - cbn. rewrite Nat.add_0_r. reflexivity.
  - cbn [seq map map_set]. assert (b =? b + S n = false) as -> by lia.
    f_equal. replace (b + S n) with (S b + n) by lia. rewrite IH. reflexivity.
Qed.

(** ** addPose *)
Lemma addPose_SI env s p o : SI env s ->
  SI env (fst (addPose env s p o)) /\ snd (addPose env s p o) = length (g_nodes (s_graph s)).
Proof.
  intros [R P1 P2 P3 P4 P5 P6 P7 P8 P9 P10 P11].
  split; [|reflexivity]. unfold addPose, addNode. cbn [fst].
  set (n := length (g_nodes (s_graph s))) in *.
  set (g' := mkGraph _ _ _).
  assert (NN : forall k, nth_error (g_nodes g') k =
     if k =? n then Some (mkNode k false p o [] []) else nth_error (g_nodes (s_graph s)) k)
    by (intro k; apply (addNode_nodes (s_graph s) p o k)).
  assert (LN : length (g_nodes g') = S n) by (cbn; rewrite app_length; cbn; fold n; lia).
  split; cbn [s_graph s_last s_prev s_first s_first_added s_eseq s_vseq s_verts s_gedges s_map]; auto.
  - destruct R as [R1 R2 R3 R4]. split.
    + apply (addNode_Inv (s_graph s) p o R1).
    + apply clr_iff. apply clr_iff in R2. destruct R2 as [A B]. split; [|exact B].
      intros k nd. rewrite NN. destruct (k =? n); [|eauto]. intro X. injection X as <-. reflexivity.
    + exact R3.
    + intros k nd a. rewrite NN. destruct (Nat.eqb_spec k n) as [->|NE]; [|apply R4].
      intro X. injection X as <-. intros [].
  - rewrite app_length, LN. cbn [length]. rewrite P3. fold n. lia.
  - intros k v. rewrite nth_error_snoc, P3. fold n.
    destruct (Nat.eqb_spec k n) as [->|NE]; [|apply P4].
    intro X. injection X as <-. cbn [v_id v_fixed]. rewrite P6. destruct P10 as [-> _]. fold n. split; [reflexivity|].
    lia.
  - rewrite P5, P3. fold n. rewrite LN. apply (map_set_id n 0).
  - rewrite P6. fold n. lia.
  - rewrite LN. destruct P10 as [-> F]. split; [reflexivity|].
    destruct (Nat.ltb_spec 0 n); [auto|lia].
  - rewrite LN. split; [lia|]. destruct P10 as [-> F]. destruct P11 as [L1 L2].
    rewrite L1, L2. fold n. destruct (Nat.ltb_spec 0 n); lia.
Qed.

Lemma addPose_effect env s p o : SI env s ->
  let s' := fst (addPose env s p o) in
  g_edges (s_graph s') = g_edges (s_graph s) /\
  length (g_nodes (s_graph s')) = S (length (g_nodes (s_graph s))) /\
  forall k, nth_error (g_nodes (s_graph s')) k =
    if k =? length (g_nodes (s_graph s)) then Some (mkNode k false p o [] [])
    else nth_error (g_nodes (s_graph s)) k.
Proof.
  intros _ s'. split; [reflexivity|]. split; [cbn; rewrite app_length; cbn; lia|].
  intro k. apply (addNode_nodes (s_graph s) p o k).
Qed.

(** ** addConstrain *)
Definition same_nodes (g g' : graph) : Prop :=
  length (g_nodes g') = length (g_nodes g) /\
  forall k n, nth_error (g_nodes g) k = Some n ->
    exists n', nth_error (g_nodes g') k = Some n' /\ n_pose n' = n_pose n /\ n_obj n' = n_obj n.

Lemma addConstrain_ok env s a f t tr i s' id : SI env s ->
  addConstrain env s a f t tr i = Ok (s', id) ->
  SI env s' /\ id = length (g_edges (s_graph s)) /\
  f < length (g_nodes (s_graph s)) /\ t < length (g_nodes (s_graph s)) /\
  g_edges (s_graph s') = g_edges (s_graph s) ++
     [Some (a, mkEdge id f t Active false false tr (odo_info env))] /\
  same_nodes (s_graph s) (s_graph s') /\ s_verts s' = s_verts s.
Proof.
  intros I H. unfold addConstrain in H.
  apply bind_ok_inv in H. destruct H as (nf & NF & H).
  apply bind_ok_inv in H. destruct H as (nt & NT & H).
  apply bind_ok_inv in H. destruct H as ([g1 id1] & AE & H).
  destruct I as [R P1 P2 P3 P4 P5 P6 P7 P8 P9 P10 P11].
  set (g := s_graph s) in *.
  rewrite getNode_nth in NF, NT.
  destruct (nth_error (g_nodes g) f) as [nf0|] eqn:NF0; [|discriminate]. injection NF as ->.
  destruct (nth_error (g_nodes g) t) as [nt0|] eqn:NT0; [|discriminate]. injection NT as ->.
  destruct (inv_node g (r_inv g R) _ _ NF0) as (IF & _).
  destruct (inv_node g (r_inv g R) _ _ NT0) as (IT & _). rewrite IF, IT in AE.
  pose proof (nth_error_lt _ _ _ NF0) as HF. pose proof (nth_error_lt _ _ _ NT0) as HT.
  destruct (addEdge_pre g a _ _ (r_inv g R) AE) as (LA & _).
  destruct (addEdge_full g a (newEdge f t tr (odo_info env)) (r_inv g R) P1 LA HF HT) as (ns & AE' & LN & NS).
  pose proof (addEdge_Inv g a _ _ _ (r_inv g R) AE) as I1.
  rewrite AE in AE'. injection AE' as -> ->. cbn [e_from e_to newEdge] in NS.
  set (m := length (g_edges g)) in *.
  set (e1 := e_setId (newEdge f t tr (odo_info env)) m) in *.
  assert (S1 : slot (mkGraph (g_edges g ++ [Some (a, e1)]) ns []) m = Some (Some (a, e1))).
  { unfold slot. cbn [g_edges]. rewrite nth_error_snoc. fold m. rewrite Nat.eqb_refl. reflexivity. }
  rewrite (modEdge_spec _ m a e1 _ I1 S1) in H. cbn [bind g_edges g_nodes g_pool] in H.
  unfold m in H at 1. rewrite upd_snoc in H. fold m in H.
  pose proof (Inv_set_edge _ m a e1 (e_setState Active e1) I1 S1 eq_refl eq_refl eq_refl) as I2.
  cbn [g_edges g_nodes g_pool] in I2. unfold m in I2 at 1. rewrite upd_snoc in I2.
  set (e2 := e_setState Active e1) in *.
  assert (S2 : slot (mkGraph (g_edges g ++ [Some (a, e2)]) ns []) m = Some (Some (a, e2))).
  { unfold slot. cbn [g_edges]. rewrite nth_error_snoc. fold m. rewrite Nat.eqb_refl. reflexivity. }
  rewrite (modEdge_spec _ m a e2 _ I2 S2) in H. cbn [bind g_edges g_nodes g_pool] in H.
  unfold m in H at 1. rewrite upd_snoc in H. fold m in H.
  pose proof (Inv_set_edge _ m a e2 (e_setLoop false e2) I2 S2 eq_refl eq_refl eq_refl) as I3.
  cbn [g_edges g_nodes g_pool] in I3. unfold m in I3 at 1. rewrite upd_snoc in I3.
  assert (E3 : e_setLoop false e2 = mkEdge m f t Active false false tr (odo_info env)) by reflexivity.
  rewrite E3 in *. set (e3 := mkEdge m f t Active false false tr (odo_info env)) in *.
  clear S1 S2 I1 I2 AE E3. injection H as <- <-.
  assert (NP : forall k n', nth_error ns k = Some n' -> exists n, nth_error (g_nodes g) k = Some n /\
      n' = touch_node a f t k n).
  { intros k n' X. rewrite NS in X. destruct (nth_error (g_nodes g) k) as [n|]; [|discriminate].
    injection X as <-. eauto. }
  assert (SL : forall id, slot (mkGraph (g_edges g ++ [Some (a, e3)]) ns []) id =
     if id =? m then Some (Some (a, e3)) else slot g id).
  { intro id. unfold slot. cbn [g_edges]. apply nth_error_snoc. }
  assert (LE : length (g_edges g ++ [Some (a, e3)]) = S m) by (rewrite app_length; cbn; fold m; lia).
  split; [|split; [reflexivity|split; [exact HF|split; [exact HT|split; [reflexivity|split; [|reflexivity]]]]]].
  - split; cbn [s_graph s_last s_prev s_first s_first_added s_eseq s_vseq s_verts s_gedges s_map g_pool g_nodes g_edges];
      rewrite ?LN; auto.
    + destruct R as [R1 R2 R3 R4]. split.
      * exact I3.
      * apply clr_iff. apply clr_iff in R2. destruct R2 as [A B]. split.
        { cbn [g_nodes]. intros k n' X. destruct (NP k n' X) as (n & Hn & ->).
          destruct (touch_node_rest a f t k n) as (_ & _ & _ & ->). eauto. }
        { intros id b e X. rewrite SL in X. destruct (id =? m); [|eauto]. injection X as <- <-. reflexivity. }
      * cbn [g_edges]. destruct (g_edges g) as [|[x|] l]; cbn; auto.
      * cbn [g_nodes]. intros k n' b X Y. destruct (NP k n' X) as (n & Hn & ->).
        rewrite touch_node_in in Y.
        assert (OLD : In b (n_in n) -> exists id e, slot (mkGraph (g_edges g ++ [Some (a, e3)]) ns []) id =
            Some (Some (b, e)) /\ e_to e = k).
        { intro Z. destruct (R4 k n b Hn Z) as (id & e & Si & T). exists id, e. rewrite SL.
          pose proof (nth_error_lt _ _ _ Si) as L. fold m in L.
          assert (id =? m = false) as -> by lia. auto. }
        destruct (Nat.eqb_spec k t) as [->|NE]; [|auto]. apply addPtr_In in Y. destruct Y as [Y| ->]; [auto|].
        exists m, e3. rewrite SL, Nat.eqb_refl. auto.
    + intros id X. rewrite LE in X. rewrite SL. destruct (Nat.eqb_spec id m) as [->|NE].
      * exists a, e3. auto.
      * apply P2. lia.
    + rewrite app_length, LE, P7. cbn. lia.
    + rewrite P8, LE. reflexivity.
    + intros id b e X. rewrite SL in X. rewrite nth_error_snoc, P7. fold m.
      destruct (Nat.eqb_spec id m) as [->|NE]; [|eauto]. injection X as <- <-.
      cbn [e_from e_to e_trans e_info e3]. rewrite P8, P5, !map_get_id. fold g m.
      assert ((0 <=? f) && (f <? 0 + length (g_nodes g)) = true) as -> by lia.
      assert ((0 <=? t) && (t <? 0 + length (g_nodes g)) = true) as -> by lia. reflexivity.
  - split; [exact LN|]. cbn [g_nodes s_graph]. intros k n Hn. rewrite NS, Hn.
    eexists. split; [reflexivity|]. destruct (touch_node_rest a f t k n) as (_ & -> & -> & _). auto.
Qed.

Lemma addConstrain_defined env s a f t tr i : SI env s ->
  live_addr (s_graph s) a = false ->
  f < length (g_nodes (s_graph s)) -> t < length (g_nodes (s_graph s)) ->
  exists s', addConstrain env s a f t tr i = Ok (s', length (g_edges (s_graph s))).
Proof.
  intros I LA HF HT. unfold addConstrain. rewrite !getNode_nth.
  pose proof (r_inv _ (si_ready _ _ I)) as IV.
  destruct (nth_error (g_nodes (s_graph s)) f) as [nf|] eqn:NF; [|apply nth_error_None in NF; lia].
  destruct (nth_error (g_nodes (s_graph s)) t) as [nt|] eqn:NT; [|apply nth_error_None in NT; lia].
  cbn [bind]. destruct (inv_node _ IV _ _ NF) as (-> & _). destruct (inv_node _ IV _ _ NT) as (-> & _).
  destruct (addEdge_full _ a (newEdge f t tr (odo_info env)) IV (si_pool _ _ I) LA HF HT) as (ns & AE & LN & NS).
  pose proof (addEdge_Inv _ a _ _ _ IV AE) as I1.
  rewrite AE. cbn [bind]. set (g := s_graph s) in *. set (m := length (g_edges g)) in *.
  set (e1 := e_setId (newEdge f t tr (odo_info env)) m) in *.
  assert (S1 : slot (mkGraph (g_edges g ++ [Some (a, e1)]) ns []) m = Some (Some (a, e1))).
  { unfold slot. cbn [g_edges]. rewrite nth_error_snoc. fold m. rewrite Nat.eqb_refl. reflexivity. }
  rewrite (modEdge_spec _ m a e1 _ I1 S1). cbn [bind g_edges g_nodes g_pool].
  unfold m at 1. rewrite upd_snoc. fold m.
  pose proof (Inv_set_edge _ m a e1 (e_setState Active e1) I1 S1 eq_refl eq_refl eq_refl) as I2.
  cbn [g_edges g_nodes g_pool] in I2. unfold m in I2 at 1. rewrite upd_snoc in I2.
  set (e2 := e_setState Active e1) in *.
  assert (S2 : slot (mkGraph (g_edges g ++ [Some (a, e2)]) ns []) m = Some (Some (a, e2))).
  { unfold slot. cbn [g_edges]. rewrite nth_error_snoc. fold m. rewrite Nat.eqb_refl. reflexivity. }
  rewrite (modEdge_spec _ m a e2 _ I2 S2). cbn [bind]. eauto.
Qed.

Lemma addConstrain_throws env s a f t tr i : SI env s ->
  length (g_nodes (s_graph s)) <= f \/ length (g_nodes (s_graph s)) <= t ->
  addConstrain env s a f t tr i = Throw.
Proof.
  intros I H. unfold addConstrain. rewrite !getNode_nth.
  destruct (nth_error (g_nodes (s_graph s)) f) as [nf|] eqn:NF; [|reflexivity]. cbn [bind].
  destruct (nth_error (g_nodes (s_graph s)) t) as [nt|] eqn:NT; [|reflexivity].
  apply nth_error_lt in NF. apply nth_error_lt in NT. lia.
Qed.

(** ** loop closing *)
Lemma SI_setLoop env s id a e : SI env s -> slot (s_graph s) id = Some (Some (a, e)) ->
  exists g, modEdge (s_graph s) id (e_setLoop true) = Ok g /\ SI env (with_graph s g) /\
    g_nodes g = g_nodes (s_graph s) /\
    g_edges g = upd (g_edges (s_graph s)) id (Some (a, e_setLoop true e)).
Proof.
  intros I S. pose proof (r_inv _ (si_ready _ _ I)) as IV.
  rewrite (modEdge_spec _ id a e _ IV S). eexists. split; [reflexivity|].
  pose proof (Inv_set_edge _ id a e (e_setLoop true e) IV S eq_refl eq_refl eq_refl) as IV2.
  destruct I as [R P1 P2 P3 P4 P5 P6 P7 P8 P9 P10 P11].
  set (g := s_graph s) in *.
  pose proof (nth_error_lt _ _ _ S) as L. pose proof L as LB. apply Nat.ltb_lt in LB.
  assert (SL : forall j, slot (mkGraph (upd (g_edges g) id (Some (a, e_setLoop true e))) (g_nodes g) (g_pool g)) j =
     if j =? id then Some (Some (a, e_setLoop true e)) else slot g j).
  { intro j. unfold slot. cbn [g_edges]. rewrite nth_error_upd, LB, andb_true_r. reflexivity. }
  split; [|split; reflexivity].
  split; cbn [with_graph s_graph s_last s_prev s_first s_first_added s_eseq s_vseq s_verts s_gedges s_map g_pool g_nodes g_edges];
    rewrite ?length_upd; auto.
  - destruct R as [R1 R2 R3 R4]. split.
    + exact IV2.
    + apply clr_iff. apply clr_iff in R2. destruct R2 as [A B]. split; [exact A|].
      intros j b f X. rewrite SL in X. destruct (Nat.eqb_spec j id) as [->|N]; [|eauto].
      injection X as <- <-. cbn. eauto.
    + cbn [g_edges]. destruct (g_edges g) as [|[x|] l]; [cbn in L; lia| |destruct R3].
      destruct id; cbn; exact Logic.I.
    + intros k n b X Y. destruct (R4 k n b X Y) as (j & f & Sj & T).
      destruct (Nat.eqb_spec j id) as [->|N].
      * rewrite S in Sj. injection Sj as <- <-. exists id, (e_setLoop true e). rewrite SL, Nat.eqb_refl. auto.
      * exists j, f. rewrite SL. apply Nat.eqb_neq in N. rewrite N. auto.
  - intros j X. rewrite SL. destruct (Nat.eqb_spec j id) as [->|N]; [|auto].
    destruct (P2 id L) as (b & f & Sf & A & B). rewrite S in Sf. injection Sf as <- <-.
    exists a, (e_setLoop true e). auto.
  - intros j b f X. rewrite SL in X. destruct (Nat.eqb_spec j id) as [->|N]; [|eauto].
    injection X as <- <-. cbn. eauto.
Qed.

Definition closure_edge (c : closure Pose Info) (ae : option (addr * edge)) : Prop :=
  exists a e, ae = Some (a, e) /\ e_from e = lc_from c /\ e_to e = lc_to c /\
    e_trans e = lc_trans c /\ e_loop e = true.

Lemma same_nodes_refl (g : graph) : same_nodes g g.
Proof. split; [auto|]. intros k n H. eauto. Qed.
Lemma same_nodes_trans (g1 g2 g3 : graph) : same_nodes g1 g2 -> same_nodes g2 g3 -> same_nodes g1 g3.
Proof.
  intros [A1 B1] [A2 B2]. split; [congruence|]. intros k n H.
  destruct (B1 k n H) as (n2 & H2 & X & Y). destruct (B2 k n2 H2) as (n3 & H3 & X' & Y').
  exists n3. repeat split; congruence.
Qed.

Lemma addClosure_ok env fresh s k c s' k' : SI env s ->
  addClosure env fresh (s, k) c = Ok (s', k') ->
  SI env s' /\ same_nodes (s_graph s) (s_graph s') /\ s_verts s' = s_verts s /\
  exists x, g_edges (s_graph s') = g_edges (s_graph s) ++ [x] /\ closure_edge c x.
Proof.
  intros I H. unfold addClosure in H.
  apply bind_ok_inv in H. destruct H as ([s1 id] & AC & H). cbn [fst snd] in H.
  destruct (addConstrain_ok _ _ _ _ _ _ _ _ _ I AC) as (I1 & EID & HF & HT & GE & SN & SV).
  assert (SL : slot (s_graph s1) id = Some (Some (fresh k, mkEdge id (lc_from c) (lc_to c) Active false false (lc_trans c) (odo_info env)))).
  { unfold slot. rewrite GE, nth_error_snoc, EID, Nat.eqb_refl. reflexivity. }
  destruct (SI_setLoop env s1 id _ _ I1 SL) as (g & ME & I2 & GN & GE2).
  rewrite ME in H. cbn [bind] in H. injection H as <- <-.
  split; [exact I2|]. split.
  - destruct SN as [A B]. cbn [with_graph s_graph]. split; [rewrite GN; auto|]. rewrite GN. auto.
  - split; [exact SV|]. cbn [with_graph s_graph]. eexists. rewrite GE2, GE, EID, upd_snoc. split; [reflexivity|].
    eexists _, _. split; [reflexivity|]. cbn. auto.
Qed.

Lemma addClosures_ok env fresh : forall loops s k s' k', SI env s ->
  foldM (addClosure env fresh) loops (s, k) = Ok (s', k') ->
  SI env s' /\ same_nodes (s_graph s) (s_graph s') /\ s_verts s' = s_verts s /\
  exists xs, g_edges (s_graph s') = g_edges (s_graph s) ++ xs /\ Forall2 closure_edge loops xs.
Proof.
  induction loops as [|c t IH]; intros s k s' k' I H; cbn [foldM] in H.
  - injection H as <- <-. split; [auto|]. split; [apply same_nodes_refl|]. split; [auto|].
    exists []. rewrite app_nil_r. auto.
  - apply bind_ok_inv in H. destruct H as ([s1 k1] & AC & H).
    destruct (addClosure_ok _ _ _ _ _ _ _ I AC) as (I1 & SN1 & SV1 & x & GE1 & CE).
    destruct (IH _ _ _ _ I1 H) as (I2 & SN2 & SV2 & xs & GE2 & F).
    split; [auto|]. split; [eapply same_nodes_trans; eauto|]. split; [congruence|].
    exists (x :: xs). rewrite GE2, GE1, <- app_assoc. auto.
Qed.

Lemma tryLoopClose_ok env ch fresh s id s' b : SI env s ->
  tryLoopClose env ch fresh s id = Ok (s', b) ->
  SI env s' /\ same_nodes (s_graph s) (s_graph s') /\ s_verts s' = s_verts s /\
  exists loops calls xs, genLoopClosures (s_lenv env) ch (s_graph s) id = Ok (s_graph s, loops, calls) /\
    g_edges (s_graph s') = g_edges (s_graph s) ++ xs /\ Forall2 closure_edge loops xs /\
    b = (0 <? length xs) /\ id < length (g_nodes (s_graph s)).
Proof.
  intros I H. unfold tryLoopClose in H.
  apply bind_ok_inv in H. destruct H as ([[g loops] calls] & GL & H).
  apply bind_ok_inv in H. destruct H as ([s1 k1] & FO & H). cbn [fst] in H.
  assert (HQ : id < length (g_nodes (s_graph s))).
  { unfold genLoopClosures, modNode in GL. rewrite getNode_nth in GL.
    destruct (nth_error (g_nodes (s_graph s)) id) as [n|] eqn:E; [|discriminate].
    eapply nth_error_lt; eauto. }
  assert (g = s_graph s) as ->.
  { destruct (oob (s_lenv env)) as [null|] eqn:O.
    - destruct (gen_result (s_graph s) (si_ready _ _ I) _ ch id HQ _ _ _ GL) as (X & _). eauto.
    - destruct (gen_strict (s_graph s) (si_ready _ _ I) _ ch id HQ O _ GL). }
  assert (WG : with_graph s (s_graph s) = s) by (destruct s; reflexivity).
  rewrite WG in FO. destruct (addClosures_ok _ _ _ _ _ _ _ I FO) as (I1 & SN & SV & xs & GE & F).
  injection H as <- <-. split; [auto|]. split; [auto|]. split; [auto|].
  exists loops, calls, xs. split; [auto|]. split; [auto|]. split; [auto|]. split; [|auto].
  rewrite (Forall2_length _ _ _ F). reflexivity.
Qed.

Lemma tryLoopClose_throws (env : senv) ch fresh (s : slam) id : length (g_nodes (s_graph s)) <= id ->
  tryLoopClose env ch fresh s id = Throw.
Proof.
  intro H. unfold tryLoopClose, genLoopClosures, modNode. rewrite getNode_nth.
  assert (nth_error (g_nodes (s_graph s)) id = None) as -> by (apply nth_error_None; auto). reflexivity.
Qed.

(** ** optimising *)
Definition pulled (env : senv) (p : Pose) (n : node) : node :=
  n_setObj (updPos env p (n_obj n)) (n_setPose p n).

Lemma pullVertex_spec env (s : slam) k v n : nth_error (s_verts s) k = Some v ->
  nth_error (g_nodes (s_graph s)) k = Some n ->
  pullVertex env s (k, k) = Ok (with_graph s (mkGraph (g_edges (s_graph s))
      (upd (g_nodes (s_graph s)) k (pulled env (v_est v) n)) (g_pool (s_graph s)))).
Proof.
  intros V N. unfold pullVertex. cbn [fst snd]. unfold vget. rewrite V. cbn [bind].
  unfold modNode. rewrite getNode_nth, N. cbn [bind]. rewrite getNode_nth. cbn [g_nodes g_edges g_pool].
  pose proof (nth_error_lt _ _ _ N) as L. apply Nat.ltb_lt in L.
  rewrite nth_error_upd, Nat.eqb_refl, L. cbn [andb bind]. do 3 f_equal.
  apply nth_error_ext. intro j. rewrite !nth_error_upd, length_upd, L, !andb_true_r.
  destruct (j =? k); reflexivity.
Qed.

Lemma pull_fold env : forall n b (s : slam), b + n <= length (s_verts s) ->
  length (s_verts s) = length (g_nodes (s_graph s)) ->
  exists ns, foldM (pullVertex env) (map (fun i => (i, i)) (seq b n)) s =
     Ok (with_graph s (mkGraph (g_edges (s_graph s)) ns (g_pool (s_graph s)))) /\
    length ns = length (g_nodes (s_graph s)) /\
    forall k, nth_error ns k =
      if (b <=? k) && (k <? b + n)
      then match nth_error (s_verts s) k, nth_error (g_nodes (s_graph s)) k with
           | Some v, Some nd => Some (pulled env (v_est v) nd)
           | _, _ => None
           end
      else nth_error (g_nodes (s_graph s)) k.
Proof.
  induction n as [|n IH]; intros b s LB LV; cbn [seq map foldM].
  - exists (g_nodes (s_graph s)). split; [destruct s as [[]]; reflexivity|]. split; [auto|].
    intro k. assert ((b <=? k) && (k <? b + 0) = false) as -> by lia. reflexivity.
  - destruct (nth_error (s_verts s) b) as [v|] eqn:V; [|apply nth_error_None in V; lia].
    destruct (nth_error (g_nodes (s_graph s)) b) as [nd|] eqn:N; [|apply nth_error_None in N; lia].
    rewrite (pullVertex_spec env s b v nd V N). cbn [bind].
    set (ns1 := upd (g_nodes (s_graph s)) b (pulled env (v_est v) nd)).
    set (s1 := with_graph s _).
    destruct (IH (S b) s1) as (ns & F & LN & NK).
    { cbn. lia. }
    { cbn. unfold ns1. rewrite length_upd. exact LV. }
    exists ns. split; [rewrite F; reflexivity|].
    split; [rewrite LN; cbn; unfold ns1; apply length_upd|].
    intro k. rewrite NK. cbn [s1 with_graph s_verts s_graph g_nodes]. unfold ns1.
    pose proof (nth_error_lt _ _ _ N) as L. apply Nat.ltb_lt in L.
    rewrite nth_error_upd, L, andb_true_r.
    destruct (Nat.eqb_spec k b) as [->|NE].
    + assert ((S b <=? b) && (b <? S b + n) = false) as -> by lia.
      assert ((b <=? b) && (b <? b + S n) = true) as -> by lia. rewrite V, N. reflexivity.
    + assert ((S b <=? k) && (k <? S b + n) = (b <=? k) && (k <? b + S n)) as -> by lia. reflexivity.
Qed.

Lemma optimalize_ok env s est : SI env s ->
  exists s', optimalize env s est = Ok (s', true) /\ SI env s' /\
    g_edges (s_graph s') = g_edges (s_graph s) /\
    s_verts s' = moveVerts est (s_verts s) /\ s_gedges s' = s_gedges s /\
    length (g_nodes (s_graph s')) = length (g_nodes (s_graph s)) /\
    forall k, nth_error (g_nodes (s_graph s')) k =
      match nth_error (s_verts s') k, nth_error (g_nodes (s_graph s)) k with
      | Some v, Some nd => Some (pulled env (v_est v) nd)
      | _, _ => None
      end.
Proof.
  intro I. unfold optimalize, updatePoseGraph. cbn [s_map].
  destruct I as [R P1 P2 P3 P4 P5 P6 P7 P8 P9 P10 P11].
  set (s0 := mkSlam _ _ _ _ _ _ _ _ _ _).
  assert (LM : length (moveVerts est (s_verts s)) = length (g_nodes (s_graph s)))
    by (unfold moveVerts; rewrite map_length; auto).
  rewrite P5.
  destruct (pull_fold env (length (g_nodes (s_graph s))) 0 s0) as (ns & F & LN & NK).
  { cbn. rewrite LM. lia. }
  { exact LM. }
  rewrite F. cbn [bind]. eexists. split; [reflexivity|].
  cbn [s0 with_graph s_graph s_verts s_gedges g_nodes g_edges g_pool] in *.
  assert (NK' : forall k, nth_error ns k =
    match nth_error (moveVerts est (s_verts s)) k, nth_error (g_nodes (s_graph s)) k with
    | Some v, Some nd => Some (pulled env (v_est v) nd) | _, _ => None end).
  { intro k. rewrite NK. destruct ((0 <=? k) && _) eqn:B; [reflexivity|].
    assert (nth_error (g_nodes (s_graph s)) k = None) as -> by (apply nth_error_None; lia).
    destruct (nth_error (moveVerts est (s_verts s)) k); reflexivity. }
  assert (NN : forall k n', nth_error ns k = Some n' -> exists n p, nth_error (g_nodes (s_graph s)) k = Some n /\
     n' = pulled env p n).
  { intros k n' X. rewrite NK' in X. destruct (nth_error (moveVerts est (s_verts s)) k) as [v|]; [|discriminate].
    destruct (nth_error (g_nodes (s_graph s)) k) as [n|]; [|discriminate]. injection X as <-. eauto. }
  split; [|split; [reflexivity|split; [reflexivity|split; [reflexivity|split; [exact LN|exact NK']]]]].
  split; cbn [s0 with_graph s_graph s_last s_prev s_first s_first_added s_eseq s_vseq s_verts s_gedges s_map g_pool g_nodes g_edges];
    rewrite ?LN; auto.
  - destruct R as [R1 R2 R3 R4]. split.
    + destruct R1 as [I1 I2 I3 I4 I5 I6 I7]. split;
        [exact I1|exact I2|intros id a e S; cbn [with_graph s_graph g_nodes]; rewrite LN; exact (I3 id a e S)|exact I4| | |]; cbn [with_graph s_graph g_nodes].
      * intros k n' X. destruct (NN k n' X) as (n & p & Hn & ->). apply (I5 k n Hn).
      * intros id a e n' X Y. destruct (NN _ n' Y) as (n & p & Hn & ->). apply (I6 id a e n X Hn).
      * intros id a e n' X Y. destruct (NN _ n' Y) as (n & p & Hn & ->). apply (I7 id a e n X Hn).
    + apply clr_iff. apply clr_iff in R2. destruct R2 as [A B]. split; [|exact B].
      intros k n' X. destruct (NN k n' X) as (n & p & Hn & ->). apply (A k n Hn).
    + exact R3.
    + intros k n' a X. destruct (NN k n' X) as (n & p & Hn & ->). apply (R4 k n a Hn).
  - intros k v X. unfold moveVerts in X. rewrite nth_error_map in X.
    destruct (nth_error (s_verts s) k) as [v0|] eqn:E; [|discriminate]. injection X as <-.
    destruct (P4 k v0 E) as [A B]. destruct (v_fixed v0) eqn:FX; cbn; [rewrite FX|]; auto.
Qed.

(** ** histories *)
Definition log_ok (env : senv) (s : slam) (log : list sev) : Prop :=
  n_poses log = length (g_nodes (s_graph s)) /\
  rev (pose_ids log) = seq 0 (n_poses log) /\
  (forall id p o, known_pose log id = Some (p, o) ->
     exists n, nth_error (g_nodes (s_graph s)) id = Some n /\ n_pose n = p /\ n_obj n = o) /\
  (forall id, id < n_poses log <-> added_pose log id <> None) /\
  (forall p, added_pose log 0 = Some p ->
     exists v, nth_error (s_verts s) 0 = Some v /\ v_est v = se2 env p) /\
  (forall id f t tr i, known_constr log id = Some (f, t, tr, i) ->
     exists a e, slot (s_graph s) id = Some (Some (a, e)) /\ e_from e = f /\ e_to e = t /\ e_trans e = tr).

Lemma snoc_slot (g g' : graph) x id a e : g_edges g' = g_edges g ++ x ->
  slot g id = Some (Some (a, e)) -> slot g' id = Some (Some (a, e)).
Proof.
  intros E S. unfold slot in *. rewrite E. rewrite nth_error_app1; [auto|]. eapply nth_error_lt; eauto.
Qed.

Lemma log_ok_edges env s s' log ev : log_ok env s log ->
  same_nodes (s_graph s) (s_graph s') -> s_verts s' = s_verts s ->
  (exists x, g_edges (s_graph s') = g_edges (s_graph s) ++ x) ->
  n_poses (ev :: log) = n_poses log -> pose_ids (ev :: log) = pose_ids log ->
  (forall id, known_pose (ev :: log) id = known_pose log id) ->
  (forall id, added_pose (ev :: log) id = added_pose log id) ->
  (forall id f t tr i, known_constr (ev :: log) id = Some (f, t, tr, i) ->
     known_constr log id = Some (f, t, tr, i) \/
     exists a e, slot (s_graph s') id = Some (Some (a, e)) /\ e_from e = f /\ e_to e = t /\ e_trans e = tr) ->
  log_ok env s' (ev :: log).
Proof.
  intros (A1 & A2 & A3 & A4 & A5 & A6) [SL SN] SV (x & GE) N1 N2 KP AP KC.
  split; [|split; [|split; [|split; [|split]]]].
  - rewrite N1, A1, SL. reflexivity.
  - rewrite N1, N2. exact A2.
  - intros id p o H. rewrite KP in H. destruct (A3 id p o H) as (n & Hn & X & Y).
    destruct (SN id n Hn) as (n' & Hn' & X' & Y'). exists n'. repeat split; congruence.
  - intro id. rewrite N1, AP. apply A4.
  - intros p H. rewrite AP in H. rewrite SV. auto.
  - intros id f t tr i H. destruct (KC id f t tr i H) as [K|K]; [|auto].
    destruct (A6 id f t tr i K) as (a & e & S & X). exists a, e. split; [|auto]. eapply snoc_slot; eauto.
Qed.

Lemma sstep_ok env s log o s' ev : SI env s -> log_ok env s log ->
  sstep env s o = Ok (s', ev) -> SI env s' /\ log_ok env s' (ev :: log).
Proof.
  intros I L H.
  assert (NP : n_poses log = length (g_nodes (s_graph s))) by apply L.
  destruct o as [p x|a f t tr i|a tr i|id ch fresh|ch fresh|est]; cbn [sstep] in H.
  - destruct (addPose env s p x) as [s1 id] eqn:E. injection H as <- <-.
    destruct (addPose_SI env s p x I) as [I1 ID]. rewrite E in I1, ID. cbn [fst snd] in I1, ID.
    split; [auto|]. destruct (addPose_effect env s p x I) as (GE & LN & NN). rewrite E in GE, LN, NN.
    cbn [fst] in GE, LN, NN.
    destruct L as (A1 & A2 & A3 & A4 & A5 & A6). rewrite A1 in *.
    assert (N1 : n_poses (SvPose id p x :: log) = S (length (g_nodes (s_graph s)))).
    { unfold n_poses in *. cbn [pose_ids length]. lia. }
    split; [|split; [|split; [|split; [|split]]]].
    + rewrite N1. auto.
    + rewrite N1, seq_S. cbn [pose_ids rev]. rewrite A2, ID. reflexivity.
    + intros k q o H. cbn [known_pose] in H. rewrite NN, <- ID. rewrite Nat.eqb_sym.
      destruct (id =? k) eqn:EK.
      * injection H as <- <-. eexists. split; [reflexivity|]. auto.
      * auto.
    + intro k. rewrite N1. cbn [added_pose]. destruct (Nat.eqb_spec id k) as [<-|NE].
      * split; [congruence|lia].
      * rewrite <- A4. lia.
    + intros q H. cbn [added_pose] in H.
      unfold addPose, addNode in E. injection E as <- _. cbn [s_verts]. rewrite nth_error_snoc.
      rewrite (si_vlen _ _ I). rewrite ID in H.
      destruct (Nat.eqb_spec (length (g_nodes (s_graph s))) 0) as [EZ|NZ].
      * injection H as <-. rewrite EZ. cbn. eexists. split; reflexivity.
      * assert (0 =? length (g_nodes (s_graph s)) = false) as -> by lia. auto.
    + intros k f t tr i H. cbn [known_constr] in H. destruct (A6 k f t tr i H) as (a & e & S & X).
      exists a, e. split; [|auto]. unfold slot in *. rewrite GE. exact S.
  - apply bind_ok_inv in H. destruct H as ([s1 id] & AC & H). cbn [fst snd] in H. injection H as <- <-.
    destruct (addConstrain_ok _ _ _ _ _ _ _ _ _ I AC) as (I1 & EID & HF & HT & GE & SN & SV).
    split; [auto|]. eapply log_ok_edges; eauto.
    intros k f' t' tr' i' K. cbn [known_constr] in K. destruct (Nat.eqb_spec id k) as [<-|NE]; [|auto].
    injection K as <- <- <- <-. right. eexists _, _. split.
    + unfold slot. rewrite GE, nth_error_snoc, EID, Nat.eqb_refl. reflexivity.
    + cbn. auto.
  - apply bind_ok_inv in H. destruct H as ([s1 id] & AC & H). cbn [fst snd] in H. injection H as <- <-.
    unfold addLastConstrain in AC.
    destruct (addConstrain_ok _ _ _ _ _ _ _ _ _ I AC) as (I1 & EID & HF & HT & GE & SN & SV).
    split; [auto|]. eapply log_ok_edges; eauto.
    intros k f' t' tr' i' K. cbn [known_constr] in K. destruct (Nat.eqb_spec id k) as [<-|NE]; [|auto].
    injection K as <- <- <- <-. right. destruct (si_last _ _ I) as [LA LP]. eexists _, _. split.
    + unfold slot. rewrite GE, nth_error_snoc, EID, Nat.eqb_refl. reflexivity.
    + cbn. rewrite NP. auto.
  - apply bind_ok_inv in H. destruct H as ([s1 b] & TL & H). cbn [fst snd] in H. injection H as <- <-.
    destruct (tryLoopClose_ok _ _ _ _ _ _ _ I TL) as (I1 & SN & SV & loops & calls & xs & _ & GE & _).
    split; [auto|]. eapply log_ok_edges; eauto.
  - apply bind_ok_inv in H. destruct H as ([s1 b] & TL & H). cbn [fst snd] in H. injection H as <- <-.
    destruct (tryLoopClose_ok _ _ _ _ _ _ _ I TL) as (I1 & SN & SV & loops & calls & xs & _ & GE & _).
    split; [auto|]. eapply log_ok_edges; eauto.
  - destruct (optimalize_ok env s est I) as (s1 & O & I1 & GE & SV & SG & LN & NK).
    rewrite O in H. cbn [bind fst] in H. injection H as <- <-. split; [auto|].
    destruct L as (A1 & A2 & A3 & A4 & A5 & A6).
    split; [|split; [|split; [|split; [|split]]]].
    + rewrite LN. exact A1.
    + exact A2.
    + intros k p o H. discriminate.
    + exact A4.
    + intros p H. destruct (A5 p H) as (v & V & E). rewrite SV. unfold moveVerts. rewrite nth_error_map, V.
      cbn [option_map]. destruct (si_vert _ _ I 0 v V) as (_ & FX). rewrite FX. cbn. eauto.
    + intros k f t tr i H. destruct (A6 k f t tr i H) as (a & e & S & X). exists a, e.
      split; [|auto]. unfold slot in *. rewrite GE. exact S.
Qed.

Lemma log_ok_throw env s log : log_ok env s log -> log_ok env s (SvThrow :: log).
Proof. intro L. exact L. Qed.

Lemma srun_fold (env : senv) : forall l s log s' log', SI env s -> log_ok env s log ->
  foldM (sstep_log env) l (s, log) = Ok (s', log') -> SI env s' /\ log_ok env s' log'.
Proof.
  induction l as [|o t IH]; intros s log s' log' I L H; cbn [foldM] in H.
  - injection H as <- <-. auto.
  - apply bind_ok_inv in H. destruct H as ([s1 log1] & E & H).
    unfold sstep_log in E. cbn [fst snd] in E. destruct (sstep env s o) as [[s2 ev]| |] eqn:S; [|discriminate|].
    + injection E as <- <-. destruct (sstep_ok _ _ _ _ _ _ I L S). eauto.
    + injection E as <- <-. eapply IH; [exact I| |exact H]. apply log_ok_throw; auto.
Qed.

Lemma srun_ok (env : senv) l s log : srun env l = Ok (s, log) -> SI env s /\ log_ok env s log.
Proof.
  intro H. eapply srun_fold; [apply SI_init| |exact H].
  split; [reflexivity|]. split; [reflexivity|]. split; [discriminate|]. split; [|split; discriminate].
  intro id. cbn. split; [lia|congruence].
Qed.

(** ** C36 *)
Lemma slam_poses (env : senv) l s log : srun env l = Ok (s, log) ->
  rev (pose_ids log) = seq 0 (n_poses log) /\
  (forall id p o, known_pose log id = Some (p, o) ->
     getPoseLocation s id = Ok p /\ getPoseData s id = Ok o) /\
  (forall id, id < n_poses log -> exists p o, getPoseLocation s id = Ok p /\ getPoseData s id = Ok o) /\
  (forall id, n_poses log <= id -> getPoseLocation s id = Throw /\ getPoseData s id = Throw).
Proof.
  intro H. destruct (srun_ok _ _ _ _ H) as [I (A1 & A2 & A3 & A4 & A5 & A6)].
  split; [auto|]. unfold getPoseLocation, getPoseData. split; [|split].
  - intros id p o K. destruct (A3 id p o K) as (n & N & <- & <-). rewrite getNode_nth, N. auto.
  - intros id K. rewrite getNode_nth. destruct (nth_error (g_nodes (s_graph s)) id) as [n|] eqn:N.
    + cbn. eauto.
    + apply nth_error_None in N. lia.
  - intros id K. rewrite getNode_nth.
    assert (nth_error (g_nodes (s_graph s)) id = None) as -> by (apply nth_error_None; lia). auto.
Qed.

(** ** C37 *)
Lemma slam_constraints (env : senv) l s log id f t tr i : srun env l = Ok (s, log) ->
  known_constr log id = Some (f, t, tr, i) ->
  getConstrainTransform s id = Ok tr /\ getConstrainPoses s id = Ok (f, t) /\
  getConstrainInformMat s id = Ok (odo_info env).
Proof.
  intros H K. destruct (srun_ok _ _ _ _ H) as [I (A1 & A2 & A3 & A4 & A5 & A6)].
  destruct (A6 _ _ _ _ _ K) as (a & e & S & <- & <- & <-).
  pose proof (r_inv _ (si_ready _ _ I)) as IV.
  unfold getConstrainTransform, getConstrainPoses, getConstrainInformMat.
  rewrite (getEdge_slot _ id IV), S. cbn [bind].
  destruct (inv_edge _ IV _ _ _ S) as (_ & HF & HT).
  destruct (nth_error (g_nodes (s_graph s)) (e_from e)) as [nf|] eqn:NF; [|apply nth_error_None in NF; lia].
  destruct (nth_error (g_nodes (s_graph s)) (e_to e)) as [nt|] eqn:NT; [|apply nth_error_None in NT; lia].
  unfold vget. rewrite NF, NT. cbn [bind].
  destruct (inv_node _ IV _ _ NF) as (-> & _). destruct (inv_node _ IV _ _ NT) as (-> & _).
  split; [auto|]. split; [auto|].
  pose proof (nth_error_lt _ _ _ S) as L. destruct (si_some _ _ I id L) as (b & e' & S' & _ & B).
  rewrite S in S'. injection S' as <- <-. rewrite B. reflexivity.
Qed.

(** ** C38 *)
Lemma slam_last (env : senv) l s log a tr i s' id : srun env l = Ok (s, log) ->
  sstep env s (SAddLast a tr i) = Ok (s', SvLast id tr i) ->
  1 <= n_poses log /\ getConstrainPoses s' id = Ok (n_poses log - 2, n_poses log - 1) /\
  getConstrainTransform s' id = Ok tr.
Proof.
  intros H S. destruct (srun_ok _ _ _ _ H) as [I L].
  assert (R : srun env (l ++ [SAddLast a tr i]) = Ok (s', SvLast id tr i :: log)).
  { unfold srun. rewrite foldM_app. unfold srun in H. rewrite H. cbn [bind foldM].
    unfold sstep_log. cbn [fst snd]. rewrite S. reflexivity. }
  split.
  - destruct L as (A1 & _). rewrite A1. cbn [sstep] in S. apply bind_ok_inv in S.
    destruct S as ([s1 id1] & AC & _). unfold addLastConstrain in AC.
    destruct (addConstrain_ok _ _ _ _ _ _ _ _ _ I AC) as (_ & _ & HF & _). lia.
  - destruct (slam_constraints env _ _ _ id (n_poses log - 2) (n_poses log - 1) tr i R) as (A & B & _); [|auto].
    cbn [known_constr]. rewrite Nat.eqb_refl. reflexivity.
Qed.

Lemma slam_last_throws (env : senv) l s log a tr i : srun env l = Ok (s, log) -> n_poses log = 0 ->
  sstep env s (SAddLast a tr i) = Throw.
Proof.
  intros H N. destruct (srun_ok _ _ _ _ H) as [I (A1 & _)]. cbn [sstep]. unfold addLastConstrain.
  rewrite (addConstrain_throws env s a _ _ tr i I); [reflexivity|]. lia.
Qed.

(** chain *)
Lemma drive_chain (env : senv) : forall (l : list (Pose * Obj * addr * Pose * Info)) s s' log log',
  SI env s -> 0 < length (g_nodes (s_graph s)) ->
  foldM (sstep_log env) (drive l) (s, log) = Ok (s', log') ->
  length (g_nodes (s_graph s')) = length (g_nodes (s_graph s)) + length l /\
  exists xs, g_edges (s_graph s') = g_edges (s_graph s) ++ xs /\ length xs = length l /\
    forall k, k < length l -> exists a e p o a' t i, nth_error xs k = Some (Some (a, e)) /\
      nth_error l k = Some (p, o, a', t, i) /\ e_trans e = t /\
      e_from e = length (g_nodes (s_graph s)) - 1 + k /\ e_to e = length (g_nodes (s_graph s)) + k.
Proof.
  induction l as [|[[[[p o] a] t] i] r IH]; intros s s' log log' I LN H; cbn [drive foldM] in H.
  - injection H as <- <-. split; [cbn; lia|]. exists []. rewrite app_nil_r. cbn. split; [auto|].
    split; [auto|]. intros k Hk. lia.
  - unfold sstep_log at 1 in H. cbn [sstep fst snd] in H.
    destruct (addPose env s p o) as [s1 id1] eqn:E1. cbn [bind] in H.
    destruct (addPose_SI env s p o I) as [I1 ID1].
    destruct (addPose_effect env s p o I) as (GE1 & LN1 & _).
    rewrite E1 in I1, ID1, GE1, LN1. cbn [fst snd] in *.
    unfold sstep_log at 1 in H. cbn [sstep fst snd] in H.
    destruct (addLastConstrain env s1 a t i) as [[s2 id2]| |] eqn:E2; cbn [bind fst snd] in H; [|discriminate|].
    2: { unfold addLastConstrain in E2. destruct (si_last _ _ I1) as [LA LP].
         destruct (live_addr (s_graph s1) a) eqn:LV.
         - unfold addConstrain in E2. rewrite !getNode_nth in E2.
           destruct (nth_error (g_nodes (s_graph s1)) (s_prev s1)) as [nf|] eqn:NF; [|apply nth_error_None in NF; lia].
           destruct (nth_error (g_nodes (s_graph s1)) (s_last s1)) as [nt|] eqn:NT; [|apply nth_error_None in NT; lia].
           cbn [bind] in E2. unfold addEdge in E2. rewrite LV in E2. discriminate.
         - destruct (addConstrain_defined env s1 a (s_prev s1) (s_last s1) t i I1 LV) as (sx & X); [lia|lia|].
           congruence. }
    unfold addLastConstrain in E2.
    destruct (addConstrain_ok _ _ _ _ _ _ _ _ _ I1 E2) as (I2 & EID & HF & HT & GE2 & [SNL _] & SV).
    destruct (si_last _ _ I1) as [LA LP].
    assert (LP2 : 0 < length (g_nodes (s_graph s2))) by lia.
    destruct (IH s2 s' _ log' I2 LP2 H) as (LN' & xs & GE & LX & K).
    split; [cbn [length]; lia|]. exists (Some (a, mkEdge id2 (s_prev s1) (s_last s1) Active false false t (odo_info env)) :: xs).
    split; [rewrite GE, GE2, <- app_assoc, GE1; reflexivity|]. split; [cbn; lia|].
    intros [|k] Hk.
    + exists a. eexists. exists p, o, a, t, i. cbn [nth_error]. split; [reflexivity|]. split; [reflexivity|].
      cbn [e_trans e_from e_to]. split; [reflexivity|]. rewrite LP, LA. lia.
    + cbn [length] in Hk. destruct (K k) as (b & e & p' & o' & a' & t' & i' & X1 & X2 & X3 & X4 & X5); [lia|].
      exists b, e, p', o', a', t', i'. cbn [nth_error]. split; [auto|]. split; [auto|]. split; [auto|]. lia.
Qed.

Lemma slam_chain (env : senv) p0 o0 l s log : srun env (SAddPose p0 o0 :: drive l) = Ok (s, log) ->
  nodeCount (s_graph s) = S (length l) /\ length (g_edges (s_graph s)) = length l /\
  forall k p o a t i, nth_error l k = Some (p, o, a, t, i) ->
    getConstrainPoses s k = Ok (k, S k) /\ getConstrainTransform s k = Ok t.
Proof.
  intro H. unfold srun in H. cbn [foldM] in H. unfold sstep_log at 1 in H. cbn [sstep fst snd] in H.
  destruct (addPose env slam_init p0 o0) as [s1 id1] eqn:E1. cbn [bind] in H.
  destruct (addPose_SI env slam_init p0 o0 (SI_init env)) as [I1 ID1].
  destruct (addPose_effect env slam_init p0 o0 (SI_init env)) as (GE1 & LN1 & _).
  rewrite E1 in I1, ID1, GE1, LN1. cbn [fst snd] in *.
  assert (LP1 : 0 < length (g_nodes (s_graph s1))) by (rewrite LN1; lia).
  destruct (drive_chain env l s1 s _ log I1 LP1 H) as (LN & xs & GE & LX & K).
  assert (L1 : length (g_nodes (s_graph s1)) = 1) by (rewrite LN1; reflexivity).
  assert (E0 : g_edges (s_graph s1) = []) by (rewrite GE1; reflexivity).
  rewrite E0 in GE. cbn [app] in GE. rewrite L1 in *.
  split; [unfold nodeCount; lia|]. split; [congruence|].
  intros k p o a t i N. pose proof (nth_error_lt _ _ _ N) as L.
  destruct (K k L) as (b & e & p' & o' & a' & t' & i' & X1 & X2 & X3 & X4 & X5).
  rewrite N in X2. injection X2 as <- <- <- <- <-.
  assert (IS : SI env s).
  { assert (R : srun env (SAddPose p0 o0 :: drive l) = Ok (s, log)).
    { unfold srun. cbn [foldM]. unfold sstep_log at 1. cbn [sstep fst snd]. rewrite E1. exact H. }
    apply (srun_ok _ _ _ _ R). }
  pose proof (r_inv _ (si_ready _ _ IS)) as IV.
  assert (S : slot (s_graph s) k = Some (Some (b, e))) by (unfold slot; rewrite GE; exact X1).
  destruct (inv_edge _ IV _ _ _ S) as (_ & HF & HT).
  unfold getConstrainPoses, getConstrainTransform. rewrite (getEdge_slot _ k IV), S. cbn [bind].
  destruct (nth_error (g_nodes (s_graph s)) (e_from e)) as [nf|] eqn:NF; [|apply nth_error_None in NF; lia].
  destruct (nth_error (g_nodes (s_graph s)) (e_to e)) as [nt|] eqn:NT; [|apply nth_error_None in NT; lia].
  unfold vget. rewrite NF, NT. cbn [bind].
  destruct (inv_node _ IV _ _ NF) as (-> & _). destruct (inv_node _ IV _ _ NT) as (-> & _).
  rewrite X3, X4, X5. split; [|auto]. do 2 f_equal; lia.
Qed.

(** ** C39 *)
Lemma slam_mirror (env : senv) l s log : srun env l = Ok (s, log) -> mirrors (se2 env) s.
Proof.
  intro H. destruct (srun_ok _ _ _ _ H) as [I _]. split; [apply (si_vlen _ _ I)|].
  split; [apply (si_vert _ _ I)|]. split; [apply (si_gelen _ _ I)|].
  intros id e G. rewrite (getEdge_slot _ id (r_inv _ (si_ready _ _ I))) in G.
  destruct (slot (s_graph s) id) as [[[a e']|]|] eqn:S; try discriminate. injection G as ->.
  eapply (si_ge _ _ I); eauto.
Qed.

Lemma slam_optimise (env : senv) l s log est : srun env l = Ok (s, log) ->
  exists s', optimalize env s est = Ok (s', true) /\
    g_edges (s_graph s') = g_edges (s_graph s) /\ s_gedges s' = s_gedges s /\
    nodeCount (s_graph s') = nodeCount (s_graph s) /\
    (forall p, added_pose log 0 = Some p -> getPoseLocation s' 0 = Ok (se2 env p)) /\
    (forall k, 0 < k < nodeCount (s_graph s) -> getPoseLocation s' k = Ok (est k)) /\
    (forall k o, getPoseData s k = Ok o ->
       exists p, getPoseLocation s' k = Ok p /\ getPoseData s' k = Ok (updPos env p o)).
Proof.
  intro H. destruct (srun_ok _ _ _ _ H) as [I (A1 & A2 & A3 & A4 & A5 & A6)].
  destruct (optimalize_ok env s est I) as (s' & O & I' & GE & SV & SG & LN & NK).
  exists s'. split; [auto|]. split; [auto|]. split; [auto|]. split; [unfold nodeCount; auto|].
  unfold getPoseLocation, getPoseData. split; [|split].
  - intros p P. destruct (A5 p P) as (v & V & E). rewrite getNode_nth, NK, SV. unfold moveVerts.
    rewrite nth_error_map, V. cbn [option_map].
    destruct (nth_error (g_nodes (s_graph s)) 0) as [n|] eqn:N.
    + destruct (si_vert _ _ I 0 v V) as (_ & FX). rewrite FX. cbn. congruence.
    + apply nth_error_None in N. apply nth_error_lt in V. rewrite (si_vlen _ _ I) in V. lia.
  - intros k HK. unfold nodeCount in HK. rewrite getNode_nth, NK, SV. unfold moveVerts. rewrite nth_error_map.
    destruct (nth_error (s_verts s) k) as [v|] eqn:V; [|apply nth_error_None in V; rewrite (si_vlen _ _ I) in V; lia].
    destruct (nth_error (g_nodes (s_graph s)) k) as [n|] eqn:N; [|apply nth_error_None in N; lia].
    destruct (si_vert _ _ I k v V) as (ID & FX). cbn [option_map]. rewrite FX.
    assert (k =? 0 = false) as -> by lia. cbn. congruence.
  - intros k o G. rewrite !getNode_nth in *. rewrite NK.
    destruct (nth_error (g_nodes (s_graph s)) k) as [n|] eqn:N; [|discriminate]. cbn in G. injection G as <-.
    destruct (nth_error (s_verts s') k) as [v|] eqn:V.
    + cbn. eauto.
    + apply nth_error_None in V. rewrite (si_vlen _ _ I'), LN in V. apply nth_error_lt in N. lia.
Qed.

(** ** C40 *)
Lemma slam_loop (env : senv) l s log ch fresh id s' b : srun env l = Ok (s, log) ->
  tryLoopClose env ch fresh s id = Ok (s', b) ->
  exists loops calls,
    genLoopClosures (s_lenv env) ch (s_graph s) id = Ok (s_graph s, loops, calls) /\
    (b = true <-> loops <> []) /\
    length (g_edges (s_graph s')) = length (g_edges (s_graph s)) + length loops /\
    (forall k, k < length (g_edges (s_graph s)) -> getEdge (s_graph s') k = getEdge (s_graph s) k) /\
    (forall k c, nth_error loops k = Some c ->
       exists e, getEdge (s_graph s') (length (g_edges (s_graph s)) + k) = Ok e /\
         e_from e = lc_from c /\ e_to e = lc_to c /\ e_trans e = lc_trans c /\ e_loop e = true) /\
    nodeCount (s_graph s') = nodeCount (s_graph s) /\
    (forall k, getPoseLocation s' k = getPoseLocation s k /\ getPoseData s' k = getPoseData s k) /\
    s_verts s' = s_verts s.
Proof.
  intros H T. destruct (srun_ok _ _ _ _ H) as [I _].
  destruct (tryLoopClose_ok _ _ _ _ _ _ _ I T) as (I' & [SN1 SN2] & SV & loops & calls & xs & G & GE & F & B & HQ).
  pose proof (r_inv _ (si_ready _ _ I)) as IV. pose proof (r_inv _ (si_ready _ _ I')) as IV'.
  exists loops, calls. split; [auto|]. pose proof (Forall2_length _ _ _ F) as FL.
  split. { rewrite B, <- FL. destruct loops; cbn; split; congruence. }
  split; [rewrite GE, app_length; lia|]. split.
  { intros k Hk. rewrite (getEdge_slot _ k IV), (getEdge_slot _ k IV'). unfold slot. rewrite GE, nth_error_app1 by auto. reflexivity. }
  split.
  { intros k c N. rewrite (getEdge_slot _ _ IV'). unfold slot. rewrite GE, nth_error_app2 by lia.
    replace (length (g_edges (s_graph s)) + k - length (g_edges (s_graph s))) with k by lia.
    clear - F N. revert k N. induction F as [|c' x lo xs' (a & e & -> & E) F IH]; intros [|k] N; try discriminate.
    - injection N as ->. cbn. exists e. auto.
    - cbn. apply IH; auto. }
  split; [exact SN1|]. split; [|auto].
  intro k. unfold getPoseLocation, getPoseData. rewrite !getNode_nth.
  destruct (nth_error (g_nodes (s_graph s)) k) as [n|] eqn:N.
  - destruct (SN2 k n N) as (n' & -> & X & Y). cbn. rewrite X, Y. auto.
  - apply nth_error_None in N.
    assert (nth_error (g_nodes (s_graph s')) k = None) as -> by (apply nth_error_None; lia). auto.
Qed.

Lemma slam_loop_last (env : senv) l s log ch fresh : srun env l = Ok (s, log) ->
  tryLoopCloseLast env ch fresh s = tryLoopClose env ch fresh s (n_poses log - 1).
Proof.
  intro H. destruct (srun_ok _ _ _ _ H) as [I (A1 & _)]. unfold tryLoopCloseLast.
  destruct (si_last _ _ I) as [-> _]. rewrite A1. reflexivity.
Qed.

(** ** graphs built by hand *)
Lemma gstep_clr (g : graph) o g' ev : Inv g -> clr g = g -> gstep g o = Ok (g', ev) -> clr g' = g'.
Proof.
  intros I C H. apply clr_iff in C. destruct C as [A B]. apply clr_iff.
  destruct o as [p x|a f t tr i|id]; cbn [gstep] in H.
  - injection H as <- _. split; [|exact B]. intros k n.
    pose proof (addNode_nodes g p x k) as N. unfold addNode in N. cbn [fst] in N. rewrite N.
    destruct (k =? length (g_nodes g)); [|apply A]. intro X. injection X as <-. reflexivity.
  - apply bind_ok_inv in H. destruct H as ([g1 id] & AE & H). injection H as <- _. cbn [fst].
    pose proof (addEdge_pre g a _ _ I AE) as P.
    destruct (addEdge_spec g a (newEdge f t tr i) I P) as (g2 & id2 & E & _ & _ & _ & SL & ND).
    rewrite AE in E. injection E as <- <-. split.
    + intros k n X. rewrite ND in X. destruct (nth_error (g_nodes g) k) as [n0|] eqn:N; [|discriminate].
      injection X as <-. destruct (touch_node_rest a f t k n0) as (_ & _ & _ & ->). eauto.
    + intros j b e X. rewrite SL in X. destruct (j =? id); [|eauto]. injection X as <- <-. reflexivity.
  - apply bind_ok_inv in H. destruct H as ([g1 b] & RE & H). injection H as <- _. cbn [fst].
    unfold removeEdge in RE. destruct (length (g_edges g) <? id); [injection RE as <- _; auto|].
    destruct (existsb (Nat.eqb id) (g_pool g)); [injection RE as <- _; auto|].
    unfold vset in RE. destruct (id <? length (g_edges g)) eqn:L; [|discriminate].
    cbn [bind] in RE. injection RE as <- _. split; [exact A|].
    intros j c e. unfold slot. cbn [g_edges]. rewrite nth_error_upd, L, andb_true_r.
    destruct (j =? id); [discriminate|apply B].
Qed.

Lemma grun_ready l (g : graph) log : grun l = Ok (g, log) -> no_removal l = true -> ready g.
Proof.
  intros R NR. destruct (grun_ok _ _ _ R) as [I L].
  assert (X : exact_adj g).
  { eapply grun_fold_exact; [apply Inv_empty| | |exact NR|exact R].
    - split; [|split]; intro id; unfold slot; destruct id; reflexivity.
    - split; [reflexivity|]. intros [|]; discriminate. }
  split; [exact I| | |].
  - clear NR X L I. unfold grun in R.
    assert (GEN : forall l (g0 : graph) log0, Inv g0 -> GraphProofs.log_ok g0 log0 -> clr g0 = g0 ->
       foldM (fun s o => do r <- gstep (fst s) o; Ok (fst r, snd r :: snd s)) l (g0, log0) = Ok (g, log) ->
       clr g = g).
    { clear. induction l as [|o t IH]; intros g0 log0 I L C H; cbn [foldM fst snd] in H.
      - injection H as <- <-. auto.
      - apply bind_ok_inv in H. destruct H as ([g1 log1] & E & H).
        apply bind_ok_inv in E. destruct E as ([g2 ev] & S & E). injection E as <- <-.
        destruct (gstep_ok _ _ _ _ _ I L S) as [I1 L1]. cbn [fst snd] in *.
        eapply IH; [exact I1|exact L1| |exact H]. exact (gstep_clr _ _ _ _ I C S). }
    eapply GEN; [apply Inv_empty| |reflexivity|exact R].
    split; [|split]; intro id; unfold slot; destruct id; reflexivity.
  - destruct X as [P _]. destruct (g_edges g) as [|[x|] t] eqn:E; auto.
    assert (Z : In 0 (g_pool g)) by (apply (inv_dead g I); unfold slot; rewrite E; reflexivity).
    rewrite P in Z. destruct Z.
  - intros k n a N IN. destruct X as [_ X]. destruct (X k n N) as [_ E]. rewrite E in IN.
    apply in_map_iff in IN. destruct IN as ([b e] & EB & IN). cbn [fst] in EB. subst b.
    apply filter_In in IN. destruct IN as [IN T]. cbn [snd] in T. apply Nat.eqb_eq in T.
    apply somes_In in IN. destruct IN as (j & J). exists j, e. auto.
Qed.

Lemma built_ready (g : graph) : built_graph (Guess := Guess) (D := D) g -> ready g.
Proof.
  intros [(l & log & NR & R)|(env & l & s & log & R & ->)].
  - eapply grun_ready; eauto.
  - destruct (srun_ok _ _ _ _ R) as [I _]. apply (si_ready _ _ I).
Qed.

(** ** the detector on such graphs *)
Notation lenv := (lenv Pose Obj Info Guess D).
Notation lchoice := (lchoice D).

Lemma gen_query_exists (env : lenv) ch (g : graph) q r : genLoopClosures env ch g q = Ok r ->
  q < length (g_nodes g).
Proof.
  unfold genLoopClosures, modNode. rewrite getNode_nth.
  destruct (nth_error (g_nodes g) q) as [n|] eqn:E; [|discriminate]. intros _.
  eapply nth_error_lt; eauto.
Qed.

Lemma loop_thresholds (env : lenv) ch (g : graph) q g' out calls :
  built_graph (Guess := Guess) (D := D) g -> genLoopClosures env ch g q = Ok (g', out, calls) ->
  length calls <= 50 /\
  map (@lc_to _ _) out = rev (map fst (filter snd calls)) /\
  forall c, In c out ->
    lc_from c = q /\ lc_to c <> q /\
    exists nq nc d, getNode g q = Ok nq /\ getNode g (lc_to c) = Ok nc /\
      back_walk (dadd env) (elen env) g (d0 ch) q (lc_to c) d /\
      dlt env d (min_dist env) = false /\
      dlt env (euclid env (n_pose nq) (n_pose nc)) (max_dist env) = true /\
      matcher env (n_obj nc) (n_obj nq) (guess env (n_pose nq) (n_pose nc)) = Some (lc_info c, lc_trans c).
Proof.
  intros B H. pose proof (built_ready g B) as R. pose proof (gen_query_exists _ _ _ _ _ H) as HQ.
  destruct (gen_result g R env ch q HQ _ _ _ H) as (_ & G & L & M & _).
  split; [exact L|]. split; [exact M|]. intros c Hc.
  destruct (G c Hc) as (A1 & A2 & nq & nc & d & N1 & N2 & W & T1 & T2 & T3).
  split; [auto|]. split; [auto|]. exists nq, nc, d. rewrite !getNode_nth, N1, N2. auto 10.
Qed.

Lemma loop_no_trace (env : lenv) ch (g : graph) q g' out calls :
  built_graph (Guess := Guess) (D := D) g -> genLoopClosures env ch g q = Ok (g', out, calls) ->
  unmarked g' /\ g' = g.
Proof.
  intros B H. pose proof (built_ready g B) as R. pose proof (gen_query_exists _ _ _ _ _ H) as HQ.
  destruct (oob env) as [null|] eqn:O.
  - destruct (gen_result g R env ch q HQ _ _ _ H) as (X & _). rewrite (X null O).
    split; [|reflexivity]. apply unmarked_iff. apply (r_clr g R).
  - destruct (gen_strict g R env ch q HQ O _ H).
Qed.

Lemma loop_defined (env : lenv) ch (g : graph) q null :
  built_graph (Guess := Guess) (D := D) g -> oob env = Some null ->
  q < nodeCount g -> (forall k, k < nodeCount g -> back_reach g q k) ->
  exists out calls, genLoopClosures env ch g q = Ok (g, out, calls).
Proof.
  intros B O HQ RA. exact (gen_defined g (built_ready g B) env ch q HQ null O RA).
Qed.

Lemma loop_no_way_back (env : lenv) ch (g : graph) q :
  built_graph (Guess := Guess) (D := D) g -> q < nodeCount g -> 1 < nodeCount g ->
  (forall e, has_edge g e -> e_to e <> q) -> genLoopClosures env ch g q = UB.
Proof.
  intros B HQ N NW. exact (gen_no_way_back g (built_ready g B) env ch q HQ NW N).
Qed.

Lemma loop_strict (env : lenv) ch (g : graph) q r :
  built_graph (Guess := Guess) (D := D) g -> oob env = None -> genLoopClosures env ch g q <> Ok r.
Proof.
  intros B O H. pose proof (gen_query_exists _ _ _ _ _ H) as HQ.
  exact (gen_strict g (built_ready g B) env ch q HQ O r H).
Qed.

Lemma loop_nodup (env : lenv) ch (g : graph) q g' out calls :
  built_graph (Guess := Guess) (D := D) g -> single_out g ->
  genLoopClosures env ch g q = Ok (g', out, calls) ->
  NoDup (map (fun c => (lc_from c, lc_to c)) out).
Proof.
  intros B SO H. pose proof (built_ready g B) as R. pose proof (gen_query_exists _ _ _ _ _ H) as HQ.
  destruct (gen_result g R env ch q HQ _ _ _ H) as (_ & _ & _ & _ & N). specialize (N SO).
  clear - N. induction out as [|c t IH]; cbn [map] in *; [constructor|].
  inversion N; subst. constructor; [|auto]. intro X. apply in_map_iff in X.
  destruct X as (c' & E & X). injection E as _ E. apply H1. rewrite <- E. apply in_map. exact X.
Qed.

(** on a robot's way the query for the newest pose is always defined *)
Lemma loop_drive (env : senv) p0 o0 l s log ch null :
  srun env (SAddPose p0 o0 :: drive l) = Ok (s, log) -> oob (s_lenv env) = Some null ->
  exists out calls, genLoopClosures (s_lenv env) ch (s_graph s) (length l) = Ok (s_graph s, out, calls).
Proof.
  intros R O. destruct (slam_chain env p0 o0 l s log R) as (NC & NE & K).
  destruct (srun_ok _ _ _ _ R) as [I _].
  apply (loop_defined _ ch (s_graph s) (length l) null); [|exact O|rewrite NC; lia|].
  { right. exists env, (SAddPose p0 o0 :: drive l), s, log. auto. }
  rewrite NC. intros k Hk.
  assert (X : forall j, j <= length l -> back_reach (s_graph s) (length l) (length l - j)).
  { induction j as [|j IH]; intro Hj.
    - rewrite Nat.sub_0_r. constructor.
    - set (i := length l - S j). assert (Hi : i < length l) by lia.
      destruct (nth_error l i) as [[[[[p o] a] t] inf]|] eqn:E; [|apply nth_error_None in E; lia].
      destruct (K i p o a t inf E) as [G _]. unfold getConstrainPoses in G.
      rewrite (getEdge_slot _ i (r_inv _ (si_ready _ _ I))) in G.
      destruct (slot (s_graph s) i) as [[[b e]|]|] eqn:S; try discriminate. cbn [bind] in G.
      destruct (inv_edge _ (r_inv _ (si_ready _ _ I)) _ _ _ S) as (_ & HF & HT).
      apply bind_ok_inv in G. destruct G as (nf & NF & G).
      apply bind_ok_inv in G. destruct G as (nt & NT & G). injection G as G1 G2.
      unfold vget in NF, NT.
      destruct (nth_error (g_nodes (s_graph s)) (e_from e)) as [nf'|] eqn:NF'; [|discriminate].
      destruct (nth_error (g_nodes (s_graph s)) (e_to e)) as [nt'|] eqn:NT'; [|discriminate].
      injection NF as ->. injection NT as ->.
      destruct (inv_node _ (r_inv _ (si_ready _ _ I)) _ _ NF') as (F & _).
      destruct (inv_node _ (r_inv _ (si_ready _ _ I)) _ _ NT') as (T & _).
      assert (EF : e_from e = i) by congruence. assert (ET : e_to e = Datatypes.S i) by congruence.
      rewrite <- EF. apply br_step with (m := length l - j); [apply IH; lia| |lia].
      exists i, b. exact S. }
  specialize (X (length l - k)). replace (length l - (length l - k)) with k in X by lia. apply X. lia.
Qed.

End S.
