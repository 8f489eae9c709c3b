(** Proofs about the loop detector. *)
From Coq Require Import List ZArith Bool Arith Lia Permutation.
From Coq Require Import ZifyBool ZifyNat.
From Verif Require Import Base GraphModel GraphSpec GraphProofs LoopModel LoopSpec.
Import ListNotations.
Open Scope nat_scope.

Section L.
Context {Pose Obj Info Guess D : Type}.
Notation graph := (graph Pose Obj Info).
Notation edge := (edge Pose Info).
Notation node := (node Pose Obj).
Notation closure := (closure Pose Info).
Notation lenv := (lenv Pose Obj Info Guess D).
Notation lchoice := (lchoice D).
Notation lstate := (lstate Pose Obj Info D).

(** ** the graph without marks *)
Definition clrE (s : option (addr * edge)) : option (addr * edge) :=
  option_map (fun ae => (fst ae, e_setUsed false (snd ae))) s.
Definition clr (g : graph) : graph :=
  mkGraph (map clrE (g_edges g)) (map (n_setVisited false) (g_nodes g)) (g_pool g).

Lemma clr_len (g g0 : graph) : clr g = clr g0 ->
  length (g_edges g) = length (g_edges g0) /\ length (g_nodes g) = length (g_nodes g0).
Proof.
  intro H. injection H as H1 H2 H3.
  apply (f_equal (@length _)) in H1. apply (f_equal (@length _)) in H2.
  rewrite !map_length in *. auto.
Qed.

Lemma clr_slot (g g0 : graph) id a e : clr g = clr g0 -> slot g id = Some (Some (a, e)) ->
  exists e0, slot g0 id = Some (Some (a, e0)) /\ e_setUsed false e = e_setUsed false e0.
Proof.
  intros H S. injection H as H1 _ _. unfold slot in *.
  apply (f_equal (fun l => nth_error l id)) in H1. rewrite !nth_error_map, S in H1. cbn in H1.
  destruct (nth_error (g_edges g0) id) as [[[b e0]|]|]; cbn in H1; try discriminate.
  injection H1 as E1 E2 E3 E4 E5 E6 E7 E8. subst b. exists e0. split; [auto|].
  unfold e_setUsed. congruence.
Qed.

Lemma clr_node (g g0 : graph) k n : clr g = clr g0 -> nth_error (g_nodes g) k = Some n ->
  exists n0, nth_error (g_nodes g0) k = Some n0 /\ n_setVisited false n = n_setVisited false n0.
Proof.
  intros H S. injection H as _ H1 _.
  apply (f_equal (fun l => nth_error l k)) in H1. rewrite !nth_error_map, S in H1. cbn in H1.
  destruct (nth_error (g_nodes g0) k) as [n0|]; cbn in H1; try discriminate.
  injection H1 as E1 E2 E3 E4 E5. exists n0. split; [auto|]. unfold n_setVisited. congruence.
Qed.

Definition used (g : graph) (id : nat) : bool :=
  match slot g id with Some (Some (_, e)) => e_used e | _ => false end.
Definition vis (g : graph) (k : nat) : bool :=
  match nth_error (g_nodes g) k with Some n => n_visited n | None => false end.

Record ready (g : graph) : Prop := {
  r_inv : Inv g;
  r_clr : clr g = g;
  r_head : match g_edges g with None :: _ => False | _ => True end;
  r_in : forall k n a, nth_error (g_nodes g) k = Some n -> In a (n_in n) ->
     exists id e, slot g id = Some (Some (a, e)) /\ e_to e = k }.

(** ** find_addr *)
Lemma find_addr_some (l : list (option (addr * edge))) a : forall i e,
  find_addr l a = Some (i, e) -> nth_error l i = Some (Some (a, e)).
Proof.
  induction l as [|[[b f]|] t IH]; intros i e H; cbn [find_addr] in H; [discriminate| |].
  - destruct (Nat.eqb_spec b a) as [->|N].
    + injection H as <- <-. reflexivity.
    + destruct (find_addr t a) as [[j f']|]; [|discriminate]. injection H as <- <-. apply IH; auto.
  - destruct (find_addr t a) as [[j f']|]; [|discriminate]. injection H as <- <-. apply IH; auto.
Qed.
Lemma find_addr_ex (l : list (option (addr * edge))) a : forall i e,
  nth_error l i = Some (Some (a, e)) -> exists p, find_addr l a = Some p.
Proof.
  induction l as [|s t IH]; intros i e H; [destruct i; discriminate|]. cbn [find_addr].
  destruct i as [|i]; cbn [nth_error] in H.
  - injection H as ->. rewrite Nat.eqb_refl. eauto.
  - destruct (IH i e H) as (p & ->). destruct s as [[b f]|]; [|eexists; reflexivity].
    destruct (b =? a); eexists; reflexivity.
Qed.

Section Query.
Variable g0 : graph.
Hypothesis R : ready g0.
Variable env : lenv.

Lemma addr_uniq (g : graph) i j a e f : clr g = clr g0 ->
  slot g i = Some (Some (a, e)) -> slot g j = Some (Some (a, f)) -> i = j.
Proof.
  intros C X Y. destruct (clr_slot _ _ _ _ _ C X) as (e0 & X0 & _).
  destruct (clr_slot _ _ _ _ _ C Y) as (f0 & Y0 & _).
  eapply (inv_addr g0 (r_inv g0 R)); eauto.
Qed.

Lemma find_addr_spec (g : graph) id a e : clr g = clr g0 -> slot g id = Some (Some (a, e)) ->
  find_addr (g_edges g) a = Some (id, e).
Proof.
  intros C S. destruct (find_addr_ex _ _ _ _ S) as ([j f] & F). rewrite F.
  pose proof (find_addr_some _ _ _ _ F) as X.
  assert (id = j) as <- by exact (addr_uniq g id j a e f C S X). unfold slot in S. congruence.
Qed.

Lemma setUsedAt_spec (g : graph) id a e b : clr g = clr g0 -> slot g id = Some (Some (a, e)) ->
  clr (setUsedAt g id a e b) = clr g0 /\ g_nodes (setUsedAt g id a e b) = g_nodes g /\
  forall j, slot (setUsedAt g id a e b) j = if j =? id then Some (Some (a, e_setUsed b e)) else slot g j.
Proof.
  intros C S. assert (SL : forall j, slot (setUsedAt g id a e b) j =
    if j =? id then Some (Some (a, e_setUsed b e)) else slot g j).
  { intro j. unfold slot, setUsedAt. cbn [g_edges]. rewrite nth_error_upd.
    pose proof (nth_error_lt _ _ _ S) as L. apply Nat.ltb_lt in L. rewrite L, andb_true_r. reflexivity. }
  split; [|split; [reflexivity|exact SL]].
  rewrite <- C. unfold clr. f_equal. apply nth_error_ext. intro j. rewrite !nth_error_map.
  fold (slot (setUsedAt g id a e b) j). fold (slot g j). rewrite SL.
  destruct (Nat.eqb_spec j id) as [->|N]; [|reflexivity]. rewrite S. reflexivity.
Qed.

(** ** genPossibleEdges *)
Definition lnode (id : nat) : nat :=
  match slot g0 id with Some (Some (_, e)) => e_from e | _ => 0 end.
Definition tnode (id : nat) : nat :=
  match slot g0 id with Some (Some (_, e)) => e_to e | _ => 0 end.
Definition elive (id : nat) : Prop := exists a e, slot g0 id = Some (Some (a, e)).

Lemma genStep_spec (g : graph) out last a id e : clr g = clr g0 ->
  slot g id = Some (Some (a, e)) ->
  genStep env last (g, out) a =
    Ok (if e_used e then (g, out)
        else (setUsedAt g id a e true,
              if vis g (e_from e) then out
              else out ++ [(e_from e, dadd env last (elen env (e_trans e)))])).
Proof.
  intros C S. unfold genStep. rewrite (find_addr_spec g id a e C S).
  destruct (e_used e); [reflexivity|]. cbn [setUsedAt g_nodes].
  destruct (clr_slot _ _ _ _ _ C S) as (e0 & S0 & E). unfold e_setUsed in E. injection E as _ E1 _ _ _ _ _.
  destruct (inv_edge g0 (r_inv g0 R) _ _ _ S0) as (_ & HF & _).
  destruct (nth_error (g_nodes g) (e_from e)) as [nf|] eqn:N.
  2: { apply nth_error_None in N. destruct (clr_len _ _ C). lia. }
  unfold vget. rewrite N. cbn [bind]. unfold vis. rewrite N.
  destruct (clr_node _ _ _ _ C N) as (n0 & N0 & EN). unfold n_setVisited in EN.
  injection EN as EN1 _ _ _ _. destruct (inv_node g0 (r_inv g0 R) _ _ N0) as (ID & _).
  rewrite EN1, ID. destruct (n_visited nf); reflexivity.
Qed.

Lemma genFold_spec k last : forall l (g : graph) out, clr g = clr g0 ->
  (forall a, In a l -> exists id e, slot g0 id = Some (Some (a, e)) /\ e_to e = k) ->
  exists g' L, foldM (genStep env last) l (g, out) =
      Ok (g', out ++ map (fun id => (lnode id,
                 match slot g0 id with Some (Some (_, e)) => dadd env last (elen env (e_trans e)) | _ => last end)) L) /\
    clr g' = clr g0 /\ g_nodes g' = g_nodes g /\
    NoDup L /\
    (forall id, In id L -> elive id /\ tnode id = k /\ used g id = false /\ vis g (lnode id) = false /\ used g' id = true) /\
    (forall id, used g' id = true -> used g id = true \/ (elive id /\ tnode id = k)) /\
    (forall id, used g id = true -> used g' id = true) /\
    (forall id a e, slot g0 id = Some (Some (a, e)) -> In a l ->
       used g' id = true /\ (used g id = true \/ vis g (lnode id) = true \/ In id L)).
Proof.
  induction l as [|a t IH]; intros g out C HL.
  - exists g, []. cbn [foldM map]. rewrite app_nil_r.
    split; [reflexivity|]. split; [auto|]. split; [auto|]. split; [constructor|].
    split; [intros id []|]. split; [auto|]. split; [auto|]. intros id a e _ [].
  - destruct (HL a (or_introl eq_refl)) as (id & e0 & S0 & T0).
    destruct (clr_slot _ _ _ _ _ (eq_sym C) S0) as (e & S & E).
    assert (F : e_from e = e_from e0 /\ e_to e = e_to e0 /\ e_trans e = e_trans e0).
    { unfold e_setUsed in E. injection E as _ A B _ _ X _. auto. }
    destruct F as (F1 & F2 & F3).
    cbn [foldM]. rewrite (genStep_spec g out last a id e C S). cbn [bind].
    assert (US : used g id = e_used e) by (unfold used; rewrite S; reflexivity).
    assert (LN : lnode id = e_from e) by (unfold lnode; rewrite S0; auto).
    assert (TN : tnode id = k) by (unfold tnode; rewrite S0; auto).
    assert (EL : elive id) by (exists a, e0; auto).
    assert (UA : forall i a' e', slot g0 i = Some (Some (a', e')) -> a' = a -> i = id).
    { intros i a' e' X ->. eapply (inv_addr g0 (r_inv g0 R)); eauto. }
    destruct (e_used e) eqn:EU.
    + destruct (IH g out C) as (g' & L & FE & C' & NN & ND & PL & PU & PM & PC).
      { intros x Hx. apply HL. right; auto. }
      exists g', L. rewrite FE. split; [reflexivity|]. split; [auto|]. split; [auto|]. split; [auto|].
      split; [auto|]. split; [auto|]. split; [auto|].
      intros i a' e' X [->|Y]; [|eauto].
      assert (i = id) as -> by eauto. split; [apply PM|left]; congruence.
    + destruct (setUsedAt_spec g id a e true C S) as (C1 & N1 & SL1).
      set (g1 := setUsedAt g id a e true) in *.
      assert (U1 : forall i, used g1 i = (i =? id) || used g i).
      { intro i. unfold used. rewrite SL1. destruct (Nat.eqb_spec i id); reflexivity. }
      assert (V1 : forall i, vis g1 i = vis g i) by (intro i; unfold vis; rewrite N1; reflexivity).
      destruct (IH g1 (if vis g (e_from e) then out
              else out ++ [(e_from e, dadd env last (elen env (e_trans e)))]) C1)
        as (g' & L & FE & C' & NN & ND & PL & PU & PM & PC).
      { intros x Hx. apply HL. right; auto. }
      destruct (vis g (e_from e)) eqn:EV.
      * exists g', L. rewrite FE. split; [reflexivity|]. split; [auto|]. split; [congruence|]. split; [auto|].
        split.
        { intros i Hi. destruct (PL i Hi) as (A1 & A2 & A3 & A4 & A5). rewrite U1 in A3. rewrite V1 in A4.
          apply orb_false_iff in A3. tauto. }
        split.
        { intros i Hi. destruct (PU i Hi) as [X|X]; [|auto]. rewrite U1 in X.
          apply orb_true_iff in X. destruct X as [X|X]; [|auto]. apply Nat.eqb_eq in X. subst i. auto. }
        split.
        { intros i Hi. apply PM. rewrite U1, Hi. apply orb_true_r. }
        intros i a' e' X [->|Y].
        { assert (i = id) as -> by eauto. split; [apply PM; rewrite U1, Nat.eqb_refl; auto|].
          right; left. congruence. }
        { destruct (PC i a' e' X Y) as [B1 B2]. split; [auto|]. rewrite U1, V1 in B2.
          destruct B2 as [B2|B2]; [|auto]. apply orb_true_iff in B2. destruct B2 as [B2|B2]; [|auto].
          apply Nat.eqb_eq in B2. subst i. right; left. congruence. }
      * exists g', (id :: L). rewrite FE, <- app_assoc. cbn [map app]. rewrite LN at 1. rewrite S0.
        rewrite <- F3. split; [reflexivity|]. split; [auto|]. split; [congruence|].
        split.
        { constructor; auto. intro X. destruct (PL id X) as (_ & _ & X3 & _).
          rewrite U1, Nat.eqb_refl in X3. discriminate. }
        split.
        { intros i [<-|Hi].
          - split; [auto|]. split; [auto|]. split; [congruence|]. split; [congruence|].
            apply PM. rewrite U1, Nat.eqb_refl. auto.
          - destruct (PL i Hi) as (A1 & A2 & A3 & A4 & A5). rewrite U1 in A3. rewrite V1 in A4.
            apply orb_false_iff in A3. tauto. }
        split.
        { intros i Hi. destruct (PU i Hi) as [X|X]; [|auto]. rewrite U1 in X.
          apply orb_true_iff in X. destruct X as [X|X]; [|auto]. apply Nat.eqb_eq in X. subst i. auto. }
        split.
        { intros i Hi. apply PM. rewrite U1, Hi. apply orb_true_r. }
        intros i a' e' X [->|Y].
        { assert (i = id) as -> by eauto. split; [apply PM; rewrite U1, Nat.eqb_refl; auto|].
          right; right; left; auto. }
        { destruct (PC i a' e' X Y) as [B1 B2]. split; [auto|]. rewrite U1, V1 in B2.
          destruct B2 as [B2|[B2|B2]]; [|auto|right; right; right; auto].
          apply orb_true_iff in B2. destruct B2 as [B2|B2]; [|auto].
          apply Nat.eqb_eq in B2. subst i. right; right; left; auto. }
Qed.

Definition entry_of (last : D) (id : nat) : nat * D :=
  (lnode id, match slot g0 id with
             | Some (Some (_, e)) => dadd env last (elen env (e_trans e)) | _ => last end).

Lemma gen_spec k last (g : graph) : clr g = clr g0 -> k < length (g_nodes g0) ->
  exists g' L, genPossibleEdges env g k last = Ok (g', map (entry_of last) L) /\
    clr g' = clr g0 /\ g_nodes g' = g_nodes g /\ NoDup L /\
    (forall id, In id L -> elive id /\ tnode id = k /\ used g id = false /\ vis g (lnode id) = false /\ used g' id = true) /\
    (forall id, used g' id = true -> used g id = true \/ (elive id /\ tnode id = k)) /\
    (forall id, used g id = true -> used g' id = true) /\
    (forall id, elive id -> tnode id = k ->
       used g' id = true /\ (used g id = true \/ vis g (lnode id) = true \/ In id L)).
Proof.
  intros C HK. destruct (nth_error (g_nodes g0) k) as [n0|] eqn:N0.
  2: { apply nth_error_None in N0. lia. }
  destruct (clr_node _ _ _ _ (eq_sym C) N0) as (n & N & EN).
  assert (EI : n_in n = n_in n0) by (unfold n_setVisited in EN; congruence).
  unfold genPossibleEdges. rewrite getNode_nth, N. cbn [bind]. rewrite EI.
  destruct (genFold_spec k last (n_in n0) g [] C) as (g' & L & FE & C' & NN & ND & PL & PU & PM & PC).
  { intros a Ha. eapply (r_in g0 R); eauto. }
  exists g', L. rewrite FE. split; [reflexivity|]. split; [auto|]. split; [auto|]. split; [auto|].
  split; [auto|]. split; [auto|]. split; [auto|].
  intros id (a & e & S) T. eapply PC; [exact S|]. unfold tnode in T. rewrite S in T.
  subst k. eapply (inv_in g0 (r_inv g0 R)); eauto.
Qed.

(** ** marking a node *)
Lemma mark_spec (g : graph) k : clr g = clr g0 -> k < length (g_nodes g0) ->
  exists g', modNode g k (n_setVisited true) = Ok g' /\ clr g' = clr g0 /\ g_edges g' = g_edges g /\
    (forall j, vis g' j = (j =? k) || vis g j).
Proof.
  intros C HK. destruct (clr_len _ _ C) as [_ LN].
  destruct (nth_error (g_nodes g) k) as [n|] eqn:N.
  2: { apply nth_error_None in N. lia. }
  unfold modNode. rewrite getNode_nth, N. cbn [bind]. eexists. split; [reflexivity|].
  split; [|split; [reflexivity|]].
  - rewrite <- C. unfold clr. cbn [g_edges g_nodes g_pool]. f_equal. apply nth_error_ext. intro j.
    rewrite !nth_error_map, nth_error_upd. destruct (Nat.eqb_spec j k) as [->|NE]; [|reflexivity].
    cbn [andb]. rewrite N. apply nth_error_lt in N. apply Nat.ltb_lt in N. rewrite N. reflexivity.
  - intro j. unfold vis. cbn [g_nodes]. rewrite nth_error_upd.
    destruct (Nat.eqb_spec j k) as [->|NE]; [|reflexivity].
    apply nth_error_lt in N. apply Nat.ltb_lt in N. rewrite N. reflexivity.
Qed.

(** ** the loop *)
Variable ch : lchoice.
Variable q : nat.
Hypothesis HQ : q < length (g_nodes g0).

Definition good_closure (c : closure) : Prop :=
  lc_from c = q /\ lc_to c <> q /\
  exists nq nc d, nth_error (g_nodes g0) q = Some nq /\ nth_error (g_nodes g0) (lc_to c) = Some nc /\
    back_walk (dadd env) (elen env) g0 (d0 ch) q (lc_to c) d /\
    dlt env d (min_dist env) = false /\
    dlt env (euclid env (n_pose nq) (n_pose nc)) (max_dist env) = true /\
    matcher env (n_obj nc) (n_obj nq) (guess env (n_pose nq) (n_pose nc)) =
      Some (lc_info c, lc_trans c).

Record LI (s : lstate) (P L : list nat) : Prop := {
  li_clr : clr (ls_g s) = clr g0;
  li_cnt : ls_visited s = S (length P);
  li_vis : forall k, vis (ls_g s) k = true <-> k = q \/ In k P;
  li_used : forall id, used (ls_g s) id = true -> elive id /\ vis (ls_g s) (tnode id) = true;
  li_back : forall id, elive id -> vis (ls_g s) (tnode id) = true ->
     used (ls_g s) id = true /\ (vis (ls_g s) (lnode id) = true \/ In (lnode id) (map fst (ls_fringe s)));
  li_fr : forall c d, In (c, d) (ls_fringe s) ->
     back_walk (dadd env) (elen env) g0 (d0 ch) q c d /\ c <> q /\ c < length (g_nodes g0);
  li_P : forall c, In c P -> c <> q /\ c < length (g_nodes g0);
  li_L : NoDup L /\ (forall id, In id L -> used (ls_g s) id = true) /\
     Permutation (map lnode L) (P ++ map fst (ls_fringe s));
  li_out : forall c, In c (ls_out s) -> good_closure c;
  li_outP : incl (map (@lc_to _ _) (ls_out s)) P;
  li_nodup : single_out g0 -> NoDup (map (@lc_to _ _) (ls_out s));
  li_calls : length (ls_calls s) = ls_depth s /\ ls_depth s <= max_search_depth /\
     map (@lc_to _ _) (ls_out s) = rev (map fst (filter snd (ls_calls s)))
}.

Lemma used_live (g : graph) id : clr g = clr g0 -> used g id = true -> elive id.
Proof.
  intros C U. unfold used in U. destruct (slot g id) as [[[a e]|]|] eqn:S; try discriminate.
  destruct (clr_slot _ _ _ _ _ C S) as (e0 & S0 & _). exists a, e0. auto.
Qed.

Lemma lnode_lt id : elive id -> lnode id < length (g_nodes g0).
Proof.
  intros (a & e & S). unfold lnode. rewrite S. apply (inv_edge g0 (r_inv g0 R) _ _ _ S).
Qed.

Lemma has_edge_slot id a e : slot g0 id = Some (Some (a, e)) -> has_edge g0 e.
Proof. intro S. exists id, a. exact S. Qed.

Lemma single_out_NoDup L : single_out g0 -> NoDup L -> (forall id, In id L -> elive id) ->
  NoDup (map lnode L).
Proof.
  intro SO. induction L as [|i t IH]; intros ND EL; [constructor|]. inversion ND; subst.
  cbn [map]. constructor.
  - intro X. apply in_map_iff in X. destruct X as (j & E & J).
    destruct (EL i (or_introl eq_refl)) as (a & e & Si).
    destruct (EL j (or_intror J)) as (b & f & Sj).
    unfold lnode in E. rewrite Si, Sj in E.
    assert (i = j) by (eapply SO; eauto). subst. contradiction.
  - apply IH; auto. intros; apply EL; right; auto.
Qed.

(** initial state *)
Lemma vis_g0 k : vis g0 k = false.
Proof.
  unfold vis. destruct (nth_error (g_nodes g0) k) as [n|] eqn:E; [|auto].
  pose proof (r_clr g0 R) as C. apply (f_equal (@g_nodes _ _ _)) in C. cbn [clr g_nodes] in C.
  rewrite <- C, nth_error_map in E. destruct (nth_error (g_nodes g0) k); [|discriminate].
  injection E as <-. reflexivity.
Qed.
Lemma used_g0 id : used g0 id = false.
Proof.
  unfold used, slot. destruct (nth_error (g_edges g0) id) as [[[a e]|]|] eqn:E; auto.
  pose proof (r_clr g0 R) as C. apply (f_equal (@g_edges _ _ _)) in C. cbn [clr g_edges] in C.
  rewrite <- C, nth_error_map in E. destruct (nth_error (g_edges g0) id) as [[[b f]|]|]; try discriminate.
  injection E as _ <-. reflexivity.
Qed.

Lemma init_spec : exists g1 g2 es, modNode g0 q (n_setVisited true) = Ok g1 /\
  genPossibleEdges env g1 q (d0 ch) = Ok (g2, es) /\
  exists L, LI (mkLS g2 es 1 0 [] []) [] L.
Proof.
  destruct (mark_spec g0 q eq_refl HQ) as (g1 & M & C1 & E1 & V1).
  destruct (gen_spec q (d0 ch) g1 C1 HQ) as (g2 & L & G & C2 & N2 & ND & PL & PU & PM & PC).
  exists g1, g2, (map (entry_of (d0 ch)) L). split; [auto|]. split; [auto|]. exists L.
  assert (U1 : forall id, used g1 id = false).
  { intro id. rewrite <- (used_g0 id). unfold used, slot. rewrite E1. reflexivity. }
  assert (V2 : forall k, vis g2 k = (k =? q)).
  { intro k. unfold vis. rewrite N2. fold (vis g1 k). rewrite V1, vis_g0. apply orb_false_r. }
  assert (MF : map fst (map (entry_of (d0 ch)) L) = map lnode L) by (rewrite map_map; reflexivity).
  split; cbn [ls_g ls_fringe ls_visited ls_depth ls_out ls_calls].
  - exact C2.
  - reflexivity.
  - intro k. rewrite V2. simpl. rewrite Nat.eqb_eq. tauto.
  - intros id U. destruct (PU id U) as [X|(EL & T)]; [rewrite U1 in X; discriminate|].
    split; [auto|]. rewrite V2, T. apply Nat.eqb_refl.
  - intros id EL V. rewrite V2 in V. apply Nat.eqb_eq in V.
    destruct (PC id EL V) as (A & B). split; [auto|].
    destruct B as [B|[B|B]].
    + rewrite U1 in B. discriminate.
    + left. unfold vis. rewrite N2. exact B.
    + right. rewrite MF. apply in_map. auto.
  - intros c d H. apply in_map_iff in H. destruct H as (id & E & H).
    destruct (PL id H) as (EL & T & _ & V & _). unfold entry_of in E. injection E as <- <-.
    split; [|split].
    + destruct EL as (a & e & S). unfold lnode, tnode in *. rewrite S in *.
      apply bw_first; [eapply has_edge_slot; eauto|auto].
    + intro X. rewrite V1, X, Nat.eqb_refl in V. discriminate.
    + apply lnode_lt; auto.
  - intros c [].
  - split; [auto|]. split; [intros id H; apply (PL id H)|]. rewrite MF. cbn [app]. apply Permutation_refl.
  - intros c [].
  - intros x [].
  - intros _. constructor.
  - repeat split. apply Nat.le_0_l.
Qed.

Lemma pick_split {A} (l : list A) i x0 : i < length l ->
  exists x, nth i l x0 = x /\ l = firstn i l ++ x :: skipn (S i) l.
Proof.
  intro H. exists (nth i l x0). split; [auto|].
  rewrite <- (firstn_skipn i l) at 1. f_equal.
  revert i H. induction l as [|y t IH]; intros i H; [simpl in H; lia|].
  destruct i as [|i]; [reflexivity|]. cbn [skipn nth length] in *. rewrite (IH i) by lia.
  reflexivity.
Qed.

Lemma loopStep_spec s P L : LI s P L -> ls_fringe s <> [] -> ls_depth s < max_search_depth ->
  exists s' P' L', loopStep env ch q s = Ok s' /\ LI s' P' L' /\ ls_visited s' = S (ls_visited s).
Proof.
  intros I NE DL. unfold loopStep. destruct (ls_fringe s) as [|x0 tl0] eqn:FR; [congruence|].
  rewrite <- FR in *.
  set (i := pick ch (ls_visited s) (ls_fringe s) mod length (ls_fringe s)).
  assert (Hi : i < length (ls_fringe s)) by (apply Nat.mod_upper_bound; rewrite FR; discriminate).
  destruct (pick_split (ls_fringe s) i x0 Hi) as ([c d] & EX & SP). rewrite EX.
  set (rest := firstn i (ls_fringe s) ++ skipn (S i) (ls_fringe s)) in *.
  assert (PF : Permutation (ls_fringe s) ((c, d) :: rest)).
  { rewrite SP at 1. unfold rest. symmetry. apply Permutation_middle. }
  clearbody rest. clear SP EX Hi. clearbody i. clear i.
  assert (IN : forall x, In x (ls_fringe s) <-> x = (c, d) \/ In x rest).
  { intro x. split; intro X.
    - apply (Permutation_in _ PF) in X. destruct X; auto.
    - apply (Permutation_in _ (Permutation_sym PF)). destruct X; [left; auto|right; auto]. }
  pose proof (li_clr _ _ _ I) as C.
  destruct (li_fr _ _ _ I c d (proj2 (IN (c, d)) (or_introl eq_refl))) as (BW & CQ & CL).
  destruct (clr_len _ _ C) as [_ LN].
  destruct (nth_error (g_nodes g0) q) as [nq|] eqn:NQ; [|apply nth_error_None in NQ; lia].
  destruct (nth_error (g_nodes g0) c) as [nc|] eqn:NC; [|apply nth_error_None in NC; lia].
  destruct (clr_node _ _ _ _ (eq_sym C) NQ) as (tn & TN & ET).
  destruct (clr_node _ _ _ _ (eq_sym C) NC) as (sn & SN & ES).
  assert (T1 : n_pose tn = n_pose nq /\ n_obj tn = n_obj nq) by (unfold n_setVisited in ET; split; congruence).
  assert (T2 : n_pose sn = n_pose nc /\ n_obj sn = n_obj nc) by (unfold n_setVisited in ES; split; congruence).
  destruct T1 as [T1 T1']. destruct T2 as [T2 T2'].
  rewrite !getNode_nth, TN, SN. cbn [bind]. rewrite T1, T1', T2, T2'.
  (* the matching part *)
  match goal with |- context [modNode (ls_g ?x) c] => set (s1 := x) end.
  assert (S1 : ls_g s1 = ls_g s /\ ls_visited s1 = ls_visited s /\
     (forall x, In x (ls_out s1) -> good_closure x) /\
     incl (map (@lc_to _ _) (ls_out s1)) (P ++ [c]) /\
     (single_out g0 -> ~ In c P -> NoDup (map (@lc_to _ _) (ls_out s1))) /\
     (length (ls_calls s1) = ls_depth s1 /\ ls_depth s1 <= max_search_depth /\
        map (@lc_to _ _) (ls_out s1) = rev (map fst (filter snd (ls_calls s1))))).
  { destruct (li_calls _ _ _ I) as (K1 & K2 & K3).
    pose proof (li_outP _ _ _ I) as OP. pose proof (li_nodup _ _ _ I) as ND.
    subst s1. destruct (_ && _) eqn:B.
    - apply andb_true_iff in B. destruct B as [B1 B2]. apply negb_true_iff in B2.
      destruct (matcher env (n_obj nc) (n_obj nq) (guess env (n_pose nq) (n_pose nc))) as [[inf tr]|] eqn:MT;
        cbn [ls_g ls_fringe ls_visited ls_depth ls_out ls_calls].
      + split; [auto|]. split; [auto|]. split.
        { intros x X. apply in_app_iff in X. destruct X as [X|[<-|[]]]; [apply (li_out _ _ _ I); auto|].
          split; [reflexivity|]. split; [exact CQ|]. cbn [lc_to lc_info lc_trans].
          exists nq, nc, d. auto 10. }
        rewrite map_app. cbn [map lc_to]. split.
        { intros x X. apply in_app_iff in X. apply in_app_iff. destruct X as [X|X]; auto. }
        split.
        { intros SO NP. apply NoDup_rev in ND; [|auto]. apply NoDup_rev in ND. rewrite rev_involutive in ND.
          rewrite <- (rev_involutive (_ ++ _)). apply NoDup_rev. rewrite rev_unit.
          constructor; [|apply NoDup_rev; auto]. rewrite <- in_rev. intro X. apply OP in X. auto. }
        split; [cbn [length]; lia|]. split; [lia|].
        cbn [filter snd map fst rev]. rewrite K3. reflexivity.
      + split; [auto|]. split; [auto|]. split; [apply (li_out _ _ _ I)|].
        split; [intros x X; apply in_app_iff; auto|]. split; [auto|].
        split; [cbn [length]; lia|]. split; [lia|]. cbn [filter snd]. exact K3.
    - split; [auto|]. split; [auto|]. split; [apply (li_out _ _ _ I)|].
      split; [intros x X; apply in_app_iff; auto|]. split; [auto|]. auto. }
  clearbody s1. destruct S1 as (SG & SV & SO & SP & SN' & SC). rewrite SG, SV.
  destruct (mark_spec (ls_g s) c C CL) as (g1 & M & C1 & E1 & V1). rewrite M. cbn [bind].
  destruct (gen_spec c d g1 C1 CL) as (g2 & L2 & G & C2 & N2 & ND2 & PL & PU & PM & PC).
  rewrite G. cbn [bind fst snd].
  assert (U1 : forall id, used g1 id = used (ls_g s) id) by (intro id; unfold used, slot; rewrite E1; reflexivity).
  assert (V2 : forall k, vis g2 k = (k =? c) || vis (ls_g s) k).
  { intro k. unfold vis at 1. rewrite N2. fold (vis g1 k). apply V1. }
  destruct (li_L _ _ _ I) as (L1 & LU & LP).
  assert (MF : map fst (map (entry_of d) L2) = map lnode L2) by (rewrite map_map; reflexivity).
  eexists _, (P ++ [c]), (L ++ L2). split; [reflexivity|]. split; [|cbn [ls_visited]; lia].
  split; cbn [ls_g ls_fringe ls_visited ls_depth ls_out ls_calls].
  - exact C2.
  - rewrite app_length. simpl. rewrite (li_cnt _ _ _ I). lia.
  - intro k. rewrite V2, orb_true_iff, Nat.eqb_eq, (li_vis _ _ _ I), in_app_iff. simpl. intuition.
  - intros id U. destruct (PU id U) as [X|(EL & T)].
    + rewrite U1 in X. destruct (li_used _ _ _ I id X) as (A & B). split; [auto|].
      rewrite V2, B. apply orb_true_r.
    + split; [auto|]. rewrite V2, T, Nat.eqb_refl. reflexivity.
  - intros id EL V.
    assert (G0 : vis (ls_g s) (tnode id) = true -> used g2 id = true /\
       (vis g2 (lnode id) = true \/ In (lnode id) (map fst (rest ++ map (entry_of d) L2)))).
    { intro X. destruct (li_back _ _ _ I id EL X) as (A & B). split; [apply PM; rewrite U1; auto|].
      destruct B as [B|B]; [left; rewrite V2, B; apply orb_true_r|].
      apply in_map_iff in B. destruct B as ([c' d'] & E & B). apply IN in B.
      destruct B as [B|B].
      - left. injection B as -> ->. cbn [fst] in E. rewrite V2, <- E, Nat.eqb_refl. reflexivity.
      - right. rewrite map_app, in_app_iff. left. rewrite <- E. apply in_map. auto. }
    rewrite V2 in V. apply orb_true_iff in V. destruct V as [V|V]; [|auto].
    apply Nat.eqb_eq in V. destruct (PC id EL V) as (A & B). destruct B as [B|[B|B]].
    + apply G0. rewrite U1 in B. apply (li_used _ _ _ I); auto.
    + split; [auto|]. left. rewrite V2. rewrite V1 in B. exact B.
    + split; [auto|]. right. rewrite map_app, in_app_iff, MF. right. apply in_map. auto.
  - intros c' d' X. apply in_app_iff in X. destruct X as [X|X].
    + apply (li_fr _ _ _ I). apply IN. auto.
    + apply in_map_iff in X. destruct X as (id & E & H).
      destruct (PL id H) as (EL & T & _ & V & _). unfold entry_of in E. injection E as <- <-.
      split; [|split].
      * destruct EL as (a & e & S). unfold lnode, tnode in *. rewrite S in *.
        eapply bw_more; [exact BW|eapply has_edge_slot; eauto|auto].
      * intro X. rewrite V1, X in V. apply orb_false_iff in V. destruct V as [_ V].
        assert (vis (ls_g s) q = true) by (apply (li_vis _ _ _ I); auto). congruence.
      * apply lnode_lt; auto.
  - intros x X. apply in_app_iff in X. destruct X as [X|[<-|[]]]; [apply (li_P _ _ _ I); auto|auto].
  - split; [|split].
    + clear - L1 LU ND2 PL U1. induction L as [|x t IH]; [exact ND2|]. inversion L1; subst.
      cbn [app]. constructor.
      * rewrite in_app_iff. intros [X|X]; [contradiction|].
        destruct (PL x X) as (_ & _ & Y & _). rewrite U1, (LU x (or_introl eq_refl)) in Y. discriminate.
      * apply IH; auto. intros; apply LU; right; auto.
    + intros id X. apply in_app_iff in X. destruct X as [X|X]; [apply PM; rewrite U1; auto|apply (PL id X)].
    + rewrite !map_app, MF. rewrite LP.
      rewrite <- !app_assoc. apply Permutation_app_head. cbn [app].
      change (c :: map fst rest ++ map lnode L2) with (map fst ((c, d) :: rest) ++ map lnode L2).
      apply Permutation_app_tail. apply Permutation_map. exact PF.
  - exact SO.
  - exact SP.
  - intro S0. apply SN'; auto. intro X.
    assert (ND : NoDup (P ++ map fst (ls_fringe s))).
    { eapply Permutation_NoDup; [exact LP|]. apply single_out_NoDup; auto.
      intros id Hid. eapply used_live; [exact C|apply LU; auto]. }
    clear - ND X IN. induction P as [|y t IH]; [destruct X|]. cbn [app] in ND. inversion ND; subst.
    destruct X as [->|X]; [|auto]. apply H1. apply in_app_iff. right.
    change c with (fst (c, d)). apply in_map. apply IN. auto.
  - exact SC.
Qed.

(** progress *)
Lemma pigeon (P : list nat) n : (forall k, k < n -> k = q \/ In k P) -> n <= S (length P).
Proof.
  intro H. replace (S (length P)) with (length (q :: P)) by reflexivity.
  rewrite <- (seq_length n 0). apply NoDup_incl_length; [apply seq_NoDup|].
  intros k Hk. apply in_seq in Hk. destruct (H k) as [->|X]; [lia|left; auto|right; auto].
Qed.

Lemma fringe_nonempty s P L : LI s P L ->
  (forall k, k < length (g_nodes g0) -> back_reach g0 q k) ->
  ls_visited s < nodeCount (ls_g s) -> ls_fringe s <> [].
Proof.
  intros I RA LT E. destruct (clr_len _ _ (li_clr _ _ _ I)) as [_ LN].
  assert (V : forall k, back_reach g0 q k -> vis (ls_g s) k = true).
  { induction 1 as [|m e Hm IH (id & a & S) T].
    - apply (li_vis _ _ _ I). auto.
    - assert (EL : elive id) by (exists a, e; auto).
      destruct (li_back _ _ _ I id EL) as (_ & [X|X]).
      + unfold tnode, slot. rewrite S, T. exact IH.
      + unfold lnode, slot in X. rewrite S in X. exact X.
      + rewrite E in X. destruct X. }
  assert (length (g_nodes g0) <= S (length P)).
  { apply pigeon. intros k Hk. apply (li_vis _ _ _ I). auto. }
  unfold nodeCount in LT. rewrite LN, (li_cnt _ _ _ I) in LT. lia.
Qed.

Lemma loopRun_inv fuel : forall s P L s', LI s P L -> loopRun env ch q fuel s = Ok s' ->
  exists P' L', LI s' P' L'.
Proof.
  induction fuel as [|f IH]; intros s P L s' I H; cbn [loopRun] in H;
    destruct (_ && _) eqn:B; try discriminate; try (injection H as <-; eauto).
  apply andb_true_iff in B. destruct B as [_ B]. apply Nat.ltb_lt in B.
  destruct (ls_fringe s) as [|x t] eqn:E.
  - unfold loopStep in H. rewrite E in H. discriminate.
  - destruct (loopStep_spec s P L I) as (s1 & P1 & L1 & S & I1 & _); [congruence|auto|].
    rewrite S in H. cbn [bind] in H. eauto.
Qed.

Lemma loopRun_total fuel : forall s P L, LI s P L ->
  (forall k, k < length (g_nodes g0) -> back_reach g0 q k) ->
  nodeCount g0 <= fuel + ls_visited s ->
  exists s', loopRun env ch q fuel s = Ok s'.
Proof.
  induction fuel as [|f IH]; intros s P L I RA F; cbn [loopRun];
    destruct (clr_len _ _ (li_clr _ _ _ I)) as [_ LN]; unfold nodeCount in *;
    destruct (_ && _) eqn:B; eauto; apply andb_true_iff in B; destruct B as [B1 B2];
    apply Nat.ltb_lt in B1; apply Nat.ltb_lt in B2.
  - lia.
  - destruct (loopStep_spec s P L I) as (s1 & P1 & L1 & S & I1 & VS);
      [eapply fringe_nonempty; eauto|auto|].
    rewrite S. cbn [bind]. eapply IH; eauto. lia.
Qed.

(** ** reset *)
Lemma reset_nodes (l : list node) : forall pre (ns : list node) es pl,
  ns = pre ++ l -> (forall k n, nth_error l k = Some n -> n_id n = length pre + k) ->
  foldM (fun g (n : node) => modNode g (n_id n) (n_setVisited false)) l (mkGraph es ns pl) =
  Ok (mkGraph es (pre ++ map (n_setVisited false) l) pl : graph).
Proof.
  induction l as [|n t IH]; intros pre ns es pl E ID.
  - cbn [foldM map]. rewrite app_nil_r, E, app_nil_r. reflexivity.
  - pose proof (ID 0 n eq_refl) as I0. rewrite Nat.add_0_r in I0.
    cbn [foldM]. unfold modNode at 1. rewrite getNode_nth. cbn [g_nodes g_edges g_pool].
    rewrite I0. subst ns.
    rewrite nth_error_app2, Nat.sub_diag by lia. cbn [nth_error bind].
    rewrite (IH (pre ++ [n_setVisited false n])).
    + rewrite <- app_assoc. reflexivity.
    + rewrite <- app_assoc. cbn [app]. apply nth_error_ext. intro j. rewrite nth_error_upd, app_length.
      cbn [length]. destruct (Nat.eqb_spec j (length pre)) as [->|N]; cbn [andb].
      * assert (length pre <? length pre + S (length t) = true) as -> by lia.
        rewrite nth_error_app2, Nat.sub_diag by lia. reflexivity.
      * destruct (Nat.lt_ge_cases j (length pre)).
        { rewrite !nth_error_app1 by lia. reflexivity. }
        { rewrite !nth_error_app2 by lia. destruct (j - length pre) eqn:X; [lia|reflexivity]. }
    + intros k m Hk. rewrite (ID (S k) m Hk), app_length. simpl. lia.
Qed.

Lemma getEdge_live (g : graph) id a e : Inv g -> slot g id = Some (Some (a, e)) -> getEdge g id = Ok e.
Proof. intros I S. rewrite (getEdge_slot g id I), S. reflexivity. Qed.

Lemma reset_edges : forall (l pre es : list (option (addr * edge))) ns pl,
  es = pre ++ l ->
  (forall id, In id pl -> nth_error es id = Some None) ->
  (forall k a e, nth_error l k = Some (Some (a, e)) -> e_id e = length pre + k) ->
  foldM (fun g (ae : addr * edge) => modEdge g (e_id (snd ae)) (e_setUsed false)) (somes l)
        (mkGraph es ns pl) =
  Ok (mkGraph (pre ++ map clrE l) ns pl : graph).
Proof.
  induction l as [|[[a e]|] t IH]; intros pre es ns pl E PL ID.
  - cbn [somes foldM map]. rewrite app_nil_r, E, app_nil_r. reflexivity.
  - pose proof (ID 0 a e eq_refl) as I0. rewrite Nat.add_0_r in I0.
    cbn [somes foldM snd]. rewrite I0.
    assert (NE : nth_error es (length pre) = Some (Some (a, e))).
    { rewrite E, nth_error_app2, Nat.sub_diag by lia. reflexivity. }
    unfold modEdge at 1, getEdge. cbn [g_edges g_pool g_nodes].
    assert (length es <=? length pre = false) as -> by (apply nth_error_lt in NE; lia).
    assert (existsb (Nat.eqb (length pre)) pl = false) as ->.
    { apply existsb_eqb_nIn. intro X. apply PL in X. congruence. }
    unfold vget. rewrite NE. cbn [bind].
    assert (UP : upd es (length pre) (Some (a, e_setUsed false e)) =
                 (pre ++ [Some (a, e_setUsed false e)]) ++ t).
    { rewrite <- app_assoc. cbn [app]. apply nth_error_ext. intro j. rewrite nth_error_upd.
      destruct (Nat.eqb_spec j (length pre)) as [->|N]; cbn [andb].
      - apply nth_error_lt in NE. apply Nat.ltb_lt in NE. rewrite NE.
        rewrite nth_error_app2, Nat.sub_diag by lia. reflexivity.
      - rewrite E. destruct (Nat.lt_ge_cases j (length pre)).
        { rewrite !nth_error_app1 by lia. reflexivity. }
        { rewrite !nth_error_app2 by lia. destruct (j - length pre) eqn:X; [lia|reflexivity]. } }
    rewrite (IH (pre ++ [Some (a, e_setUsed false e)])).
    + rewrite <- app_assoc. reflexivity.
    + exact UP.
    + intros id X. rewrite nth_error_upd. destruct (Nat.eqb_spec id (length pre)) as [->|N].
      * apply PL in X. congruence.
      * cbn [andb]. auto.
    + intros k b f Hk. rewrite (ID (S k) b f Hk), app_length. simpl. lia.
  - cbn [somes map]. rewrite (IH (pre ++ [None])).
    + rewrite <- app_assoc. reflexivity.
    + rewrite <- app_assoc. exact E.
    + exact PL.
    + intros k b f Hk. rewrite (ID (S k) b f Hk), app_length. simpl. lia.
Qed.

Lemma resetFlags_spec (g : graph) null : oob env = Some null -> clr g = clr g0 ->
  resetFlags env g = Ok g0.
Proof.
  intros O C. unfold resetFlags. rewrite O, (proj1 (visit_nodes g) null). cbn [bind].
  destruct g as [es ns pl].
  assert (NI : forall k n, nth_error ns k = Some n -> n_id n = 0 + k).
  { intros k n X. destruct (clr_node _ _ _ _ C X) as (n0 & N0 & EN).
    unfold n_setVisited in EN. injection EN as EN _ _ _ _.
    destruct (inv_node g0 (r_inv g0 R) _ _ N0) as (ID & _). simpl; congruence. }
  cbn [g_nodes]. rewrite (reset_nodes ns [] ns es pl eq_refl NI). cbn [bind app].
  injection C as C1 C2 C3.
  assert (HD : match es with None :: _ => False | _ => True end).
  { pose proof (r_head g0 R) as H. destruct es as [|[x|] t]; auto.
    destruct (g_edges g0) as [|[y|] t']; [discriminate|discriminate|exact H]. }
  unfold visitEdgesPre. cbn [g_edges]. rewrite iter_pre_lenient, iter_post_spec; auto. cbn [bind].
  rewrite (reset_edges es [] es); [|reflexivity| |].
  - cbn [app]. transitivity (Ok (clr g0)); [unfold clr; congruence|f_equal; apply (r_clr g0 R)].
  - intros id X. rewrite C3 in X. apply (inv_dead g0 (r_inv g0 R)) in X. unfold slot in X.
    apply (f_equal (fun l => nth_error l id)) in C1. rewrite !nth_error_map, X in C1. cbn in C1.
    destruct (nth_error es id) as [[y|]|]; cbn in C1; congruence.
  - intros k a e X.
    assert (CC : clr (mkGraph es ns pl) = clr g0) by (unfold clr; cbn; congruence).
    destruct (clr_slot _ _ _ _ _ CC X) as (e0 & S0 & E). unfold e_setUsed in E. injection E as E _ _ _ _ _ _.
    destruct (inv_edge g0 (r_inv g0 R) _ _ _ S0) as (ID & _). simpl; congruence.
Qed.

(** ** the whole query *)
Lemma gen_result g' out calls : genLoopClosures env ch g0 q = Ok (g', out, calls) ->
  (forall null, oob env = Some null -> g' = g0) /\
  (forall c, In c out -> good_closure c) /\
  length calls <= max_search_depth /\
  map (@lc_to _ _) out = rev (map fst (filter snd calls)) /\
  (single_out g0 -> NoDup (map (@lc_to _ _) out)).
Proof.
  intro H. unfold genLoopClosures in H.
  destruct init_spec as (g1 & g2 & es & M & G & L & I).
  rewrite M in H. cbn [bind] in H. rewrite G in H. cbn [bind fst snd] in H.
  apply bind_ok_inv in H. destruct H as (s & RN & H).
  apply bind_ok_inv in H. destruct H as (g3 & RS & H). injection H as <- <- <-.
  destruct (loopRun_inv _ _ _ _ _ I RN) as (P' & L' & I').
  destruct (li_calls _ _ _ I') as (K1 & K2 & K3).
  split; [|split; [apply (li_out _ _ _ I')|]].
  - intros null O. rewrite (resetFlags_spec _ null O (li_clr _ _ _ I')) in RS. congruence.
  - split; [lia|]. split; [auto|]. apply (li_nodup _ _ _ I').
Qed.

Lemma gen_defined null : oob env = Some null ->
  (forall k, k < length (g_nodes g0) -> back_reach g0 q k) ->
  exists out calls, genLoopClosures env ch g0 q = Ok (g0, out, calls).
Proof.
  intros O RA. unfold genLoopClosures.
  destruct init_spec as (g1 & g2 & es & M & G & L & I).
  rewrite M. cbn [bind]. rewrite G. cbn [bind fst snd].
  destruct (loopRun_total (nodeCount g0) _ _ _ I RA) as (s & RN); [cbn [ls_visited]; lia|].
  rewrite RN. cbn [bind]. destruct (loopRun_inv _ _ _ _ _ I RN) as (P' & L' & I').
  rewrite (resetFlags_spec _ null O (li_clr _ _ _ I')). cbn [bind]. eauto.
Qed.

(** strictly, no query is defined *)
Lemma gen_strict : oob env = None -> forall r, genLoopClosures env ch g0 q <> Ok r.
Proof.
  intros O r H. unfold genLoopClosures in H.
  destruct init_spec as (g1 & g2 & es & M & G & L & I).
  rewrite M in H. cbn [bind] in H. rewrite G in H. cbn [bind fst snd] in H.
  apply bind_ok_inv in H. destruct H as (s & RN & H).
  apply bind_ok_inv in H. destruct H as (g3 & RS & _).
  destruct (loopRun_inv _ _ _ _ _ I RN) as (P' & L' & I').
  destruct (clr_len _ _ (li_clr _ _ _ I')) as [_ LN].
  unfold resetFlags in RS. rewrite O, (proj2 (visit_nodes (ls_g s))) in RS; [discriminate|].
  unfold nodeCount. lia.
Qed.

(** no way back: the queue is empty at once *)
Lemma gen_no_way_back : (forall e, has_edge g0 e -> e_to e <> q) -> 1 < nodeCount g0 ->
  genLoopClosures env ch g0 q = UB.
Proof.
  intros NW NC. unfold genLoopClosures.
  destruct (mark_spec g0 q eq_refl HQ) as (g1 & M & C1 & E1 & V1).
  destruct (gen_spec q (d0 ch) g1 C1 HQ) as (g2 & L & G & C2 & N2 & ND & PL & _).
  rewrite M. cbn [bind]. rewrite G. cbn [bind fst snd].
  assert (L = []) as ->.
  { destruct L as [|id t]; [auto|]. destruct (PL id (or_introl eq_refl)) as ((a & e & S) & T & _).
    unfold tnode in T. rewrite S in T. destruct (NW e); [exists id, a; exact S|auto]. }
  destruct (clr_len _ _ C2) as [_ LN]. unfold nodeCount in *.
  cbn [map]. destruct (length (g_nodes g0)) as [|n] eqn:E; [lia|]. cbn [loopRun ls_visited ls_g ls_depth nodeCount].
  unfold nodeCount. rewrite LN. assert (1 <? S n = true) as -> by lia. reflexivity.
Qed.

End Query.
End L.
