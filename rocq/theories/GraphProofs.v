(** Proofs about the pose graph. *)
From Coq Require Import List ZArith Bool Arith Lia.
From Coq Require Import ZifyBool ZifyNat.
From Verif Require Import Base GraphModel GraphSpec.
Import ListNotations.
Open Scope nat_scope.

Lemma existsb_eqb_In l x : existsb (Nat.eqb x) l = true <-> In x l.
Proof.
  rewrite existsb_exists. split.
  - intros (y & H & E). apply Nat.eqb_eq in E. subst; auto.
  - intro H. exists x. split; [auto|apply Nat.eqb_refl].
Qed.
Lemma existsb_eqb_nIn l x : existsb (Nat.eqb x) l = false <-> ~ In x l.
Proof.
  rewrite <- existsb_eqb_In. destruct (existsb (Nat.eqb x) l); split; intro H; congruence.
Qed.

Lemma addPtr_In l a x : In x (addPtr l a) <-> In x l \/ x = a.
Proof.
  unfold addPtr. destruct (existsb (Nat.eqb a) l) eqn:E.
  - apply existsb_eqb_In in E. split; [auto|]. intros [H|H]; subst; auto.
  - rewrite in_app_iff. simpl. firstorder congruence.
Qed.
Lemma addPtr_NoDup l a : NoDup l -> NoDup (addPtr l a).
Proof.
  intro H. unfold addPtr. destruct (existsb (Nat.eqb a) l) eqn:E; auto.
  apply existsb_eqb_nIn in E. apply NoDup_rev in H. rewrite <- (rev_involutive (l ++ [a])).
  apply NoDup_rev. rewrite rev_unit. constructor; auto. rewrite <- in_rev. auto.
Qed.

Lemma nth_error_lt {A} (l : list A) i x : nth_error l i = Some x -> i < length l.
Proof. intro H. apply nth_error_Some. congruence. Qed.

Lemma nth_error_snoc {A} (l : list A) x j :
  nth_error (l ++ [x]) j = if j =? length l then Some x else nth_error l j.
Proof.
  destruct (Nat.eqb_spec j (length l)) as [->|N].
  - rewrite nth_error_app2 by lia. rewrite Nat.sub_diag. reflexivity.
  - destruct (Nat.lt_ge_cases j (length l)).
    + apply nth_error_app1; auto.
    + assert (nth_error l j = None) as -> by (apply nth_error_None; lia).
      apply nth_error_None. rewrite app_length. simpl. lia.
Qed.

Lemma nth_error_ext {A} (l : list A) : forall l', (forall j, nth_error l j = nth_error l' j) -> l = l'.
Proof.
  induction l as [|x t IH]; intros [|y t'] H; auto.
  - specialize (H 0). discriminate.
  - specialize (H 0). discriminate.
  - pose proof (H 0) as H0. simpl in H0. injection H0 as ->. f_equal. apply IH.
    intro j. apply (H (S j)).
Qed.

Section P.
Context {Pose Obj Info : Type}.
Notation graph := (graph Pose Obj Info).
Notation edge := (edge Pose Info).
Notation node := (node Pose Obj).
Implicit Type g : graph.

Definition slot g id : option (option (addr * edge)) := nth_error (g_edges g) id.

Record Inv g : Prop := {
  inv_pool : NoDup (g_pool g);
  inv_dead : forall id, In id (g_pool g) <-> slot g id = Some None;
  inv_edge : forall id a e, slot g id = Some (Some (a, e)) ->
      e_id e = id /\ e_from e < length (g_nodes g) /\ e_to e < length (g_nodes g);
  inv_addr : forall i j a e e', slot g i = Some (Some (a, e)) ->
      slot g j = Some (Some (a, e')) -> i = j;
  inv_node : forall k n, nth_error (g_nodes g) k = Some n ->
      n_id n = k /\ NoDup (n_out n) /\ NoDup (n_in n);
  inv_out : forall id a e n, slot g id = Some (Some (a, e)) ->
      nth_error (g_nodes g) (e_from e) = Some n -> In a (n_out n);
  inv_in : forall id a e n, slot g id = Some (Some (a, e)) ->
      nth_error (g_nodes g) (e_to e) = Some n -> In a (n_in n)
}.

Lemma Inv_empty : Inv gempty.
Proof.
  split; unfold slot; simpl.
  - constructor.
  - intro id. split; [tauto|]. destruct id; discriminate.
  - intros [|]; discriminate.
  - intros [|]; discriminate.
  - intros [|]; discriminate.
  - intros [|]; discriminate.
  - intros [|]; discriminate.
Qed.

Lemma live_addr_iff g a :
  live_addr g a = true <-> exists id e, slot g id = Some (Some (a, e)).
Proof.
  unfold live_addr, slot. rewrite existsb_exists. split.
  - intros (s & H & E). destruct s as [[b e]|]; [|discriminate].
    apply Nat.eqb_eq in E. subst b. apply In_nth_error in H. destruct H as (id & H). eauto.
  - intros (id & e & H). exists (Some (a, e)). split; [eapply nth_error_In; eauto|].
    apply Nat.eqb_refl.
Qed.

(** ** addNode *)
Lemma addNode_nodes g p o k :
  nth_error (g_nodes (fst (addNode g p o))) k =
  if k =? length (g_nodes g) then Some (mkNode k false p o [] []) else nth_error (g_nodes g) k.
Proof.
  unfold addNode. cbn [fst g_nodes]. rewrite nth_error_snoc.
  destruct (Nat.eqb_spec k (length (g_nodes g))) as [->|]; reflexivity.
Qed.

Lemma addNode_Inv g p o : Inv g -> Inv (fst (addNode g p o)).
Proof.
  intros [I1 I2 I3 I4 I5 I6 I7].
  assert (L : length (g_nodes (fst (addNode g p o))) = length (g_nodes g) + 1).
  { unfold addNode; cbn [fst g_nodes]. rewrite app_length. reflexivity. }
  split; auto.
  - intros id a e H. rewrite L. destruct (I3 id a e H) as (A & B & D). repeat split; auto; lia.
  - intros k n. rewrite addNode_nodes. destruct (Nat.eqb_spec k (length (g_nodes g))) as [->|N].
    + intro H. injection H as <-. cbn. repeat split; constructor.
    + apply I5.
  - intros id a e n H. rewrite addNode_nodes.
    destruct (Nat.eqb_spec (e_from e) (length (g_nodes g))) as [E|N].
    + destruct (I3 id a e H) as (_ & B & _). lia.
    + apply (I6 id a e n H).
  - intros id a e n H. rewrite addNode_nodes.
    destruct (Nat.eqb_spec (e_to e) (length (g_nodes g))) as [E|N].
    + destruct (I3 id a e H) as (_ & _ & B). lia.
    + apply (I7 id a e n H).
Qed.

(** ** addEdge *)
Definition touch_node (a : addr) (from to k : nat) (n : node) : node :=
  let n1 := if k =? from then n_addOut a n else n in
  if k =? to then n_addIn a n1 else n1.

Lemma onNode_spec (l : list node) i f n : nth_error l i = Some n ->
  exists l', onNode l i f = Ok l' /\ length l' = length l /\
    forall k, nth_error l' k = if k =? i then Some (f n) else nth_error l k.
Proof.
  intro H. unfold onNode, vget. rewrite H. cbn [bind]. eexists. split; [reflexivity|].
  split; [apply length_upd|]. intro k. rewrite nth_error_upd.
  apply nth_error_lt in H. apply Nat.ltb_lt in H. rewrite H, andb_true_r. reflexivity.
Qed.

Lemma addEdge_spec g a e : Inv g ->
  (live_addr g a = false /\ e_from e < length (g_nodes g) /\ e_to e < length (g_nodes g)) ->
  exists g' id, addEdge g a e = Ok (g', id) /\
    ((g_pool g = [] /\ id = length (g_edges g) /\ g_pool g' = []) \/
     (g_pool g = id :: g_pool g' /\ id < length (g_edges g))) /\
    length (g_edges g') = Nat.max (length (g_edges g)) (S id) /\
    length (g_nodes g') = length (g_nodes g) /\
    (forall j, slot g' j = if j =? id then Some (Some (a, e_setId e id)) else slot g j) /\
    (forall k, nth_error (g_nodes g') k =
       option_map (touch_node a (e_from e) (e_to e) k) (nth_error (g_nodes g) k)).
Proof.
  intros I (LA & HF & HT). unfold addEdge. rewrite LA.
  destruct (nth_error (g_nodes g) (e_from e)) as [nf|] eqn:NF.
  2: { apply nth_error_None in NF. lia. }
  destruct (inv_node g I _ _ NF) as (IDF & _).
  destruct (onNode_spec (g_nodes g) (e_from e) (n_addOut a) nf NF) as (ns1 & O1 & L1 & S1).
  destruct (nth_error ns1 (e_to e)) as [nt|] eqn:NT.
  2: { apply nth_error_None in NT. lia. }
  assert (IDT : n_id nt = e_to e).
  { rewrite S1 in NT. destruct (Nat.eqb_spec (e_to e) (e_from e)) as [E|E].
    - injection NT as <-. cbn. congruence.
    - apply (inv_node g I _ _ NT). }
  destruct (onNode_spec ns1 (e_to e) (n_addIn a) nt NT) as (ns2 & O2 & L2 & S2).
  assert (NODES : forall k, nth_error ns2 k =
       option_map (touch_node a (e_from e) (e_to e) k) (nth_error (g_nodes g) k)).
  { intro k. rewrite S2, S1. unfold touch_node.
    destruct (Nat.eqb_spec k (e_to e)) as [->|N1].
    - rewrite S1 in NT. destruct (Nat.eqb_spec (e_to e) (e_from e)) as [E|E].
      + injection NT as <-. rewrite E, NF. reflexivity.
      + rewrite NT. reflexivity.
    - destruct (Nat.eqb_spec k (e_from e)) as [->|N2].
      + rewrite NF. reflexivity.
      + destruct (nth_error (g_nodes g) k); reflexivity. }
  destruct (g_pool g) as [|f t] eqn:PL; cbn [bind].
  - rewrite vset_ok by (rewrite app_length; simpl; lia). cbn [bind].
    unfold vget at 1. rewrite NF. cbn [bind]. rewrite IDF, O1. cbn [bind].
    unfold vget. rewrite NT. cbn [bind]. rewrite IDT, O2. cbn [bind].
    eexists _, _. split; [reflexivity|]. cbn [g_pool g_edges g_nodes].
    split; [left; auto|]. split; [rewrite length_upd, app_length; simpl; lia|].
    split; [lia|]. split; [|exact NODES].
    intro j. unfold slot. cbn [g_edges]. rewrite nth_error_upd, nth_error_snoc, app_length. simpl.
    destruct (Nat.eqb_spec j (length (g_edges g))) as [->|N]; cbn [andb]; [|reflexivity].
    assert (length (g_edges g) <? length (g_edges g) + 1 = true) as -> by lia. reflexivity.
  - assert (FL : f < length (g_edges g)).
    { assert (X : In f (g_pool g)) by (rewrite PL; left; auto).
      apply (inv_dead g I) in X. eapply nth_error_lt; exact X. }
    rewrite vset_ok by auto. cbn [bind].
    rewrite vset_ok by (rewrite length_upd; auto). cbn [bind].
    unfold vget at 1. rewrite NF. cbn [bind]. rewrite IDF, O1. cbn [bind].
    unfold vget. rewrite NT. cbn [bind]. rewrite IDT, O2. cbn [bind].
    eexists _, _. split; [reflexivity|]. cbn [g_pool g_edges g_nodes].
    split; [right; auto|]. split; [rewrite !length_upd; lia|].
    split; [lia|]. split; [|exact NODES].
    intro j. unfold slot. cbn [g_edges]. rewrite !nth_error_upd, length_upd.
    destruct (Nat.eqb_spec j f) as [->|N]; cbn [andb]; [|reflexivity].
    apply Nat.ltb_lt in FL. rewrite FL. reflexivity.
Qed.

Lemma addEdge_pre g a e r : Inv g -> addEdge g a e = Ok r ->
  live_addr g a = false /\ e_from e < length (g_nodes g) /\ e_to e < length (g_nodes g).
Proof.
  intros I H. unfold addEdge in H. destruct (live_addr g a); [discriminate|]. split; [auto|].
  apply bind_ok_inv in H. destruct H as ([[es pool] id] & _ & H).
  apply bind_ok_inv in H. destruct H as (es' & _ & H).
  apply bind_ok_inv in H. destruct H as (nf & NF & H).
  apply bind_ok_inv in H. destruct H as (ns1 & O1 & H).
  apply bind_ok_inv in H. destruct H as (nt & NT & H).
  apply vget_ok in NF. apply vget_ok in NT.
  apply nth_error_lt in NF. apply nth_error_lt in NT.
  unfold onNode in O1. apply bind_ok_inv in O1. destruct O1 as (n & _ & O1). injection O1 as <-.
  rewrite length_upd in NT. auto.
Qed.

Lemma touch_node_out a f t k n : n_out (touch_node a f t k n) =
  if k =? f then addPtr (n_out n) a else n_out n.
Proof. unfold touch_node. destruct (k =? f), (k =? t); reflexivity. Qed.
Lemma touch_node_in a f t k n : n_in (touch_node a f t k n) =
  if k =? t then addPtr (n_in n) a else n_in n.
Proof. unfold touch_node. destruct (k =? f), (k =? t); reflexivity. Qed.
Lemma touch_node_rest a f t k n : n_id (touch_node a f t k n) = n_id n /\
  n_pose (touch_node a f t k n) = n_pose n /\ n_obj (touch_node a f t k n) = n_obj n /\
  n_visited (touch_node a f t k n) = n_visited n.
Proof. unfold touch_node. destruct (k =? f), (k =? t); repeat split. Qed.

Lemma addEdge_Inv g a e g' id : Inv g -> addEdge g a e = Ok (g', id) -> Inv g'.
Proof.
  intros I H. pose proof (addEdge_pre g a e _ I H) as P.
  destruct (addEdge_spec g a e I P) as (g1 & id1 & E & PL & LE & LN & SL & ND).
  rewrite H in E. injection E as <- <-.
  destruct P as (LA & HF & HT).
  assert (NL : forall i e', slot g i <> Some (Some (a, e'))).
  { intros i e' X. assert (live_addr g a = true) by (apply live_addr_iff; eauto). congruence. }
  destruct I as [I1 I2 I3 I4 I5 I6 I7].
  assert (ND' : forall k n', nth_error (g_nodes g') k = Some n' ->
     exists n, nth_error (g_nodes g) k = Some n /\ n' = touch_node a (e_from e) (e_to e) k n).
  { intros k n' X. rewrite ND in X. destruct (nth_error (g_nodes g) k) as [n|]; [|discriminate].
    injection X as <-. eauto. }
  split.
  - destruct PL as [(_ & _ & ->)|(PL & _)]; [constructor|]. rewrite PL in I1. inversion I1; auto.
  - intro j. rewrite SL. destruct (Nat.eqb_spec j id) as [->|N].
    + split; [|discriminate]. intro X.
      destruct PL as [(_ & _ & E)|(PL & _)]; [rewrite E in X; destruct X|].
      rewrite PL in I1. inversion I1; subst. contradiction.
    + rewrite <- I2. destruct PL as [(E1 & _ & E2)|(PL & _)]; [rewrite E1, E2; tauto|].
      rewrite PL. simpl. split; [auto|]. intros [X|X]; [congruence|auto].
  - intros j b e'. rewrite SL, LN. destruct (Nat.eqb_spec j id) as [->|N].
    + intro X. injection X as <- <-. cbn. auto.
    + apply I3.
  - intros i j b e1 e2. rewrite !SL.
    destruct (Nat.eqb_spec i id) as [->|N1]; destruct (Nat.eqb_spec j id) as [->|N2]; auto.
    + intros X Y. injection X as <- _. destruct (NL _ _ Y).
    + intros X Y. injection Y as <- _. destruct (NL _ _ X).
    + apply I4.
  - intros k n' X. destruct (ND' k n' X) as (n & Hn & ->).
    destruct (I5 k n Hn) as (A & B & D).
    destruct (touch_node_rest a (e_from e) (e_to e) k n) as (-> & _).
    rewrite touch_node_out, touch_node_in.
    split; [auto|]. split; [destruct (k =? e_from e)|destruct (k =? e_to e)]; auto using addPtr_NoDup.
  - intros j b e' n' X Y. rewrite SL in X. destruct (ND' _ n' Y) as (n & Hn & ->).
    rewrite touch_node_out. destruct (Nat.eqb_spec j id) as [->|N].
    + injection X as <- <-. cbn [e_from e_setId]. rewrite Nat.eqb_refl. apply addPtr_In. auto.
    + assert (In b (n_out n)) by (eapply I6; eauto).
      destruct (e_from e' =? e_from e); [apply addPtr_In|]; auto.
  - intros j b e' n' X Y. rewrite SL in X. destruct (ND' _ n' Y) as (n & Hn & ->).
    rewrite touch_node_in. destruct (Nat.eqb_spec j id) as [->|N].
    + injection X as <- <-. cbn [e_to e_setId]. rewrite Nat.eqb_refl. apply addPtr_In. auto.
    + assert (In b (n_in n)) by (eapply I7; eauto).
      destruct (e_to e' =? e_to e); [apply addPtr_In|]; auto.
Qed.

(** ** removeEdge *)
Lemma removeEdge_cases g id : Inv g ->
  match slot g id with
  | Some (Some _) => exists g', removeEdge g id = Ok (g', true) /\
       g_nodes g' = g_nodes g /\ g_pool g' = id :: g_pool g /\
       length (g_edges g') = length (g_edges g) /\
       (forall j, slot g' j = if j =? id then Some None else slot g j)
  | Some None => removeEdge g id = Ok (g, false)
  | None => if id =? length (g_edges g) then removeEdge g id = UB
            else removeEdge g id = Ok (g, false)
  end.
Proof.
  intro I. unfold removeEdge. destruct (slot g id) as [[x|]|] eqn:S.
  - pose proof (nth_error_lt _ _ _ S) as L.
    assert (length (g_edges g) <? id = false) as -> by lia.
    assert (existsb (Nat.eqb id) (g_pool g) = false) as ->.
    { apply existsb_eqb_nIn. rewrite (inv_dead g I), S. discriminate. }
    rewrite vset_ok by auto. cbn [bind]. eexists. split; [reflexivity|].
    cbn [g_nodes g_pool g_edges]. repeat (split; [auto using length_upd|]).
    intro j. unfold slot. cbn [g_edges]. rewrite nth_error_upd.
    apply Nat.ltb_lt in L. rewrite L, andb_true_r. reflexivity.
  - pose proof (nth_error_lt _ _ _ S) as L.
    assert (length (g_edges g) <? id = false) as -> by lia.
    assert (existsb (Nat.eqb id) (g_pool g) = true) as ->.
    { apply existsb_eqb_In. apply (inv_dead g I). auto. }
    reflexivity.
  - apply nth_error_None in S. destruct (Nat.eqb_spec id (length (g_edges g))) as [->|N].
    + rewrite Nat.ltb_irrefl.
      assert (existsb (Nat.eqb (length (g_edges g))) (g_pool g) = false) as ->.
      { apply existsb_eqb_nIn. rewrite (inv_dead g I). intro X. apply nth_error_lt in X. lia. }
      unfold vset. rewrite Nat.ltb_irrefl. reflexivity.
    + assert (length (g_edges g) <? id = true) as -> by lia. reflexivity.
Qed.

Lemma removeEdge_Inv g id g' b : Inv g -> removeEdge g id = Ok (g', b) -> Inv g'.
Proof.
  intros I H. pose proof (removeEdge_cases g id I) as R. destruct (slot g id) as [[x|]|] eqn:S.
  - destruct R as (g1 & E & EN & EP & _ & SL). rewrite H in E. injection E as <- _.
    destruct I as [I1 I2 I3 I4 I5 I6 I7].
    assert (NS : forall j x, slot g' j = Some (Some x) -> slot g j = Some (Some x)).
    { intros j y X. rewrite SL in X. destruct (j =? id); [discriminate|auto]. }
    split.
    + rewrite EP. constructor; auto. rewrite I2, S. discriminate.
    + intro j. rewrite EP, SL. simpl. destruct (Nat.eqb_spec j id) as [->|N]; [tauto|].
      rewrite <- I2. split; [intros [X|X]; [congruence|auto]|auto].
    + intros j a e X. rewrite EN. eauto.
    + intros i j a e e' X Y. eauto.
    + rewrite EN. auto.
    + intros j a e n X Y. rewrite EN in Y. eauto.
    + intros j a e n X Y. rewrite EN in Y. eauto.
  - rewrite H in R. injection R as -> _. auto.
  - destruct (id =? length (g_edges g)); rewrite H in R; [discriminate|]. injection R as -> _. auto.
Qed.

(** ** reading *)
Lemma getEdge_slot g id : Inv g ->
  getEdge g id = match slot g id with Some (Some (_, e)) => Ok e | _ => Throw end.
Proof.
  intro I. unfold getEdge. destruct (slot g id) as [[[a e]|]|] eqn:S.
  - pose proof (nth_error_lt _ _ _ S) as L.
    assert (length (g_edges g) <=? id = false) as -> by lia.
    assert (existsb (Nat.eqb id) (g_pool g) = false) as ->.
    { apply existsb_eqb_nIn. rewrite (inv_dead g I), S. discriminate. }
    unfold vget. unfold slot in S. rewrite S. reflexivity.
  - assert (existsb (Nat.eqb id) (g_pool g) = true) as ->.
    { apply existsb_eqb_In. apply (inv_dead g I). auto. }
    destruct (_ <=? _); reflexivity.
  - apply nth_error_None in S. apply Nat.leb_le in S. rewrite S. reflexivity.
Qed.

Lemma getNode_nth g id :
  getNode g id = match nth_error (g_nodes g) id with Some n => Ok n | None => Throw end.
Proof.
  unfold getNode, vget. destruct (nth_error (g_nodes g) id) as [n|] eqn:E.
  - apply nth_error_lt in E. assert (length (g_nodes g) <=? id = false) as -> by lia. reflexivity.
  - apply nth_error_None in E. apply Nat.leb_le in E. rewrite E. reflexivity.
Qed.

(** ** the log *)
Notation gev := (gev Pose Obj Info).
Definition log_ok g (log : list gev) : Prop :=
  (forall id, live_edge log id =
     match slot g id with Some (Some (_, e)) => Some (data_of e) | _ => None end) /\
  (forall id, edge_id_used log id = (id <? length (g_edges g))) /\
  (forall id, live_node log id =
     match nth_error (g_nodes g) id with Some n => Some (n_pose n, n_obj n) | None => None end).

Lemma gstep_ok g log o g' ev : Inv g -> log_ok g log -> gstep g o = Ok (g', ev) ->
  Inv g' /\ log_ok g' (ev :: log).
Proof.
  intros I (L1 & L2 & L3) H. destruct o as [p x|a f t tr i|id]; cbn [gstep] in H.
  - injection H as <- <-. split; [apply (addNode_Inv g p x I)|].
    split; [|split].
    + exact L1.
    + exact L2.
    + intro k. cbn [live_node]. pose proof (addNode_nodes g p x k) as N.
      unfold addNode in N. cbn [fst] in N. rewrite N, Nat.eqb_sym.
      destruct (Nat.eqb_spec k (length (g_nodes g))); [reflexivity|apply L3].
  - apply bind_ok_inv in H. destruct H as ([g1 id] & A & H). injection H as <- <-. cbn [fst snd].
    pose proof (addEdge_pre g a _ _ I A) as P.
    destruct (addEdge_spec g a (newEdge f t tr i) I P) as (g2 & id2 & E & PL & LE & LN & SL & ND).
    rewrite A in E. injection E as <- <-.
    split; [eapply addEdge_Inv; eauto|]. split; [|split].
    + intro j. cbn [live_edge]. rewrite SL, Nat.eqb_sym.
      destruct (Nat.eqb_spec j id); [reflexivity|apply L1].
    + intro j. cbn [edge_id_used]. rewrite L2, LE.
      destruct PL as [(_ & PL & _)|(_ & PL)]; lia.
    + intro k. cbn [live_node]. rewrite L3, ND.
      destruct (nth_error (g_nodes g) k) as [n|]; cbn [option_map]; [|reflexivity].
      match goal with |- context [touch_node ?b ?x ?y ?z ?n] =>
        destruct (touch_node_rest b x y z n) as (_ & -> & -> & _) end. reflexivity.
  - apply bind_ok_inv in H. destruct H as ([g1 b] & R & H). injection H as <- <-. cbn [fst snd].
    split; [eapply removeEdge_Inv; eauto|].
    pose proof (removeEdge_cases g id I) as C. destruct (slot g id) as [[x|]|] eqn:S.
    + destruct C as (g2 & E & EN & EP & LE & SL). rewrite R in E. injection E as <- ->.
      split; [|split].
      * intro j. cbn [live_edge]. rewrite SL, Nat.eqb_sym. destruct (j =? id); [reflexivity|apply L1].
      * intro j. cbn [edge_id_used]. rewrite L2, LE. reflexivity.
      * intro k. cbn [live_node]. rewrite EN. apply L3.
    + rewrite R in C. injection C as -> ->. split; [|split]; auto.
    + destruct (id =? length (g_edges g)); rewrite R in C; [discriminate|].
      injection C as -> ->. split; [|split]; auto.
Qed.

Lemma grun_fold_ok l : forall g log g' log', Inv g -> log_ok g log ->
  foldM (fun s o => do r <- gstep (fst s) o; Ok (fst r, snd r :: snd s)) l (g, log) = Ok (g', log') ->
  Inv g' /\ log_ok g' log'.
Proof.
  induction l as [|o t IH]; intros g log g' log' I L H; cbn [foldM fst snd] in H.
  - injection H as <- <-. auto.
  - apply bind_ok_inv in H. destruct H as ([g1 log1] & E & H).
    apply bind_ok_inv in E. destruct E as ([g2 ev] & S & E). injection E as <- <-.
    destruct (gstep_ok _ _ _ _ _ I L S) as [I1 L1]. cbn [fst snd] in *. eauto.
Qed.

Lemma grun_ok l g log : grun l = Ok (g, log) -> Inv g /\ log_ok g log.
Proof.
  intro H. eapply grun_fold_ok; [apply Inv_empty| |exact H].
  split; [|split]; intro id; unfold slot; destruct id; reflexivity.
Qed.

(** ** counting *)
Lemma pool_count g : Inv g ->
  length (somes (g_edges g)) + length (g_pool g) = length (g_edges g).
Proof.
  intro I.
  assert (P : length (g_pool g) =
    length (filter (fun id => match slot g id with Some None => true | _ => false end)
                   (seq 0 (length (g_edges g))))).
  { apply Nat.le_antisymm.
    - apply NoDup_incl_length; [apply (inv_pool g I)|]. intros id H.
      apply (inv_dead g I) in H. apply filter_In. rewrite H. split; [|auto].
      apply in_seq. apply nth_error_lt in H. lia.
    - apply NoDup_incl_length; [apply NoDup_filter, seq_NoDup|]. intros id H.
      apply filter_In in H. destruct H as [_ H]. apply (inv_dead g I).
      destruct (slot g id) as [[x|]|]; congruence. }
  rewrite P. unfold slot. clear I P. induction (g_edges g) as [|s t IH]; [reflexivity|].
  cbn [length seq]. rewrite <- seq_shift.
  assert (F : forall l, filter (fun id => match nth_error (s :: t) id with Some None => true | _ => false end)
      (map S l) = map S (filter (fun id => match nth_error t id with Some None => true | _ => false end) l)).
  { intros l. induction l as [|y l IHl]; [reflexivity|].
    cbn [map filter nth_error]. destruct (nth_error t y) as [[z|]|]; cbn [map]; rewrite IHl; reflexivity. }
  cbn [filter]. rewrite F.
  destruct s; cbn [nth_error somes length]; rewrite map_length; lia.
Qed.

(** ids of the live edges *)
Definition live_ids g : list nat :=
  filter (fun id => match slot g id with Some (Some _) => true | _ => false end)
         (seq 0 (length (g_edges g))).

Lemma live_ids_length g : length (live_ids g) = length (somes (g_edges g)).
Proof.
  unfold live_ids, slot. induction (g_edges g) as [|s t IH]; [reflexivity|].
  cbn [length seq]. rewrite <- seq_shift.
  assert (F : forall l, filter (fun id => match nth_error (s :: t) id with Some (Some _) => true | _ => false end)
      (map S l) = map S (filter (fun id => match nth_error t id with Some (Some _) => true | _ => false end) l)).
  { intros l. induction l as [|y l IHl]; [reflexivity|].
    cbn [map filter nth_error]. destruct (nth_error t y) as [[z|]|]; cbn [map]; rewrite IHl; reflexivity. }
  cbn [filter]. rewrite F.
  destruct s; cbn [nth_error somes length]; rewrite map_length; lia.
Qed.

(** ** C31 *)
Lemma graph_ids l g log : grun l = Ok (g, log) ->
  (forall id, match live_edge log id with
              | Some d => exists e, getEdge g id = Ok e /\ e_id e = id /\ data_of e = d
              | None => getEdge g id = Throw
              end) /\
  (forall id, match live_node log id with
              | Some (p, o) => exists n, getNode g id = Ok n /\ n_id n = id /\
                                 n_pose n = p /\ n_obj n = o
              | None => getNode g id = Throw
              end) /\
  (exists ids, NoDup ids /\ (forall id, In id ids <-> live_edge log id <> None) /\
     edgeCount g = u64 (Z.of_nat (length ids))) /\
  (forall id, id < nodeCount g <-> live_node log id <> None).
Proof.
  intro H. destruct (grun_ok _ _ _ H) as [I (L1 & L2 & L3)].
  split; [|split; [|split]].
  - intro id. rewrite L1, (getEdge_slot g id I).
    destruct (slot g id) as [[[a e]|]|] eqn:S; auto.
    exists e. destruct (inv_edge g I _ _ _ S) as (A & _). auto.
  - intro id. rewrite L3, getNode_nth. destruct (nth_error (g_nodes g) id) as [n|] eqn:E; auto.
    exists n. destruct (inv_node g I _ _ E) as (A & _). auto.
  - exists (live_ids g). split; [apply NoDup_filter, seq_NoDup|]. split.
    + intro id. rewrite L1. unfold live_ids. rewrite filter_In, in_seq.
      destruct (slot g id) as [[[a e]|]|] eqn:S; split; try (intros [_ X]; discriminate); try congruence.
      intros _. split; [|auto]. apply nth_error_lt in S. lia.
    + unfold edgeCount. pose proof (pool_count g I) as P. rewrite live_ids_length. f_equal. lia.
  - intro id. rewrite L3. unfold nodeCount. rewrite <- nth_error_Some.
    destruct (nth_error (g_nodes g) id); split; congruence.
Qed.

Lemma addEdge_id l g log a f t tr i g' id : grun l = Ok (g, log) ->
  gstep g (GAddEdge a f t tr i) = Ok (g', EvEdge id f t tr i) ->
  live_edge log id = None /\
  ((exists old, edge_id_used log old = true /\ live_edge log old = None) ->
     edge_id_used log id = true).
Proof.
  intros R H. destruct (grun_ok _ _ _ R) as [I (L1 & L2 & L3)].
  cbn [gstep] in H. apply bind_ok_inv in H. destruct H as ([g1 id1] & A & H).
  injection H as <- <-. pose proof (addEdge_pre g a _ _ I A) as P.
  destruct (addEdge_spec g a _ I P) as (g2 & id2 & E & PL & LE & LN & SL & ND).
  rewrite A in E. injection E as <- <-.
  rewrite L1, L2. destruct PL as [(PL & -> & _)|(PL & LT)].
  - split.
    + assert (slot g (length (g_edges g)) = None) as -> by (apply nth_error_None; lia). reflexivity.
    + intros (old & U & D). rewrite L2 in U. rewrite L1 in D.
      destruct (slot g old) as [[[x y]|]|] eqn:S; [discriminate| |].
      * apply (inv_dead g I) in S. rewrite PL in S. destruct S.
      * apply nth_error_None in S. lia.
  - split; [|lia]. assert (X : In id1 (g_pool g)) by (rewrite PL; left; auto).
    apply (inv_dead g I) in X. rewrite X. reflexivity.
Qed.

(** adding is defined for existing end points *)
Lemma addEdge_defined l g log a f t tr i : grun l = Ok (g, log) ->
  live_addr g a = false -> live_node log f <> None -> live_node log t <> None ->
  exists g' id, gstep g (GAddEdge a f t tr i) = Ok (g', EvEdge id f t tr i).
Proof.
  intros R LA HF HT. destruct (grun_ok _ _ _ R) as [I (L1 & L2 & L3)].
  destruct (addEdge_spec g a (newEdge f t tr i) I) as (g' & id & E & _).
  - cbn. rewrite L3 in HF, HT. rewrite <- !nth_error_Some.
    destruct (nth_error (g_nodes g) f), (nth_error (g_nodes g) t); repeat split; congruence.
  - cbn [gstep]. rewrite E. cbn. eauto.
Qed.

(** ** C32, C33 *)
Lemma removed_edge_throws l g log id g' : grun l = Ok (g, log) ->
  removeEdge g id = Ok (g', true) ->
  getEdge g' id = Throw /\ g_nodes g' = g_nodes g /\
  (forall j, j <> id -> getEdge g' j = getEdge g j).
Proof.
  intros R H. destruct (grun_ok _ _ _ R) as [I _].
  pose proof (removeEdge_Inv _ _ _ _ I H) as I'.
  pose proof (removeEdge_cases g id I) as C. destruct (slot g id) as [[x|]|] eqn:S.
  - destruct C as (g2 & E & EN & EP & LE & SL). rewrite H in E. injection E as <-.
    rewrite (getEdge_slot g' id I'), SL, Nat.eqb_refl. split; [auto|]. split; [auto|].
    intros j N. rewrite (getEdge_slot g' j I'), (getEdge_slot g j I), SL.
    apply Nat.eqb_neq in N. rewrite N. reflexivity.
  - rewrite H in C. discriminate.
  - destruct (id =? length (g_edges g)); rewrite H in C; discriminate.
Qed.

Lemma removeEdge_total l g log id : grun l = Ok (g, log) -> id <> length (g_edges g) ->
  match live_edge log id with
  | Some _ => exists g', removeEdge g id = Ok (g', true)
  | None => removeEdge g id = Ok (g, false)
  end.
Proof.
  intros R N. destruct (grun_ok _ _ _ R) as [I (L1 & _)]. rewrite L1.
  pose proof (removeEdge_cases g id I) as C. destruct (slot g id) as [[[a e]|]|] eqn:S; auto.
  - destruct C as (g2 & E & _). eauto.
  - apply Nat.eqb_neq in N. rewrite N in C. auto.
Qed.

(** the first id never used so far is the one that breaks removeEdge *)
Lemma removeEdge_first_unused l g log id : grun l = Ok (g, log) ->
  edge_id_used log id = false -> (forall j, j < id -> edge_id_used log j = true) ->
  removeEdge g id = UB.
Proof.
  intros R U V. destruct (grun_ok _ _ _ R) as [I (L1 & L2 & _)].
  rewrite L2 in U.
  assert (E : id = length (g_edges g)).
  { destruct (Nat.lt_ge_cases (length (g_edges g)) id) as [X|X]; [|lia].
    specialize (V _ X). rewrite L2 in V. lia. }
  pose proof (removeEdge_cases g id I) as C.
  assert (slot g id = None) as S by (apply nth_error_None; lia). rewrite S in C.
  rewrite E, Nat.eqb_refl in C. rewrite E. exact C.
Qed.

(** ** C34: iteration *)
Lemma skip_post_somes {A} (l : list (option A)) :
  somes (skip_post l) = somes l /\ length (skip_post l) <= length l /\
  match skip_post l with None :: _ => False | _ => True end.
Proof.
  induction l as [|[x|] t (IH1 & IH2 & IH3)]; cbn [skip_post somes length]; auto.
Qed.

Lemma iter_post_spec {A} n : forall (l : list (option A)), length l <= n ->
  match l with None :: _ => False | _ => True end ->
  iter_post n l = Ok (somes l).
Proof.
  induction n as [|n IH]; intros l L H; destruct l as [|[x|] t]; cbn [iter_post length somes] in *;
    try reflexivity; try lia; try tauto.
  destruct (skip_post_somes t) as (E & LE & F). rewrite (IH (skip_post t)) by (auto; lia).
  cbn [bind]. rewrite E. reflexivity.
Qed.

Lemma skip_pre_somes {A} null (l : list (option A)) : skip_pre (Some null) l = Ok (skip_post l).
Proof.
  induction l as [|[x|] t IH]; cbn [skip_pre skip_post]; auto.
  destruct null; reflexivity.
Qed.

Lemma iter_pre_lenient {A} null n : forall (l : list (option A)),
  iter_pre (Some null) n l = iter_post n l.
Proof.
  induction n as [|n IH]; intros l; destruct l as [|[x|] t]; cbn [iter_pre iter_post]; auto.
  rewrite skip_pre_somes. cbn [bind]. rewrite IH. reflexivity.
Qed.

Lemma skip_pre_strict {A} (l : list (option A)) :
  skip_pre None l = match skip_post l with [] => UB | r => Ok r end.
Proof. induction l as [|[x|] t IH]; cbn [skip_pre skip_post]; auto. Qed.

Lemma iter_pre_strict {A} n : forall (l : list (option A)), length l <= n -> l <> [] ->
  iter_pre None n l = UB.
Proof.
  induction n as [|n IH]; intros l L N; destruct l as [|[x|] t]; cbn [iter_pre length] in *;
    try congruence; try lia; auto.
  rewrite skip_pre_strict. destruct (skip_post_somes t) as (_ & LE & _).
  destruct (skip_post t) as [|s r] eqn:E; cbn [bind]; [reflexivity|].
  rewrite (IH (s :: r)); [reflexivity|lia|discriminate].
Qed.

Lemma somes_In {A} (l : list (option A)) x : In x (somes l) <-> exists i, nth_error l i = Some (Some x).
Proof.
  induction l as [|[y|] t IH]; cbn [somes].
  - split; [intros []|intros ([|i] & H); discriminate].
  - simpl. rewrite IH. split.
    + intros [->|(i & H)]; [exists 0; auto|exists (S i); auto].
    + intros ([|i] & H); [left; simpl in H; congruence|right; exists i; auto].
  - rewrite IH. split.
    + intros (i & H). exists (S i). auto.
    + intros ([|i] & H); [discriminate|exists i; auto].
Qed.

(** ids of the visited edges are increasing *)
Lemma somes_ids (l : list (option (addr * edge))) : forall k,
  (forall i a e, nth_error l i = Some (Some (a, e)) -> e_id e = k + i) ->
  map (fun ae => e_id (snd ae)) (somes l) =
  filter (fun id => match nth_error l (id - k) with Some (Some _) => true | _ => false end)
         (seq k (length l)).
Proof.
  induction l as [|s t IH]; intros k H; [reflexivity|].
  cbn [length seq filter]. rewrite Nat.sub_diag. cbn [nth_error].
  assert (T : map (fun ae => e_id (snd ae)) (somes t) =
    filter (fun id => match nth_error (s :: t) (id - k) with Some (Some _) => true | _ => false end)
           (seq (S k) (length t))).
  { rewrite (IH (S k)).
    - apply filter_ext_in. intros id Hid. apply in_seq in Hid.
      replace (id - k) with (S (id - S k)) by lia. reflexivity.
    - intros i a e X. rewrite (H (S i) a e X). lia. }
  destruct s as [[a e]|]; cbn [somes map snd].
  - rewrite T, (H 0 a e eq_refl). f_equal. lia.
  - exact T.
Qed.

Lemma visit_post l g log : grun l = Ok (g, log) ->
  (edge_id_used log 0 = true -> live_edge log 0 <> None) ->
  exists es, visitEdgesPost g = Ok es /\
    (forall null, visitEdgesPre (Some null) g = Ok es) /\
    map (fun ae => e_id (snd ae)) es =
      filter (fun id => match live_edge log id with Some _ => true | None => false end)
             (seq 0 (length (g_edges g))) /\
    (forall ae, In ae es -> getEdge g (e_id (snd ae)) = Ok (snd ae)).
Proof.
  intros R H0. destruct (grun_ok _ _ _ R) as [I (L1 & L2 & _)].
  assert (F : match g_edges g with None :: _ => False | _ => True end).
  { rewrite L2, L1 in H0. unfold slot in H0. destruct (g_edges g) as [|[x|] t]; auto.
    simpl in H0. apply (H0 eq_refl). reflexivity. }
  exists (somes (g_edges g)).
  assert (V : visitEdgesPost g = Ok (somes (g_edges g))) by (apply iter_post_spec; auto).
  split; [exact V|]. split.
  { intro null. unfold visitEdgesPre. rewrite iter_pre_lenient. exact V. }
  split.
  - rewrite (somes_ids (g_edges g) 0).
    + apply filter_ext. intro id. rewrite Nat.sub_0_r, L1. unfold slot.
      destruct (nth_error (g_edges g) id) as [[[a e]|]|]; reflexivity.
    + intros i a e X. apply (inv_edge g I) in X. apply X.
  - intros [a e] Hin. apply somes_In in Hin. destruct Hin as (i & Hi).
    pose proof (inv_edge g I i a e Hi) as (E & _). cbn [snd]. rewrite E, (getEdge_slot g i I).
    unfold slot. rewrite Hi. reflexivity.
Qed.

Lemma visit_pre_ub l g log : grun l = Ok (g, log) -> edge_id_used log 0 = true ->
  visitEdgesPre None g = UB.
Proof.
  intros R H. destruct (grun_ok _ _ _ R) as [I (L1 & L2 & _)].
  rewrite L2 in H. unfold visitEdgesPre. apply iter_pre_strict; [auto|].
  destruct (g_edges g); [simpl in H; discriminate|discriminate].
Qed.

Lemma visit_first_removed l g log : grun l = Ok (g, log) ->
  edge_id_used log 0 = true -> live_edge log 0 = None ->
  visitEdgesPost g = UB /\ forall oob, visitEdgesPre oob g = UB.
Proof.
  intros R H N. destruct (grun_ok _ _ _ R) as [I (L1 & L2 & _)].
  rewrite L2 in H. rewrite L1 in N. unfold slot in N. unfold visitEdgesPost, visitEdgesPre.
  destruct (g_edges g) as [|[[a e]|] t]; [simpl in H; discriminate|discriminate|].
  split; reflexivity.
Qed.

Lemma somes_map_Some {A} (l : list A) : somes (map Some l) = l.
Proof. induction l as [|x t IH]; cbn [map somes]; rewrite ?IH; reflexivity. Qed.

Lemma visit_nodes g : (forall null, visitNodesPre (Some null) g = Ok (g_nodes g)) /\
  (nodeCount g <> 0 -> visitNodesPre None g = UB).
Proof.
  unfold visitNodesPre, nodeCount. split.
  - intro null. rewrite iter_pre_lenient, iter_post_spec, somes_map_Some; auto.
    + rewrite map_length; auto.
    + destruct (g_nodes g); simpl; auto.
  - intro N. apply iter_pre_strict; [rewrite map_length; auto|].
    destruct (g_nodes g); [simpl in N; congruence|discriminate].
Qed.

(** ** C35: adjacency *)
Lemma adjacency_listed l g log : grun l = Ok (g, log) ->
  forall id a e, nth_error (g_edges g) id = Some (Some (a, e)) ->
  exists nf nt, getNode g (e_from e) = Ok nf /\ getNode g (e_to e) = Ok nt /\
    count_occ Nat.eq_dec (n_out nf) a = 1 /\ count_occ Nat.eq_dec (n_in nt) a = 1.
Proof.
  intros R id a e H. destruct (grun_ok _ _ _ R) as [I _].
  destruct (inv_edge g I id a e H) as (_ & HF & HT).
  destruct (nth_error (g_nodes g) (e_from e)) as [nf|] eqn:NF; [|apply nth_error_None in NF; lia].
  destruct (nth_error (g_nodes g) (e_to e)) as [nt|] eqn:NT; [|apply nth_error_None in NT; lia].
  exists nf, nt. rewrite !getNode_nth, NF, NT. split; [auto|]. split; [auto|].
  split; apply NoDup_count_occ'; try (apply (inv_node g I _ _ NF)); try (apply (inv_node g I _ _ NT)).
  - eapply (inv_out g I); eauto.
  - eapply (inv_in g I); eauto.
Qed.

Lemma removed_edge_listed l g log id a e g' :
  grun l = Ok (g, log) -> nth_error (g_edges g) id = Some (Some (a, e)) ->
  removeEdge g id = Ok (g', true) ->
  live_addr g' a = false /\
  exists nf nt, getNode g' (e_from e) = Ok nf /\ getNode g' (e_to e) = Ok nt /\
    In a (n_out nf) /\ In a (n_in nt).
Proof.
  intros R H D. destruct (grun_ok _ _ _ R) as [I _].
  pose proof (removeEdge_cases g id I) as C. unfold slot in C. rewrite H in C.
  destruct C as (g2 & E & EN & EP & LE & SL). rewrite D in E. injection E as <-.
  split.
  - destruct (live_addr g' a) eqn:L; [|auto]. apply live_addr_iff in L. destruct L as (j & e' & L).
    unfold slot in L. rewrite SL in L. destruct (Nat.eqb_spec j id) as [->|N]; [discriminate|].
    destruct N. eapply (inv_addr g I); eauto.
  - destruct (adjacency_listed l g log R id a e H) as (nf & nt & A & B & X & Y).
    exists nf, nt. rewrite !getNode_nth, EN, <- !getNode_nth. split; [auto|]. split; [auto|].
    split; apply (count_occ_In Nat.eq_dec); lia.
Qed.

(** histories without removal: nothing else is listed *)
Definition exact_adj g : Prop :=
  g_pool g = [] /\
  forall k n, nth_error (g_nodes g) k = Some n ->
    n_out n = map fst (filter (fun ae => e_from (snd ae) =? k) (somes (g_edges g))) /\
    n_in n = map fst (filter (fun ae => e_to (snd ae) =? k) (somes (g_edges g))).

Lemma somes_app {A} (l : list (option A)) x : somes (l ++ [Some x]) = somes l ++ [x].
Proof. induction l as [|[y|] t IH]; cbn [somes app]; rewrite ?IH; reflexivity. Qed.

Lemma filter_none {A} (f : A -> bool) (l : list A) :
  (forall x, In x l -> f x = false) -> filter f l = [].
Proof.
  induction l as [|x t IH]; intro H; [reflexivity|]. cbn [filter]. rewrite H by (left; auto).
  apply IH. intros y Hy. apply H. right; auto.
Qed.

Lemma addPtr_fresh l a : ~ In a l -> addPtr l a = l ++ [a].
Proof. intro H. unfold addPtr. apply existsb_eqb_nIn in H. rewrite H. reflexivity. Qed.

Lemma gstep_exact g o g' ev : Inv g -> exact_adj g ->
  (match o with GRemove _ => false | _ => true end) = true ->
  gstep g o = Ok (g', ev) -> exact_adj g'.
Proof.
  intros I [XP XA] NR H. destruct o as [p x|a f t tr i|id]; [| |discriminate].
  - cbn [gstep] in H. injection H as <- _. split; [exact XP|]. intros k n.
    pose proof (addNode_nodes g p x k) as N. unfold addNode in N. cbn [fst] in N. rewrite N.
    cbn [g_edges]. destruct (Nat.eqb_spec k (length (g_nodes g))) as [->|NE]; [|apply XA].
    intro X. injection X as <-. cbn [n_out n_in].
    rewrite !filter_none; [auto| |]; intros [b e] Hin; apply somes_In in Hin; destruct Hin as (j & Hj);
      destruct (inv_edge g I j b e Hj) as (_ & A & B); cbn [snd]; lia.
  - cbn [gstep] in H. apply bind_ok_inv in H. destruct H as ([g1 id] & A & H). injection H as <- _.
    cbn [fst].
    pose proof (addEdge_pre g a _ _ I A) as P. destruct P as (LA & HF & HT).
    destruct (addEdge_spec g a (newEdge f t tr i) I (conj LA (conj HF HT)))
      as (g2 & id2 & E & PL & LE & LN & SL & ND).
    rewrite A in E. injection E as <- <-.
    destruct PL as [(_ & EID & PP)|(PL & _)]; [|rewrite XP in PL; discriminate].
    split; [exact PP|]. intros k n' X. rewrite ND in X.
    destruct (nth_error (g_nodes g) k) as [n|] eqn:Nk; [|discriminate]. injection X as <-.
    destruct (XA k n Nk) as [XO XI]. cbn [e_from e_to newEdge].
    assert (ES : g_edges g1 = g_edges g ++ [Some (a, e_setId (newEdge f t tr i) id)]).
    { apply nth_error_ext. intro j. change (nth_error (g_edges g1) j) with (slot g1 j).
      rewrite SL, nth_error_snoc, EID. reflexivity. }
    rewrite touch_node_out, touch_node_in, ES, somes_app, !filter_app, !map_app.
    cbn [filter snd e_from e_to e_setId newEdge].
    assert (FR : forall l, (forall z, In z l -> In z (map fst (somes (g_edges g)))) -> ~ In a l).
    { intros l S X. apply S in X. apply in_map_iff in X. destruct X as ([b e] & <- & X).
      apply somes_In in X. destruct X as (j & X). cbn [fst] in LA.
      assert (live_addr g b = true) by (apply live_addr_iff; exists j, e; exact X). congruence. }
    assert (SUB : forall q z, In z (map fst (filter q (somes (g_edges g)))) ->
        In z (map fst (somes (g_edges g)))).
    { intros q z X. apply in_map_iff in X. destruct X as (y & <- & X). apply filter_In in X.
      apply in_map. tauto. }
    split.
    + rewrite (Nat.eqb_sym f k). destruct (k =? f).
      * rewrite addPtr_fresh; [rewrite XO; reflexivity|]. apply FR. rewrite XO. apply SUB.
      * rewrite app_nil_r. exact XO.
    + rewrite (Nat.eqb_sym t k). destruct (k =? t).
      * rewrite addPtr_fresh; [rewrite XI; reflexivity|]. apply FR. rewrite XI. apply SUB.
      * rewrite app_nil_r. exact XI.
Qed.

Lemma grun_fold_exact l : forall g log g' log', Inv g -> log_ok g log -> exact_adj g ->
  no_removal l = true ->
  foldM (fun s o => do r <- gstep (fst s) o; Ok (fst r, snd r :: snd s)) l (g, log) = Ok (g', log') ->
  exact_adj g'.
Proof.
  induction l as [|o t IH]; intros g log g' log' I L X NR H; cbn [foldM fst snd] in H.
  - injection H as <- <-. auto.
  - apply bind_ok_inv in H. destruct H as ([g1 log1] & E & H).
    apply bind_ok_inv in E. destruct E as ([g2 ev] & S & E). injection E as <- <-.
    unfold no_removal in NR. cbn [forallb] in NR. apply andb_true_iff in NR. destruct NR as [N1 N2].
    destruct (gstep_ok _ _ _ _ _ I L S) as [I1 L1]. cbn [fst snd] in *.
    eapply IH; [exact I1|exact L1| |exact N2|exact H]. exact (gstep_exact _ _ _ _ I X N1 S).
Qed.

Lemma adjacency_exact l g log : grun l = Ok (g, log) -> no_removal l = true ->
  forall k n, getNode g k = Ok n ->
    n_out n = map fst (filter (fun ae => e_from (snd ae) =? k) (somes (g_edges g))) /\
    n_in n = map fst (filter (fun ae => e_to (snd ae) =? k) (somes (g_edges g))).
Proof.
  intros R NR k n H.
  assert (X : exact_adj g).
  { eapply grun_fold_exact; [apply Inv_empty| | |exact NR|exact R].
    - split; [|split]; intro id; unfold slot; destruct id; reflexivity.
    - split; [reflexivity|]. intros [|]; discriminate. }
  apply X. rewrite getNode_nth in H. destruct (nth_error (g_nodes g) k); congruence.
Qed.

Lemma addresses_distinct l g log : grun l = Ok (g, log) -> NoDup (map fst (somes (g_edges g))).
Proof.
  intro R. destruct (grun_ok _ _ _ R) as [I _]. pose proof (inv_addr g I) as A. unfold slot in A.
  clear R I. induction (g_edges g) as [|[[a e]|] t IH]; cbn [somes map fst].
  - constructor.
  - constructor.
    + intro X. apply in_map_iff in X. destruct X as ([b e'] & E & X). cbn in E. subst b.
      apply somes_In in X. destruct X as (j & X). specialize (A 0 (S j) a e e' eq_refl X). discriminate.
    + apply IH. intros i j b e1 e2 X Y. specialize (A (S i) (S j) b e1 e2 X Y). lia.
  - apply IH. intros i j b e1 e2 X Y. specialize (A (S i) (S j) b e1 e2 X Y). lia.
Qed.

End P.
