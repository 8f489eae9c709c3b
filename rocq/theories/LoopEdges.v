(** Where the loop closing edges of the graph come from. *)
From Coq Require Import Reals List ZArith Bool Lia Arith.
From Verif Require Import Base LinAlg3 GeoModel GeoSpec GeoProofs GraphModel GraphSpec GraphProofs LoopModel LoopSpec LoopProofs SlamModel SlamSpec SlamProofs.
From Verif Require Import AlgModel AlgSpec AlgProofs SysProofs.
Import ListNotations.
Open Scope nat_scope.

Section Edges.
Context {Body Win Scan Guess D : Type}.
Notation aenv := (aenv Body Win Scan Guess D).
Notation alg := (alg Body Win).
Notation frame := (frame Body).
Notation edge := (edge pose M3).

(** A match accepted for two frames with the contents that the end nodes have. *)
Definition accepted_edge (env : aenv) (bodies : list Body) (e : edge) : Prop :=
  e_to e < e_from e /\ exists (fs ft : frame) inf,
    nth_error bodies (e_to e) = Some (f_body fs) /\ nth_error bodies (e_from e) = Some (f_body ft) /\
    dlt (e_lenv env) (euclid (e_lenv env) (f_origin ft) (f_origin fs)) (max_dist (e_lenv env)) = true /\
    matcher (e_lenv env) fs ft (guess (e_lenv env) (f_origin ft) (f_origin fs)) = Some (inf, e_trans e).
Definition LE (env : aenv) (a : alg) : Prop :=
  forall x e, In (Some (x, e)) (edges (a_slam a)) -> e_loop e = true -> accepted_edge env (map f_body (objs a)) e.

Lemma accepted_more env bodies b e : accepted_edge env bodies e -> accepted_edge env (bodies ++ b) e.
Proof.
  intros (L & fs & ft & inf & A & B & C & M). split; [exact L|]. exists fs, ft, inf.
  rewrite !nth_error_app1 by (eapply nth_error_lt; eassumption). auto.
Qed.

Lemma Forall2_in_r {A B} (P : A -> B -> Prop) l m y : Forall2 P l m -> In y m -> exists x, In x l /\ P x y.
Proof.
  induction 1 as [|a b l m H F IH]; intros []; subst.
  - exists a. split; [now left|exact H].
  - destruct IH as (x & I & Q); [assumption|]. exists x. split; [now right|exact Q].
Qed.

Lemma newNode_edges (env : aenv) (a : alg) i temp ctemp a' evs :
  SI (e_senv env) (a_slam a) -> aligned (a_slam a) ->
  newNode env a i temp ctemp = Ok (a', evs) -> LE env a -> LE env a'.
Proof.
  intros I AL H L. pose proof (newNode_frames env a i temp ctemp a' evs I H) as (BO & _).
  unfold LE. rewrite BO. clear BO. unfold newNode in H.
  destruct (addPose_SI (e_senv env) (a_slam a) (f_origin (a_frame a)) (a_frame a) I) as [I1 ID].
  destruct (addPose_effect (e_senv env) (a_slam a) (f_origin (a_frame a)) (a_frame a) I) as (GE1 & LN1 & NN1).
  destruct (addPose (e_senv env) (a_slam a) (f_origin (a_frame a)) (a_frame a)) as [s1 id].
  cbn [fst snd] in *. subst id.
  assert (O1 : map (fun n => f_body (n_obj n)) (nodes s1) = map f_body (objs a) ++ [f_body (a_frame a)]).
  { apply nth_error_ext. intro k. unfold nodes. rewrite nth_error_map, NN1.
    unfold objs, nodes. destruct (k =? length (g_nodes (s_graph (a_slam a)))) eqn:E.
    - apply Nat.eqb_eq in E. subst k. rewrite nth_error_app2 by (rewrite !map_length; lia).
      rewrite !map_length, Nat.sub_diag. reflexivity.
    - apply Nat.eqb_neq in E. destruct (le_lt_dec (length (g_nodes (s_graph (a_slam a)))) k).
      + rewrite (proj2 (nth_error_None _ _)) by lia. symmetry. apply nth_error_None.
        rewrite app_length, !map_length. cbn. lia.
      + rewrite nth_error_app1 by (rewrite !map_length; lia). rewrite !nth_error_map.
        destruct (nth_error _ k); reflexivity. }
  assert (AL1 : aligned s1).
  { intros k n X. unfold nodes in X. rewrite NN1 in X. destruct (k =? _)%nat; [|exact (AL k n X)].
    injection X as <-. reflexivity. }
  set (bodies := map f_body (objs a) ++ [f_body (a_frame a)]) in *.
  assert (L1 : forall x e, In (Some (x, e)) (edges s1) -> e_loop e = true -> accepted_edge env bodies e).
  { intros x e N LP. unfold edges in N. rewrite GE1 in N. apply accepted_more. exact (L x e N LP). }
  clear L.
  apply bind_ok_inv in H. destruct H as (s2 & E2 & H).
  assert (K2 : SI (e_senv env) s2 /\ same_nodes (s_graph s1) (s_graph s2) /\
     forall x e, In (Some (x, e)) (edges s2) -> e_loop e = true -> accepted_edge env bodies e).
  { destruct (a_first a).
    - apply bind_ok_inv in E2. destruct E2 as ([s2' eid] & AC & E2). injection E2 as <-.
      cbn [fst]. unfold addLastConstrain in AC.
      destruct (addConstrain_ok _ _ _ _ _ _ _ _ _ I1 AC) as (I2 & _ & _ & _ & GE & SN & _).
      split; [exact I2|]. split; [exact SN|]. intros x e N LP. unfold edges in N. rewrite GE in N.
      apply in_app_or in N. destruct N as [N|[N|[]]]; [exact (L1 x e N LP)|].
      injection N as _ <-. discriminate.
    - injection E2 as <-. split; [auto|]. split; [apply same_nodes_refl|exact L1]. }
  clear L1 E2. destruct K2 as (I2 & SN2 & L2).
  apply bind_ok_inv in H. destruct H as ([s3 closed] & E3 & H).
  unfold tryLoopCloseLast in E3.
  destruct (tryLoopClose_ok _ _ _ _ _ _ _ I2 E3) as (I3 & SN3 & _ & loops & calls & xs & GL & GE3 & F & _ & HQ).
  assert (AL2 : aligned s2) by (eapply same_aligned; eauto).
  assert (O2 : map (fun n => f_body (n_obj n)) (nodes s2) = bodies).
  { rewrite <- O1, <- (map_map (fun n => n_obj n) f_body), <- (map_map (fun n => n_obj n) f_body).
    f_equal. apply objs_same. exact SN2. }
  assert (L3 : forall x e, In (Some (x, e)) (edges s3) -> e_loop e = true -> accepted_edge env bodies e).
  { intros x e N LP. unfold edges in N. rewrite GE3 in N. apply in_app_or in N.
    destruct N as [N|N]; [exact (L2 x e N LP)|].
    destruct (Forall2_in_r _ _ _ _ F N) as (c & C & (x' & e' & E & EF & ET & TR & _)). injection E as <- <-.
    destruct (gen_result (s_graph s2) (si_ready _ _ I2) _ (i_choice i) _ HQ _ _ _ GL) as (_ & GC & _).
    destruct (GC c C) as (CF & CT & nq & nc & d & NQ & NC & _ & _ & MX & MA).
    destruct (si_last _ _ I2) as [LA _].
    split.
    - rewrite EF, ET, CF. pose proof (nth_error_lt _ _ _ NC). lia.
    - exists (n_obj nc), (n_obj nq), (lc_info c).
      rewrite EF, ET, CF, TR, <- O2, !nth_error_map. unfold nodes. rewrite NC, NQ.
      split; [reflexivity|]. split; [reflexivity|].
      rewrite (AL2 _ _ NQ), (AL2 _ _ NC). split; [exact MX|exact MA]. }
  clear L2.
  apply bind_ok_inv in H. destruct H as (s4 & E4 & H).
  assert (GE4 : edges s4 = edges s3).
  { destruct closed.
    - apply bind_ok_inv in E4. destruct E4 as ([s4' b4] & E4 & Y). injection Y as <-. cbn [fst].
      unfold optimalizeIterationaly in E4.
      destruct (optimalize_ok (e_senv env) s3 (i_est i) I3) as (s5 & E5 & _ & GE5 & _).
      rewrite E5 in E4. cbn [bind fst] in E4. injection E4 as <- <-. exact GE5.
    - injection E4 as <-. reflexivity. }
  apply bind_ok_inv in H. destruct H as (p & GP & H). injection H as <- <-.
  cbn [a_slam]. rewrite GE4. exact L3.
Qed.

(** An update changes the graph only by making a node. *)
Lemma update_graph (env : aenv) (a : alg) i a' evs : update env a i = Ok (a', evs) ->
  a_slam a' = a_slam a \/
  exists a0 temp ctemp a1 ev1, a_slam a0 = a_slam a /\ a_frame a0 = a_frame a /\
    newNode env a0 i temp ctemp = Ok (a1, ev1) /\ a_slam a' = a_slam a1.
Proof.
  intro H. unfold update in H.
  assert (UG : forall a0 inc cov a1 ev1, updateGraph env a0 i inc cov = Ok (a1, ev1) ->
     a_slam a1 = a_slam a0 \/ exists temp ctemp a2 ev2, newNode env a0 i temp ctemp = Ok (a2, ev2) /\ a_slam a1 = a_slam a2).
  { clear. intros a0 inc cov a1 ev1 H. unfold updateGraph in H. destruct (leftWindow _ _).
    - apply bind_ok_inv in H. destruct H as ([a2 ev2] & NN & H). injection H as <- <-. right. cbn [fst]. eauto 8.
    - injection H as <- <-. now left. }
  destruct (a_init a).
  - destruct (a_win a) as [w|]; [|discriminate].
    destruct (movedEnough _).
    + destruct (i_match i) as [reg|].
      * apply bind_ok_inv in H. destruct H as ([a1 ev1] & U & H). cbn [fst snd] in H.
        destruct (w_move env (w_merge env w (i_scan i) reg) reg) as [w2 c]. injection H as <- <-.
        destruct (UG _ _ _ _ _ U) as [E|(temp & ctemp & a2 & ev2 & N & E)].
        -- left. exact E.
        -- right. eexists _, temp, ctemp, a2, ev2. split; [|split; [|split; [exact N|exact E]]]; reflexivity.
      * apply bind_ok_inv in H. destruct H as ([a1 ev1] & U & H). cbn [fst snd] in H. injection H as <- <-.
        destruct (UG _ _ _ _ _ U) as [E|(temp & ctemp & a2 & ev2 & N & E)].
        -- left. exact E.
        -- right. eexists _, temp, ctemp, a2, ev2. split; [|split; [|split; [exact N|exact E]]]; reflexivity.
    + injection H as <- <-. now left.
  - injection H as <- <-. now left.
Qed.

Lemma LE_slam (env : aenv) (a b : alg) : a_slam a = a_slam b -> LE env b -> LE env a.
Proof. unfold LE, objs. intros ->. auto. Qed.
Lemma update_edges (env : aenv) (a : alg) i a' evs log : AI env a log ->
  update env a i = Ok (a', evs) -> LE env a -> LE env a'.
Proof.
  intros [C _ _ _] U L. destruct (update_graph _ _ _ _ _ U) as [E|(a0 & temp & ctemp & a1 & ev1 & E0 & F0 & N & E1)].
  - exact (LE_slam env a' a E L).
  - apply (LE_slam env a' a1 E1). apply (newNode_edges env a0 i temp ctemp a1 ev1).
    + rewrite E0. apply (ai_SI _ _ _ C).
    + rewrite E0. apply (ai_al _ _ _ C).
    + exact N.
    + exact (LE_slam env a0 a E0 L).
Qed.
Lemma LE_new (env : aenv) : LE env (alg_new env).
Proof. intros x e []. Qed.
End Edges.
