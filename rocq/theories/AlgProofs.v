From Coq Require Import Reals Lra List ZArith Bool Lia Arith.
From Verif Require Import Base LinAlg3 GeoModel GeoSpec GeoProofs.
From Verif Require Import GraphModel GraphSpec GraphProofs LoopModel LoopSpec LoopProofs SlamModel SlamSpec SlamProofs.
From Verif Require Import AlgModel AlgSpec.
Import ListNotations.
Open Scope R_scope.

Section A.
Context {Body Win Scan Guess D : Type}.
Notation aenv := (aenv Body Win Scan Guess D).
Notation alg := (alg Body Win).
Notation ainput := (ainput Scan D).
Notation frame := (frame Body).
Notation slam := (slam pose frame M3).
Set Default Proof Using "Type".

Definition nodes (s : slam) := g_nodes (s_graph s).
Definition edges (s : slam) := g_edges (s_graph s).
Definition aligned (s : slam) : Prop :=
  forall k n, nth_error (nodes s) k = Some n -> f_origin (n_obj n) = n_pose n.

Lemma odo_app l l' : odo_constraints (l ++ l') = odo_constraints l ++ odo_constraints l'.
Proof.
  induction l as [|[[a e]|] t IH]; cbn; [reflexivity| |exact IH].
  destruct (e_loop e); rewrite IH; reflexivity.
Qed.
Lemma odo_closures loops xs : Forall2 closure_edge loops xs -> odo_constraints xs = [].
Proof.
  induction 1 as [|c x loops xs (a & e & -> & _ & _ & _ & L) F IH]; cbn; [reflexivity|].
  rewrite L. exact IH.
Qed.

Lemma same_aligned (s s' : slam) : same_nodes (s_graph s) (s_graph s') -> aligned s -> aligned s'.
Proof.
  intros [L H] A k n' X. unfold nodes in *.
  destruct (nth_error (g_nodes (s_graph s)) k) as [n|] eqn:E.
  - destruct (H k n E) as (n2 & E2 & P & O). rewrite E2 in X. injection X as <-.
    rewrite P, O. apply (A k n E).
  - apply nth_error_None in E. apply nth_error_lt in X. lia.
Qed.

Lemma getPose_nth (s : slam) k n : nth_error (nodes s) k = Some n -> getPoseLocation s k = Ok (n_pose n).
Proof. intro H. unfold getPoseLocation. rewrite getNode_nth. unfold nodes in H. rewrite H. reflexivity. Qed.
Lemma getPose_ok (s : slam) k p : getPoseLocation s k = Ok p ->
  exists n, nth_error (nodes s) k = Some n /\ n_pose n = p.
Proof.
  intro H. unfold getPoseLocation in H. rewrite getNode_nth in H. unfold nodes.
  destruct (nth_error (g_nodes (s_graph s)) k) as [n|]; [|discriminate]. injection H as <-. eauto.
Qed.

(** ** making a node *)
Lemma newNode_ok (env : aenv) (a : alg) i temp ctemp a' evs :
  SI (e_senv env) (a_slam a) -> aligned (a_slam a) ->
  (a_first a = true -> nodes (a_slam a) <> []) ->
  newNode env a i temp ctemp = Ok (a', evs) ->
  let N := length (nodes (a_slam a)) in
  SI (e_senv env) (a_slam a') /\ aligned (a_slam a') /\
  length (nodes (a_slam a')) = S N /\
  exists closed p,
    evs = [ANode N; ALoop closed] ++ (if closed then [ARedraw] else []) ++
          [ADraw (getPoseFromTransform (t2mul (getTransFromPose p) temp)) t2id] /\
    getPoseLocation (a_slam a') N = Ok p /\
    (closed = false -> p = f_origin (a_frame a)) /\
    (closed = true -> p = if (N =? 0)%nat then p else i_est i N) /\
    odo_constraints (edges (a_slam a')) = odo_constraints (edges (a_slam a)) ++
      (if a_first a then [(N - 1, N, getPoseFromTransform (a_ltrans a))]%nat else []) /\
    a_init a' = a_init a /\ a_first a' = true /\ a_last a' = N /\ a_ltrans a' = temp /\
    a_unused a' = a_unused a /\ a_pos a' = t2mul (getTransFromPose p) temp /\ a_temp a' = t2id /\
    a_matcher a' = a_matcher a /\ a_map a' = a_map a ++ [N] /\ a_frames a' = a_frames a ++ [N] /\
    a_win a' = a_win a /\ f_origin (a_frame a') = getPoseFromTransform (a_pos a').
Proof.
  intros I AL FN H N. unfold newNode in H.
  destruct (addPose_SI (e_senv env) (a_slam a) (f_origin (a_frame a)) (a_frame a) I) as [I1 ID].
  destruct (addPose_effect (e_senv env) (a_slam a) (f_origin (a_frame a)) (a_frame a) I) as (GE1 & LN1 & NN1).
  destruct (addPose (e_senv env) (a_slam a) (f_origin (a_frame a)) (a_frame a)) as [s1 id].
  cbn [fst snd] in *. subst id. fold (nodes (a_slam a)) in LN1, NN1. fold N in LN1, NN1. change (length (g_nodes (s_graph (a_slam a)))) with N in H.
  assert (AL1 : aligned s1).
  { intros k n X. unfold nodes in X. rewrite NN1 in X. destruct (k =? N)%nat; [|exact (AL k n X)].
    injection X as <-. reflexivity. }
  apply bind_ok_inv in H. destruct H as (s2 & E2 & H).
  assert (K2 : SI (e_senv env) s2 /\ same_nodes (s_graph s1) (s_graph s2) /\
     odo_constraints (edges s2) = odo_constraints (edges (a_slam a)) ++
      (if a_first a then [(N - 1, N, getPoseFromTransform (a_ltrans a))]%nat else [])).
  { destruct (a_first a) eqn:AF.
    - apply bind_ok_inv in E2. destruct E2 as ([s2' eid] & AC & E2). injection E2 as <-.
      cbn [fst]. unfold addLastConstrain in AC.
      destruct (addConstrain_ok _ _ _ _ _ _ _ _ _ I1 AC) as (I2 & EID & HF & HT & GE & SN & SV).
      split; [exact I2|]. split; [exact SN|]. unfold edges. rewrite GE, odo_app, GE1. f_equal.
      cbn. destruct (si_last _ _ I1) as [L1 L2]. rewrite L1, L2, LN1.
      assert (N <> 0)%nat. { specialize (FN eq_refl). unfold N. destruct (nodes (a_slam a)); [congruence|cbn; lia]. }
      repeat f_equal; lia.
    - injection E2 as <-. split; [auto|]. split; [apply same_nodes_refl|]. unfold edges. rewrite GE1, app_nil_r. reflexivity. }
  destruct K2 as (I2 & SN2 & OD2).
  apply bind_ok_inv in H. destruct H as ([s3 closed] & E3 & H).
  unfold tryLoopCloseLast in E3.
  destruct (tryLoopClose_ok _ _ _ _ _ _ _ I2 E3) as (I3 & SN3 & SV3 & loops & calls & xs & GL & GE3 & F & CB & _).
  assert (SN13 : same_nodes (s_graph s1) (s_graph s3)) by (eapply same_nodes_trans; eauto).
  assert (AL3 : aligned s3) by (eapply same_aligned; eauto).
  assert (OD3 : odo_constraints (edges s3) = odo_constraints (edges s2)).
  { unfold edges. rewrite GE3, odo_app, (odo_closures _ _ F), app_nil_r. reflexivity. }
  assert (HN : exists n3, nth_error (nodes s3) N = Some n3 /\ n_pose n3 = f_origin (a_frame a)).
  { destruct SN13 as [_ X]. specialize (NN1 N). rewrite Nat.eqb_refl in NN1.
    destruct (X _ _ NN1) as (n3 & A & B & _). eauto. }
  destruct HN as (n3 & HN3 & HP3).
  assert (LN3 : length (nodes s3) = S N) by (destruct SN13 as [X _]; unfold nodes; congruence).
  apply bind_ok_inv in H. destruct H as (s4 & E4 & H).
  assert (K4 : SI (e_senv env) s4 /\ aligned s4 /\ length (nodes s4) = S N /\
     odo_constraints (edges s4) = odo_constraints (edges s3) /\
     exists n4, nth_error (nodes s4) N = Some n4 /\ (closed = false -> n_pose n4 = f_origin (a_frame a)) /\
       (closed = true -> n_pose n4 = if (N =? 0)%nat then n_pose n4 else i_est i N)).
  { destruct closed.
    - apply bind_ok_inv in E4. destruct E4 as ([s4' b4] & E4 & X). injection X as <-. cbn [fst].
      unfold optimalizeIterationaly in E4.
      destruct (optimalize_ok (e_senv env) s3 (i_est i) I3) as (s5 & E5 & I5 & GE5 & V5 & _ & LN5 & NN5).
      rewrite E5 in E4. cbn [bind fst] in E4. injection E4 as <- <-.
      split; [exact I5|]. split.
      + intros k n X. unfold nodes in X. rewrite NN5 in X.
        destruct (nth_error (s_verts s5) k); [|discriminate].
        destruct (nth_error (g_nodes (s_graph s3)) k) as [nd|]; [|discriminate].
        injection X as <-. reflexivity.
      + split; [unfold nodes in *; congruence|]. split; [unfold edges; congruence|].
        assert (V : exists v, nth_error (s_verts s5) N = Some v).
        { destruct (nth_error (s_verts s5) N) eqn:E; [eauto|]. apply nth_error_None in E.
          rewrite (si_vlen _ _ I5) in E. unfold nodes in LN3. lia. }
        destruct V as [v V]. specialize (NN5 N). rewrite V in NN5. unfold nodes in HN3. rewrite HN3 in NN5.
        eexists. split; [exact NN5|]. split; [discriminate|]. intros _. cbn.
        destruct (N =? 0)%nat eqn:NZ; [reflexivity|].
        rewrite V5 in V. unfold moveVerts in V. rewrite nth_error_map in V.
        destruct (nth_error (s_verts s3) N) as [v0|] eqn:V0; [|discriminate]. injection V as <-.
        destruct (si_vert _ _ I3 _ _ V0) as [VI VF]. rewrite VF, NZ. cbn. rewrite VI. reflexivity.
    - injection E4 as <-. split; [auto|]. split; [auto|]. split; [auto|]. split; [auto|].
      exists n3. split; [auto|]. split; [auto|discriminate]. }
  destruct K4 as (I4 & AL4 & LN4 & OD4 & n4 & HN4 & PC & PO).
  rewrite (getPose_nth s4 N n4 HN4) in H. cbn [bind] in H. injection H as <- <-.
  cbn [a_slam a_init a_first a_last a_ltrans a_unused a_pos a_temp a_matcher a_map a_frames a_win a_frame f_origin].
  split; [exact I4|]. split; [exact AL4|]. split; [exact LN4|].
  exists closed, (n_pose n4). split; [reflexivity|]. split; [apply (getPose_nth s4 N n4 HN4)|].
  split; [exact PC|]. split; [exact PO|]. split; [congruence|]. repeat split.
Qed.

(** ** invariant *)
Record AC (env : aenv) (a : alg) (log : list aev) : Prop := {
  ai_SI : SI (e_senv env) (a_slam a);
  ai_al : aligned (a_slam a);
  ai_frames : a_frames a = seq 0 (length (nodes (a_slam a)));
  ai_map : a_map a = seq 0 (length (nodes (a_slam a)));
  ai_made : rev (made log) = seq 0 (length (nodes (a_slam a)));
  ai_first : a_first a = (0 <? length (nodes (a_slam a)))%nat;
  ai_last : a_last a = (length (nodes (a_slam a)) - 1)%nat;
  ai_legs : length (legs log) = length (nodes (a_slam a));
  ai_ltrans : a_ltrans a = last (legs log) t2id;
  ai_odo : odo_constraints (edges (a_slam a)) =
     map (fun k => (k, S k, getPoseFromTransform (nth k (legs log) t2id)))
         (seq 0 (length (nodes (a_slam a)) - 1));
  ai_temp : a_temp a = since_node log;
  ai_pos0 : length (nodes (a_slam a)) = 0%nat -> a_pos a = since_frame log;
  ai_pos : forall k p, length (nodes (a_slam a)) = S k -> getPoseLocation (a_slam a) k = Ok p ->
     a_pos a = t2mul (getTransFromPose p) (since_frame log);
  ai_due : nodes_when_due (gen_dist env) log /\ (forall t r, log <> AInc t :: r)
}.
Record AI (env : aenv) (a : alg) (log : list aev) : Prop := {
  ai_core : AC env a log;
  ai_win : a_init a = true <-> a_win a <> None;
  ai_fresh : a_init a = false -> log = [] /\ a = alg_new env;
  ai_match : getTransFromPose (a_matcher a) = last_match log
}.
(** needs rigid motions *)
Record AR (a : alg) (log : list aev) : Prop := {
  ar_pos : rigid (a_pos a);
  ar_temp : rigid (a_temp a);
  ar_frame : t2mul (getTransFromPose (f_origin (a_frame a))) (a_temp a) = a_pos a;
  ar_total : no_loop log -> a_pos a = total log
}.

Lemma trans_zero : getTransFromPose (mkP 0 0 0) = t2id.
Proof. apply T2_eq; cbn; rewrite ?sin_0, ?cos_0; ring. Qed.
Lemma pose_id : getPoseFromTransform t2id = mkP 0 0 0.
Proof.
  rewrite <- trans_zero at 1. rewrite pose_of_trans. cbn. rewrite normalize_id; [reflexivity|].
  pose proof PI_RGT_0; lra.
Qed.

Lemma AI_init (env : aenv) : AI env (alg_new env) [].
Proof.
  split; [split|..]; cbn; auto; try discriminate.
  - apply SI_init.
  - intros [|k] n X; discriminate.
  - split; [auto|discriminate].
  - split; [discriminate|congruence].
  - apply trans_zero.
Qed.
Lemma AR_init (env : aenv) : AR (alg_new env) [].
Proof.
  split; cbn; try apply rigid_id.
  - rewrite trans_zero. apply t2mul_id_l.
  - reflexivity.
Qed.

Lemma leftWindow_iff (env : aenv) t : leftWindow env t = true <-> gen_dist env < getDisplacement t.
Proof.
  unfold leftWindow. rewrite Rabs_pos_eq by apply sqrt_pos.
  destruct (Rlt_dec _ _); split; auto; try discriminate.
Qed.
Lemma movedEnough_iff t : movedEnough t = true <-> moved t.
Proof.
  unfold movedEnough, moved. rewrite (Rabs_pos_eq (getDisplacement t)) by apply sqrt_pos.
  destruct (Rlt_dec _ _); [tauto|]. destruct (Rlt_dec _ _); split; auto; try discriminate.
  intros [X|X]; contradiction.
Qed.

Lemma last_nth {A} (l : list A) d : last l d = nth (length l - 1) l d.
Proof.
  induction l as [|x [|y t] IH]; [reflexivity|reflexivity|].
  change (last (x :: y :: t) d) with (last (y :: t) d). rewrite IH.
  cbn [length]. replace (S (S (length t)) - 1)%nat with (S (S (length t) - 1)) by lia. reflexivity.
Qed.
Lemma made_app l l' : made (l ++ l') = made l ++ made l'.
Proof. induction l as [|[] t IH]; cbn; rewrite ?IH; auto. Qed.

(** ** one increment *)
Lemma updateGraph_ok (env : aenv) (a : alg) i inc cov a' evs log :
  AC env a log -> updateGraph env a i inc cov = Ok (a', evs) ->
  AC env a' (rev evs ++ log) /\
  a_init a' = a_init a /\ a_unused a' = a_unused a /\ a_matcher a' = a_matcher a /\ a_win a' = a_win a /\
  (forall log', last_match (rev evs ++ log') = last_match log') /\
  (forall log', total (rev evs ++ log') = t2mul (total log') inc) /\
  (drawn_where_reported log -> drawn_where_reported (rev evs ++ log)) /\
  (forall k p, ~ In (ARep k p) evs) /\
  (exists o m r, rev evs = ADraw o m :: r) /\
  (AR a log -> rigid inc ->
     AR a' (rev evs ++ log) /\ (no_loop evs -> a_pos a' = t2mul (a_pos a) inc) /\
     forall o m r, rev evs = ADraw o m :: r -> t2mul (getTransFromPose o) m = a_pos a').
Proof.
  intros C H. unfold updateGraph in H.
  destruct (leftWindow env (t2mul (a_temp a) inc)) eqn:LW.
  - apply leftWindow_iff in LW.
    apply bind_ok_inv in H. destruct H as ([a1 ev1] & NN & H). injection H as <- <-. cbn [fst snd].
    destruct C as [I AL FR MP MD FI LA LL LT OD TE P0 PS [DU NI]].
    assert (FN : a_first a = true -> nodes (a_slam a) <> []).
    { rewrite FI. intros X E. rewrite E in X. discriminate. }
    destruct (newNode_ok env a i _ _ a1 ev1 I AL FN NN)
      as (I1 & AL1 & LN1 & closed & p & EV & GP & CF & CT & OD1 & F1 & F2 & F3 & F4 & F5 & F6 & F7 & F8 & F9 & F10 & F11 & F12).
    clear NN. set (N := length (nodes (a_slam a))) in *.
    assert (RV : rev (AInc inc :: ev1) = ADraw (getPoseFromTransform (a_pos a1)) t2id ::
        (if closed then [ARedraw] else []) ++ [ALoop closed; ANode N; AInc inc]).
    { rewrite EV, F6. destruct closed; reflexivity. }
    rewrite RV. rewrite <- app_comm_cons, <- app_assoc.
    assert (SN : since_node (AInc inc :: log) = t2mul (a_temp a) inc) by (cbn; rewrite TE; reflexivity).
    assert (LE : forall X, legs (ADraw X t2id :: (if closed then [ARedraw] else []) ++ [ALoop closed; ANode N; AInc inc] ++ log)
        = legs log ++ [t2mul (a_temp a) inc]).
    { intro X. destruct closed; cbn; rewrite TE; reflexivity. }
    split; [|split; [exact F1|split; [exact F5|split; [exact F8|split; [exact F11|]]]]].
    { split; auto.
      - rewrite F10, FR, LN1, seq_S. reflexivity.
      - rewrite F9, MP, LN1, seq_S. reflexivity.
      - transitivity (rev (made log) ++ [N]); [destruct closed; cbn; reflexivity|].
        rewrite MD, LN1, seq_S. reflexivity.
      - rewrite F2, LN1. reflexivity.
      - rewrite F3, LN1. lia.
      - rewrite LE, app_length, LL, LN1. cbn. lia.
      - rewrite LE, last_last. exact F4.
      - rewrite OD1, OD, LN1, LE, FI. replace (S N - 1)%nat with N by lia.
        destruct (Nat.ltb_spec 0 N) as [NP|NP].
        + assert (SQ : seq 0 N = seq 0 (N - 1) ++ [N - 1]%nat).
          { replace N with (S (N - 1)) at 1 by lia. rewrite seq_S. reflexivity. }
          rewrite SQ, map_app. cbn [map].
          f_equal.
          * apply map_ext_in. intros k Hk. apply in_seq in Hk. rewrite app_nth1 by lia. reflexivity.
          * rewrite LT. f_equal. f_equal; [f_equal; lia|]. f_equal.
            rewrite app_nth1 by lia. rewrite <- LL. apply last_nth.
        + replace N with 0%nat by lia. reflexivity.
      - rewrite F7. destruct closed; reflexivity.
      - lia.
      - intros k q X Y. assert (k = N) by lia. subst k. rewrite GP in Y. injection Y as <-.
        rewrite F6. f_equal. rewrite <- SN. destruct closed; reflexivity.
      - split; [|intros t r X; discriminate].
        assert (DI : nodes_when_due (gen_dist env) (AInc inc :: log)).
        { cbn. split; [|exact DU]. destruct log as [|[] ?]; auto. destruct (NI _ _ eq_refl). }
        assert (DN : nodes_when_due (gen_dist env) (ANode N :: AInc inc :: log)).
        { cbn [nodes_when_due]. rewrite SN. auto. }
        clear - DN. destruct closed; cbn [app nodes_when_due] in *; tauto. }
    split; [destruct closed; reflexivity|].
    split; [destruct closed; reflexivity|].
    split; [destruct closed; cbn; auto|].
    split; [intros k q; rewrite EV; destruct closed; cbn; intuition discriminate|].
    split; [eauto|].
    intros [R1 R2 R3 R4] RI.
    assert (RT : rigid (t2mul (a_temp a) inc)) by (apply rigid_mul; auto).
    assert (RP : rigid (a_pos a1)) by (rewrite F6; apply rigid_mul; [apply rigid_pose|auto]).
    assert (STEP : closed = false -> a_pos a1 = t2mul (a_pos a) inc).
    { intro X. rewrite F6, (CF X), <- R3. symmetry. apply t2mul_assoc. }
    split; [|split].
    + split; auto.
      * rewrite F7. apply rigid_id.
      * rewrite F7, t2mul_id_r, F12. apply trans_of_pose. exact RP.
      * intro NL. assert (closed = false).
        { apply (NL closed). right. apply in_or_app. right. left. reflexivity. }
        subst closed. cbn. rewrite (STEP eq_refl), R4; [reflexivity|].
        intros b Hb. apply NL. right. apply in_or_app. right. right. right. right. exact Hb.
    + intro NL. apply STEP. apply NL. right. rewrite EV. right. left. reflexivity.
    + intros o m r X. injection X as <- <- _. rewrite t2mul_id_r. apply trans_of_pose. exact RP.
  - assert (LW' : ~ gen_dist env < getDisplacement (t2mul (a_temp a) inc)).
    { intro X. apply leftWindow_iff in X. congruence. }
    injection H as <- <-. cbn [rev app a_slam a_init a_first a_last a_ltrans a_unused a_pos a_temp a_matcher a_map a_frames a_win a_frame f_origin].
    destruct C as [I AL FR MP MD FI LA LL LT OD TE P0 PS [DU NI]].
    split; [|split; [auto|split; [auto|split; [auto|split; [auto|]]]]].
    { split; cbn [a_slam a_init a_first a_last a_ltrans a_unused a_pos a_temp a_matcher a_map a_frames a_win]; auto.
      - cbn. rewrite TE. reflexivity.
      - intro X. cbn. rewrite (P0 X). reflexivity.
      - intros k p X Y. cbn. rewrite (PS k p X Y). apply t2mul_assoc.
      - split; [|intros t r X; discriminate]. cbn. rewrite <- TE. split; [lra|].
        split; [|exact DU]. destruct log as [|[] ?]; auto. destruct (NI _ _ eq_refl). }
    split; [reflexivity|]. split; [reflexivity|]. split; [cbn; auto|].
    split; [intros k p; cbn; intuition discriminate|]. split; [eauto|].
    intros [R1 R2 R3 R4] RI.
    assert (ST : t2mul (getTransFromPose (f_origin (a_frame a))) (t2mul (a_temp a) inc) = t2mul (a_pos a) inc).
    { rewrite <- R3. symmetry. apply t2mul_assoc. }
    split; [|split; [auto|]].
    + split; cbn; auto.
      * apply rigid_mul; auto.
      * apply rigid_mul; auto.
      * intro NL. rewrite R4; [reflexivity|]. intros b Hb. apply NL. right. right. exact Hb.
    + intros o m r X. injection X as <- <- _. exact ST.
Qed.

(** ** one update *)
Lemma AC_same (env : aenv) (a a' : alg) log : AC env a log ->
  a_slam a' = a_slam a -> a_frames a' = a_frames a -> a_map a' = a_map a -> a_first a' = a_first a ->
  a_last a' = a_last a -> a_ltrans a' = a_ltrans a -> a_temp a' = a_temp a -> a_pos a' = a_pos a ->
  AC env a' log.
Proof.
  intros [I AL FR MP MD FI LA LL LT OD TE P0 PS DU] E1 E2 E3 E4 E5 E6 E7 E8.
  split; rewrite ?E1, ?E2, ?E3, ?E4, ?E5, ?E6, ?E7, ?E8; auto.
Qed.
Lemma AC_rep (env : aenv) (a : alg) log k p : AC env a log -> AC env a (ARep k p :: log).
Proof.
  intros [I AL FR MP MD FI LA LL LT OD TE P0 PS [DU NI]]. split; auto.
  split; [|discriminate]. cbn. split; [|auto]. destruct log as [|[] ?]; auto. destruct (NI _ _ eq_refl).
Qed.

(** what an update reports, in terms of the states before and after *)
Definition reported (a a' : alg) (i : ainput) (k : akind) : pose :=
  match k with
  | KSkip => getPoseFromTransform (t2mul (a_pos a) (i_motion i))
  | _ => getPoseFromTransform (a_pos a')
  end.

Lemma update_ok (env : aenv) (a : alg) i a' evs log : AI env a log ->
  update env a i = Ok (a', evs) ->
  AI env a' (rev evs ++ log) /\
  (exists k r, rev evs = ARep k (reported a a' i k) :: r /\
     (forall k' p, ~ In (ARep k' p) r) /\
     (k = KFirst <-> a_init a = false) /\
     (k = KSkip <-> a_init a = true /\ ~ moved (t2mul (a_unused a) (i_motion i))) /\
     (forall log', last_match (r ++ log') = last_match log') /\
     match k with
     | KFirst => r = [ADraw (mkP 0 0 0) t2id] /\ a_pos a' = t2id /\ a_unused a' = t2id
     | KSkip => r = [] /\ a_pos a' = a_pos a /\ a_unused a' = t2mul (a_unused a) (i_motion i)
     | KMatch w reg => i_match i = Some reg /\ a_unused a' = t2id /\
         (forall log', total (r ++ log') = t2mul (total log')
            (t2mul (t2inv (last_match log))
              (getTransFromPose (getPoseFromTransform (t2mul (getTransFromPose w) reg)))))
     | KOdo => i_match i = None /\ a_unused a' = t2id /\
         (forall log', total (r ++ log') = t2mul (total log') (i_motion i))
     end /\
     (AR a log -> rigid (i_motion i) ->
        AR a' (rev evs ++ log) /\
        (drawn_where_reported log -> drawn_where_reported (rev evs ++ log)) /\
        match k with
        | KMatch w reg => no_loop r -> a_pos a' = t2mul (a_pos a) (t2mul (t2inv (last_match log))
              (getTransFromPose (getPoseFromTransform (t2mul (getTransFromPose w) reg))))
        | KOdo => no_loop r -> a_pos a' = t2mul (a_pos a) (i_motion i)
        | _ => True
        end)).
Proof.
  intros [C W F M] H. unfold update in H.
  destruct (a_init a) eqn:AI0.
  - destruct (a_win a) as [w|] eqn:AW; [|destruct W as [W _]; destruct (W eq_refl eq_refl)].
    destruct (movedEnough (t2mul (a_unused a) (i_motion i))) eqn:ME.
    + apply movedEnough_iff in ME.
      destruct (i_match i) as [reg|] eqn:IM.
      * set (mp := getPoseFromTransform (t2mul (getTransFromPose (w_origin env w)) reg)) in *.
        set (inc := t2mul (t2inv (getTransFromPose (a_matcher a))) (getTransFromPose mp)) in *.
        apply bind_ok_inv in H. destruct H as ([a1 ev1] & UG & H). cbn [fst snd] in H.
        destruct (w_move env (w_merge env w (i_scan i) reg) reg) as [w2 c]. injection H as <- <-.
        assert (C0 : AC env (setMatcher (setUnused a t2id) mp) log) by (eapply AC_same; [exact C|..]; reflexivity).
        destruct (updateGraph_ok env _ i inc _ a1 ev1 log C0 UG)
          as (C1 & E1 & E2 & E3 & E4 & LM & TO & DR & NR & (o & m & r0 & RE) & RI).
        cbn [setMatcher setUnused a_init a_unused a_matcher a_win a_pos] in E1, E2, E3, E4, RI.
        rewrite rev_app_distr. cbn [rev app].
        split.
        { split.
          - apply AC_rep. eapply AC_same; [exact C1|..]; reflexivity.
          - cbn. rewrite E1. split; [discriminate|auto].
          - cbn. rewrite E1. congruence.
          - cbn [setWindow a_matcher last_match]. rewrite E3. reflexivity. }
        exists (KMatch (w_origin env w) reg), (rev ev1). split; [reflexivity|].
        split; [intros k' p X; apply in_rev in X; exact (NR _ _ X)|].
        split; [split; discriminate|]. split; [split; [discriminate|intros [_ X]; contradiction]|].
        split; [exact LM|].
        split; [split; [auto|split; [exact E2|]]|].
        { intro log'. rewrite TO, <- M. reflexivity. }
        intros R RM.
        assert (RI0 : rigid inc) by (apply rigid_mul; [apply rigid_inv, rigid_pose|apply rigid_pose]).
        destruct (RI) as (R1 & ST & DP); [destruct R; split; auto|exact RI0|].
        split; [|split].
        { destruct R1 as [X1 X2 X3 X4]. split; cbn [setWindow a_pos a_temp a_frame]; auto.
          intro NL. cbn. apply X4. intros b Hb. apply NL. right. exact Hb. }
        { intro D0. cbn [app drawn_where_reported]. rewrite RE. cbn [app]. split.
          - cbn [setWindow a_pos]. rewrite (DP o m r0 RE). symmetry. apply trans_of_pose. apply R1.
          - specialize (DR D0). rewrite RE in DR. exact DR. }
        { intro NL. cbn [setWindow a_pos]. rewrite <- M. apply ST.
          intros b Hb. apply NL. apply -> in_rev. exact Hb. }
      * apply bind_ok_inv in H. destruct H as ([a1 ev1] & UG & H). cbn [fst snd] in H. injection H as <- <-.
        assert (C0 : AC env (setUnused a t2id) log) by (eapply AC_same; [exact C|..]; reflexivity).
        destruct (updateGraph_ok env _ i _ _ a1 ev1 log C0 UG)
          as (C1 & E1 & E2 & E3 & E4 & LM & TO & DR & NR & (o & m & r0 & RE) & RI).
        cbn [setUnused a_init a_unused a_matcher a_win a_pos] in E1, E2, E3, E4, RI.
        rewrite rev_app_distr. cbn [rev app].
        split.
        { split.
          - apply AC_rep. exact C1.
          - rewrite E1, E4, AI0, AW. split; [discriminate|auto].
          - rewrite E1. congruence.
          - cbn [last_match]. rewrite E3, LM. exact M. }
        exists KOdo, (rev ev1). split; [reflexivity|].
        split; [intros k' p X; apply in_rev in X; exact (NR _ _ X)|].
        split; [split; discriminate|]. split; [split; [discriminate|intros [_ X]; contradiction]|].
        split; [exact LM|].
        split; [split; [auto|split; [exact E2|exact TO]]|].
        intros R RM.
        destruct (RI) as (R1 & ST & DP); [destruct R; split; auto|exact RM|].
        split; [|split].
        { destruct R1 as [X1 X2 X3 X4]. split; auto.
          intro NL. cbn. apply X4. intros b Hb. apply NL. right. exact Hb. }
        { intro D0. cbn [app drawn_where_reported]. rewrite RE. cbn [app]. split.
          - rewrite (DP o m r0 RE). symmetry. apply trans_of_pose. apply R1.
          - specialize (DR D0). rewrite RE in DR. exact DR. }
        { intro NL. apply ST. intros b Hb. apply NL. apply -> in_rev. exact Hb. }
    + assert (NM : ~ moved (t2mul (a_unused a) (i_motion i))).
      { intro X. apply movedEnough_iff in X. congruence. }
      injection H as <- <-. cbn [rev app].
      split.
      { split.
        - apply AC_rep. eapply AC_same; [exact C|..]; reflexivity.
        - cbn. rewrite AI0, AW. split; [discriminate|auto].
        - cbn. congruence.
        - exact M. }
      exists KSkip, []. split; [reflexivity|]. split; [intros k' p []|].
      split; [split; discriminate|]. split; [tauto|]. split; [reflexivity|]. split; [auto|].
      intros [X1 X2 X3 X4] RM. split; [|split; [auto|exact Logic.I]].
      split; auto. intro NL. cbn. apply X4. intros b Hb. apply NL. right. exact Hb.
  - destruct (F eq_refl) as [-> ->]. injection H as <- <-. cbn [rev app].
    split.
    { split.
      - split; cbn; auto; try discriminate.
        + apply SI_init.
        + intros [|k] n X; discriminate.
        + split; [auto|discriminate].
      - cbn. split; [discriminate|auto].
      - cbn. discriminate.
      - cbn. apply trans_zero. }
    exists KFirst, [ADraw (mkP 0 0 0) t2id]. split; [reflexivity|].
    split; [intros k' p [X|[]]; discriminate|].
    split; [tauto|]. split; [split; [discriminate|intros [X _]; discriminate]|].
    split; [reflexivity|]. split; [auto|].
    intros _ _. split; [|split; [|exact Logic.I]].
    + split; cbn; try apply rigid_id; auto. rewrite trans_zero. apply t2mul_id_l.
    + intros _. cbn. split; [|auto]. rewrite t2mul_id_r, pose_id. reflexivity.
Qed.

(** ** whole runs *)
Lemma arun_snoc (env : aenv) l i st : arun env (l ++ [i]) = Ok st ->
  exists a log a' evs, arun env l = Ok (a, log) /\ update env a i = Ok (a', evs) /\
    st = (a', rev evs ++ log).
Proof.
  unfold arun. rewrite foldM_app. intro H. apply bind_ok_inv in H. destruct H as ([a log] & R & H).
  cbn [foldM] in H. apply bind_ok_inv in H. destruct H as (st' & U & H). injection H as <-.
  unfold astep in U. cbn [fst snd] in U. apply bind_ok_inv in U. destruct U as ([a' evs] & U & H).
  injection H as <-. exists a, log, a', evs. auto.
Qed.
Lemma arun_step (env : aenv) l i a log a' evs : arun env l = Ok (a, log) ->
  update env a i = Ok (a', evs) -> arun env (l ++ [i]) = Ok (a', rev evs ++ log).
Proof.
  intros R U. unfold arun in *. rewrite foldM_app, R. cbn [bind foldM]. unfold astep. cbn [fst snd].
  rewrite U. reflexivity.
Qed.

Lemma arun_ok (env : aenv) l a log : arun env l = Ok (a, log) -> AI env a log.
Proof.
  revert a log. induction l as [|i l IH] using rev_ind; intros a log H.
  - injection H as <- <-. apply AI_init.
  - destruct (arun_snoc _ _ _ _ H) as (a0 & log0 & a' & evs & R & U & E). injection E as -> ->.
    apply (update_ok _ _ _ _ _ _ (IH _ _ R) U).
Qed.
Lemma arun_rigid (env : aenv) l a log : rigid_inputs l -> arun env l = Ok (a, log) ->
  AR a log /\ drawn_where_reported log.
Proof.
  revert a log. induction l as [|i l IH] using rev_ind; intros a log RG H.
  - injection H as <- <-. split; [apply AR_init|exact Logic.I].
  - destruct (arun_snoc _ _ _ _ H) as (a0 & log0 & a' & evs & R & U & E). injection E as -> ->.
    apply Forall_app in RG. destruct RG as [RG RI]. inversion RI; subst.
    destruct (IH _ _ RG R) as [AR0 D0].
    destruct (update_ok _ _ _ _ _ _ (arun_ok _ _ _ _ R) U) as (_ & k & r & _ & _ & _ & _ & _ & _ & X).
    destruct (X AR0 H2) as (X1 & X2 & _). auto.
Qed.

(** ** the properties *)
Theorem alg_structure (env : aenv) l a log : arun env l = Ok (a, log) ->
  let n := nodeCount (s_graph (a_slam a)) in
  a_frames a = seq 0 n /\ a_map a = seq 0 n /\ rev (made log) = seq 0 n /\
  length (legs log) = n /\
  odo_constraints (g_edges (s_graph (a_slam a))) =
    map (fun k => (k, S k, getPoseFromTransform (nth k (legs log) t2id))) (seq 0 (n - 1)) /\
  nodes_when_due (gen_dist env) log /\
  (forall k f p, getPoseData (a_slam a) k = Ok f -> getPoseLocation (a_slam a) k = Ok p -> f_origin f = p).
Proof.
  intro H. destruct (arun_ok _ _ _ _ H) as [[I AL FR MP MD FI LA LL LT OD TE P0 PS [DU NI]] _ _ _].
  cbv zeta. unfold nodeCount. split; [exact FR|]. split; [exact MP|]. split; [exact MD|].
  split; [exact LL|]. split; [exact OD|]. split; [exact DU|].
  intros k f p X Y. destruct (getPose_ok _ _ _ Y) as (nd & E & <-).
  unfold getPoseData in X. rewrite getNode_nth in X. unfold nodes in E. rewrite E in X.
  injection X as <-. apply (AL k nd E).
Qed.

Lemma last_report_rev k p r log : last_report (ARep k p :: r ++ log) = Some (k, p).
Proof. reflexivity. Qed.

Theorem alg_report (env : aenv) l i a log k q m p : arun env (l ++ [i]) = Ok (a, log) ->
  last_report log = Some (k, q) ->
  nodeCount (s_graph (a_slam a)) = S m -> getPoseLocation (a_slam a) m = Ok p ->
  (k <> KSkip -> q = getPoseFromTransform (t2mul (getTransFromPose p) (since_frame log))) /\
  (k = KSkip -> q = getPoseFromTransform
     (t2mul (t2mul (getTransFromPose p) (since_frame log)) (i_motion i))).
Proof.
  intros H L N G. destruct (arun_snoc _ _ _ _ H) as (a0 & log0 & a' & evs & R & U & E). injection E as -> ->.
  destruct (update_ok _ _ _ _ _ _ (arun_ok _ _ _ _ R) U) as (I' & k0 & r & RE & _ & _ & _ & _ & K & _).
  pose proof (ai_pos _ _ _ (ai_core _ _ _ I') m p N G) as PS.
  rewrite RE in L, PS |- *. cbn [app last_report] in L. injection L as <- <-.
  split; intro X.
  - rewrite <- PS. destruct k0; try reflexivity. congruence.
  - subst k0. rewrite <- PS. destruct K as (_ & -> & _). reflexivity.
Qed.

(** the pose of the newest frame after a loop closure is the optimiser's *)
Lemma updateGraph_loop (env : aenv) a i inc cov a' evs log :
  AC env a log -> updateGraph env a i inc cov = Ok (a', evs) -> In (ALoop true) evs ->
  exists m, nodeCount (s_graph (a_slam a')) = S m /\ hd_error (made (rev evs ++ log)) = Some m /\
    (m <> 0%nat -> getPoseLocation (a_slam a') m = Ok (i_est i m)).
Proof.
  intros C H L. unfold updateGraph in H. destruct (leftWindow _ _).
  - apply bind_ok_inv in H. destruct H as ([a1 ev1] & NN & H). injection H as <- <-. cbn [fst snd] in *.
    destruct C as [I AL FR MP MD FI LA LL LT OD TE P0 PS [DU NI]].
    assert (FN : a_first a = true -> nodes (a_slam a) <> []).
    { rewrite FI. intros X E. rewrite E in X. discriminate. }
    destruct (newNode_ok env a i _ _ a1 ev1 I AL FN NN)
      as (I1 & AL1 & LN1 & closed & p & EV & GP & CF & CT & _).
    assert (closed = true).
    { rewrite EV in L. destruct closed; [reflexivity|]. cbn in L. intuition congruence. }
    subst closed. exists (length (nodes (a_slam a))). split; [exact LN1|].
    split; [rewrite EV; reflexivity|].
    intro NZ. rewrite GP. f_equal. rewrite (CT eq_refl).
    destruct (Nat.eqb_spec (length (nodes (a_slam a))) 0); [contradiction|reflexivity].
  - injection H as <- <-. cbn in L. intuition discriminate.
Qed.
Theorem alg_loop_pose (env : aenv) l i a log a' evs : arun env l = Ok (a, log) ->
  update env a i = Ok (a', evs) -> In (ALoop true) evs ->
  exists m, nodeCount (s_graph (a_slam a')) = S m /\ hd_error (made (rev evs ++ log)) = Some m /\
    (m <> 0%nat -> getPoseLocation (a_slam a') m = Ok (i_est i m)).
Proof.
  intros R H L. destruct (arun_ok _ _ _ _ R) as [C W F M]. unfold update in H.
  destruct (a_init a) eqn:AI0.
  - destruct (a_win a) as [w|]; [|discriminate].
    destruct (movedEnough _).
    + destruct (i_match i) as [reg|].
      * apply bind_ok_inv in H. destruct H as ([a1 ev1] & UG & H). cbn [fst snd] in H.
        destruct (w_move env _ reg) as [w2 c]. injection H as <- <-.
        eapply updateGraph_loop with (log := log) in UG.
        -- rewrite rev_app_distr. exact UG.
        -- eapply AC_same; [exact C|..]; reflexivity.
        -- apply in_app_or in L. destruct L as [L|[L|[]]]; [exact L|discriminate].
      * apply bind_ok_inv in H. destruct H as ([a1 ev1] & UG & H). cbn [fst snd] in H. injection H as <- <-.
        eapply updateGraph_loop with (log := log) in UG.
        -- rewrite rev_app_distr. exact UG.
        -- eapply AC_same; [exact C|..]; reflexivity.
        -- apply in_app_or in L. destruct L as [L|[L|[]]]; [exact L|discriminate].
    + injection H as <- <-. cbn in L. intuition discriminate.
  - injection H as <- <-. cbn in L. intuition discriminate.
Qed.

Theorem alg_used (env : aenv) l i a log k q : arun env (l ++ [i]) = Ok (a, log) ->
  last_report log = Some (k, q) ->
  (k = KFirst <-> l = []) /\ (k = KSkip <-> l <> [] /\ ~ moved (t2mul (pending l) (i_motion i))).
Proof.
  assert (P : forall l a log, arun env l = Ok (a, log) ->
     (a_init a = false <-> l = []) /\ a_unused a = pending l).
  { clear. intro l. induction l as [|i l IH] using rev_ind; intros a log H.
    - injection H as <- <-. split; [tauto|reflexivity].
    - destruct (arun_snoc _ _ _ _ H) as (a0 & log0 & a' & evs & R & U & E). injection E as -> ->.
      destruct (IH _ _ R) as [IN UN].
      destruct (update_ok _ _ _ _ _ _ (arun_ok _ _ _ _ R) U) as (I' & k & r & RE & _ & K1 & K2 & _ & K & _).
      split.
      + split; [|destruct l; discriminate]. intro X. destruct (ai_fresh _ _ _ I' X) as [Y _].
        rewrite RE in Y. discriminate.
      + destruct l as [|i0 l].
        { assert (k = KFirst) as -> by (apply K1, IN; reflexivity). destruct K as (_ & _ & ->). reflexivity. }
        assert (IT : a_init a0 = true) by (destruct (a_init a0); [auto|destruct IN as [X _]; discriminate (X eq_refl)]).
        unfold pending in *. cbn [app tl] in *. rewrite fold_left_app. cbn [fold_left]. rewrite <- UN.
        destruct (moved_dec _) as [MV|MV].
        * destruct k as [| |w reg|].
          -- destruct K as (_ & _ & ->). reflexivity.
          -- destruct K2 as [K2 _]. destruct (K2 eq_refl). contradiction.
          -- apply K.
          -- apply K.
        * assert (k = KSkip) as -> by (apply K2; auto). apply K. }
  intros H L. destruct (arun_snoc _ _ _ _ H) as (a0 & log0 & a' & evs & R & U & E). injection E as -> ->.
  destruct (P _ _ _ R) as [IN UN].
  destruct (update_ok _ _ _ _ _ _ (arun_ok _ _ _ _ R) U) as (I' & k0 & r & RE & _ & K1 & K2 & _).
  rewrite RE in L. cbn [app last_report] in L. injection L as <- <-.
  split; [rewrite K1; exact IN|]. rewrite K2, UN. destruct (a_init a0); split; intros [X Y]; split; auto.
  - intro Z. apply IN in Z. discriminate.
  - discriminate.
  - destruct X. apply IN. reflexivity.
Qed.

Theorem alg_total (env : aenv) l i a log k q : rigid_inputs (l ++ [i]) ->
  arun env (l ++ [i]) = Ok (a, log) -> last_report log = Some (k, q) -> no_loop log ->
  (k <> KSkip -> q = getPoseFromTransform (total log)) /\
  (k = KSkip -> q = getPoseFromTransform (t2mul (total log) (i_motion i))).
Proof.
  intros RG H L NL. destruct (arun_rigid _ _ _ _ RG H) as [[_ _ _ T] _]. rewrite <- (T NL). clear T.
  destruct (arun_snoc _ _ _ _ H) as (a0 & log0 & a' & evs & R & U & E). injection E as -> ->.
  destruct (update_ok _ _ _ _ _ _ (arun_ok _ _ _ _ R) U) as (I' & k0 & r & RE & _ & _ & _ & _ & K & _).
  rewrite RE in L. cbn [app last_report] in L. injection L as <- <-.
  split; intro X.
  - destruct k0; try reflexivity. congruence.
  - subst k0. destruct K as (_ & -> & _). reflexivity.
Qed.

Theorem alg_dead_reckoning (env : aenv) i0 l a log k q : rigid_inputs (i0 :: l) ->
  arun env (i0 :: l) = Ok (a, log) -> last_report log = Some (k, q) -> no_loop log ->
  Forall (fun i => i_match i = None /\ moved (i_motion i)) l ->
  q = getPoseFromTransform (motions l).
Proof.
  intros RG H L NL F.
  assert (P : forall l a log, arun env (i0 :: l) = Ok (a, log) ->
     Forall (fun i => i_match i = None /\ moved (i_motion i)) l ->
     a_init a = true /\ a_unused a = t2id /\ total log = motions l /\
     exists k q, last_report log = Some (k, q) /\ k <> KSkip).
  { clear. intro l. induction l as [|i l IH] using rev_ind; intros a log H F.
    - cbn in H. injection H as <- <-. cbn. repeat split. eexists _, _. split; [reflexivity|discriminate].
    - rewrite app_comm_cons in H.
      destruct (arun_snoc _ _ _ _ H) as (a0 & log0 & a' & evs & R & U & E). injection E as -> ->.
      apply Forall_app in F. destruct F as [F Fi]. inversion Fi; subst. destruct H2 as [MN MV].
      destruct (IH _ _ R F) as (IT & UN & TO & _).
      destruct (update_ok _ _ _ _ _ _ (arun_ok _ _ _ _ R) U) as (I' & k & r & RE & _ & K1 & K2 & _ & K & _).
      assert (k = KOdo).
      { destruct k; auto.
        - destruct K1 as [K1 _]. rewrite IT in K1. discriminate (K1 eq_refl).
        - destruct K2 as [K2 _]. destruct (K2 eq_refl) as [_ X]. rewrite UN, t2mul_id_l in X. contradiction.
        - destruct K as [K _]. congruence. }
      subst k. destruct K as (_ & UN' & TO'). split.
      + destruct (a_init a') eqn:X; [auto|]. destruct (ai_fresh _ _ _ I' X) as [Y _]. rewrite RE in Y. discriminate.
      + split; [exact UN'|]. rewrite RE. split; [|eexists _, _; split; [reflexivity|discriminate]].
        cbn. rewrite TO', TO. unfold motions. rewrite fold_left_app. reflexivity. }
  destruct (P _ _ _ H F) as (_ & _ & <- & k1 & q1 & L1 & NS). rewrite L1 in L. injection L as -> ->.
  destruct (list_eq_dec Nat.eq_dec [] []) as [_|C]; [|congruence].
  assert (X : exists l0 i, i0 :: l = l0 ++ [i]).
  { destruct (exists_last (l := i0 :: l)) as (l0 & i & E); [discriminate|eauto]. }
  destruct X as (l0 & i & E). rewrite E in *. eapply alg_total; eauto.
Qed.

Lemma rigid_last_match log : rigid (last_match log).
Proof.
  induction log as [|[] t IH]; cbn; auto; try apply rigid_id.
  destruct k; auto. apply rigid_pose.
Qed.
Lemma pose_again t : getPoseFromTransform (getTransFromPose (getPoseFromTransform t)) = getPoseFromTransform t.
Proof.
  rewrite pose_of_trans, normalize_id by apply pose_of_trans_range. reflexivity.
Qed.

Theorem alg_match (env : aenv) l i a log w reg q : rigid_inputs (l ++ [i]) ->
  arun env (l ++ [i]) = Ok (a, log) -> last_report log = Some (KMatch w reg, q) ->
  no_loop log -> no_odo log ->
  q = getPoseFromTransform (t2mul (getTransFromPose w) reg).
Proof.
  intros RG H L NL NO.
  destruct (alg_total env l i a log _ q RG H L NL) as [T _]. rewrite T by discriminate.
  assert (P : forall l a log, arun env l = Ok (a, log) -> no_odo log -> total log = last_match log).
  { clear. intro l. induction l as [|i l IH] using rev_ind; intros a log H NO.
    - injection H as <- <-. reflexivity.
    - destruct (arun_snoc _ _ _ _ H) as (a0 & log0 & a' & evs & R & U & E). injection E as -> ->.
      assert (NO0 : no_odo log0) by (intros p X; apply (NO p), in_or_app; auto).
      specialize (IH _ _ R NO0).
      destruct (update_ok _ _ _ _ _ _ (arun_ok _ _ _ _ R) U) as (I' & k & r & RE & _ & K1 & K2 & LM & K & _).
      rewrite RE in NO |- *. destruct k as [| |w reg|].
      + destruct K as (-> & _). cbn. exact IH.
      + destruct K as (-> & _). cbn. exact IH.
      + destruct K as (_ & _ & TO). cbn [app total last_match]. rewrite TO, IH.
        rewrite <- t2mul_assoc, t2inv_r by apply rigid_nz, rigid_last_match. apply t2mul_id_l.
      + destruct (NO (reported a0 a' i KOdo)). left. reflexivity. }
  rewrite (P _ _ _ H NO).
  destruct (arun_snoc _ _ _ _ H) as (a0 & log0 & a' & evs & R & U & E). injection E as -> ->.
  destruct (update_ok _ _ _ _ _ _ (arun_ok _ _ _ _ R) U) as (I' & k & r & RE & _).
  rewrite RE in L |- *. cbn [app last_report] in L. injection L as -> _. cbn [app last_match].
  apply pose_again.
Qed.

Theorem alg_match_step (env : aenv) l i a log a' evs w reg q : rigid_inputs (l ++ [i]) ->
  arun env l = Ok (a, log) -> update env a i = Ok (a', evs) ->
  last_report (rev evs) = Some (KMatch w reg, q) -> no_loop evs ->
  getTransFromPose q = t2mul (a_pos a) (t2mul (t2inv (last_match log))
     (getTransFromPose (getPoseFromTransform (t2mul (getTransFromPose w) reg)))).
Proof.
  intros RG R U L NL. apply Forall_app in RG. destruct RG as [RG Ri]. inversion Ri; subst.
  destruct (arun_rigid _ _ _ _ RG R) as [AR0 _].
  destruct (update_ok _ _ _ _ _ _ (arun_ok _ _ _ _ R) U) as (I' & k & r & RE & _ & _ & _ & _ & _ & X).
  destruct (X AR0 H1) as (AR1 & _ & K). rewrite RE in L. cbn [last_report] in L. injection L as -> <-.
  cbn [reported]. rewrite trans_of_pose by apply AR1. apply K.
  intros b Hb. apply NL. apply in_rev. rewrite RE. right. exact Hb.
Qed.

Theorem alg_drawn (env : aenv) l a log : rigid_inputs l -> arun env l = Ok (a, log) ->
  drawn_where_reported log.
Proof. intros RG H. apply (arun_rigid _ _ _ _ RG H). Qed.

(** ** definedness *)
Lemma live_snoc (g g' : graph pose frame M3) a e b : g_edges g' = g_edges g ++ [Some (a, e)] ->
  live_addr g' b = live_addr g b || (b =? a)%nat.
Proof. intro H. unfold live_addr. rewrite H, existsb_app. cbn. rewrite orb_false_r. reflexivity. Qed.

Lemma odo_In x : forall l, In x (odo_constraints l) ->
  exists k a e, nth_error l k = Some (Some (a, e)) /\ (e_from e, e_to e, e_trans e) = x.
Proof.
  induction l as [|[[a e]|] t IH]; cbn; [intros []| |].
  - destruct (e_loop e).
    + intro H. destruct (IH H) as (k & X). exists (S k). exact X.
    + intros [H|H]; [exists 0%nat, a, e; auto|]. destruct (IH H) as (k & X). exists (S k). exact X.
  - intro H. destruct (IH H) as (k & X). exists (S k). exact X.
Qed.

Lemma addClosure_defined (senv : senv pose frame M3 Guess D) fresh s k c : SI senv s ->
  live_addr (s_graph s) (fresh k) = false ->
  (lc_from c < length (nodes s))%nat -> (lc_to c < length (nodes s))%nat ->
  exists s', addClosure senv fresh (s, k) c = Ok (s', S k) /\ SI senv s' /\
    length (nodes s') = length (nodes s) /\
    forall b, live_addr (s_graph s') b = live_addr (s_graph s) b || (b =? fresh k)%nat.
Proof.
  intros I LA HF HT. unfold addClosure.
  destruct (addConstrain_defined senv s (fresh k) _ _ (lc_trans c) (lc_info c) I LA HF HT) as (s1 & AC1).
  rewrite AC1. cbn [bind fst snd].
  destruct (addConstrain_ok _ _ _ _ _ _ _ _ _ I AC1) as (I1 & EID & _ & _ & GE & SN & SV).
  set (id := length (g_edges (s_graph s))) in *.
  assert (SL : slot (s_graph s1) id = Some (Some (fresh k, mkEdge id (lc_from c) (lc_to c) Active false false (lc_trans c) (odo_info senv)))).
  { unfold slot. rewrite GE, nth_error_snoc. fold id. rewrite Nat.eqb_refl. reflexivity. }
  destruct (SI_setLoop senv s1 id _ _ I1 SL) as (g & ME & I2 & GN & GE2).
  rewrite ME. cbn [bind]. eexists. split; [reflexivity|]. split; [exact I2|].
  split; [unfold nodes; cbn [with_graph s_graph]; rewrite GN; apply SN|].
  intro b. cbn [with_graph s_graph]. eapply live_snoc. rewrite GE2, GE. unfold id. apply upd_snoc.
Qed.

Lemma addClosures_defined (senv : senv pose frame M3 Guess D) fresh :
  (forall j k, fresh j = fresh k -> j = k) ->
  forall loops s k, SI senv s -> (forall j, (k <= j)%nat -> live_addr (s_graph s) (fresh j) = false) ->
  Forall (fun c => lc_from c < length (nodes s) /\ lc_to c < length (nodes s))%nat loops ->
  exists s' k', foldM (addClosure senv fresh) loops (s, k) = Ok (s', k').
Proof.
  intro INJ. induction loops as [|c t IH]; intros s k I LA F; cbn [foldM].
  - eauto.
  - inversion F; subst. destruct H1 as [HF HT].
    destruct (addClosure_defined senv fresh s k c I (LA k (le_n k)) HF HT) as (s1 & E1 & I1 & LN & LV).
    rewrite E1. cbn [bind]. apply IH.
    + exact I1.
    + intros j Hj. rewrite LV, LA by lia. cbn. apply Nat.eqb_neq. intro X. apply INJ in X. lia.
    + rewrite LN. exact H2.
Qed.

Lemma newNode_defined (env : aenv) (a : alg) i temp ctemp log null :
  AC env a log -> oob (e_lenv env) = Some null -> fresh_input a i ->
  exists st, newNode env a i temp ctemp = Ok st.
Proof.
  intros C O (FA & FF & INJ).
  destruct C as [I AL FR MP MD FI LA LL LT OD TE P0 PS [DU NI]].
  set (N := length (nodes (a_slam a))) in *. unfold newNode.
  destruct (addPose_SI (e_senv env) (a_slam a) (f_origin (a_frame a)) (a_frame a) I) as [I1 ID].
  destruct (addPose_effect (e_senv env) (a_slam a) (f_origin (a_frame a)) (a_frame a) I) as (GE1 & LN1 & NN1).
  destruct (addPose (e_senv env) (a_slam a) (f_origin (a_frame a)) (a_frame a)) as [s1 id].
  cbn [fst snd] in *. change (length (g_nodes (s_graph (a_slam a)))) with N in *. subst id.
  destruct (si_last _ _ I1) as [L1 L2]. rewrite LN1 in L1, L2.
  assert (K2 : exists s2, (if a_first a
           then (do r <- addLastConstrain (e_senv env) s1 (i_addr i)
                           (getPoseFromTransform (a_ltrans a)) (minv (a_lcov a)); Ok (fst r))
           else Ok s1) = Ok s2 /\ SI (e_senv env) s2 /\ length (nodes s2) = S N /\ s_last s2 = N /\
     (forall k, (k < N)%nat -> exists t, In (k, S k, t) (odo_constraints (edges s2))) /\
     (forall k, live_addr (s_graph s2) (i_fresh i k) = false)).
  { assert (LV1 : forall b, live_addr (s_graph s1) b = live_addr (s_graph (a_slam a)) b).
    { intro b. unfold live_addr. rewrite GE1. reflexivity. }
    rewrite FI. destruct (Nat.ltb_spec 0 N) as [NP|NP].
    - unfold addLastConstrain.
      destruct (addConstrain_defined (e_senv env) s1 (i_addr i) (s_prev s1) (s_last s1)
         (getPoseFromTransform (a_ltrans a)) (minv (a_lcov a)) I1) as (s2 & E2).
      { rewrite LV1. exact FA. } { rewrite LN1. lia. } { rewrite LN1. lia. }
      rewrite E2. cbn [bind fst]. exists s2. split; [reflexivity|].
      destruct (addConstrain_ok _ _ _ _ _ _ _ _ _ I1 E2) as (I2 & _ & _ & _ & GE & SN & SV).
      assert (LN2 : length (nodes s2) = S N) by (unfold nodes; rewrite (proj1 SN); exact LN1).
      split; [exact I2|]. split; [exact LN2|].
      split; [destruct (si_last _ _ I2) as [X _]; fold (nodes s2) in X; rewrite LN2 in X; lia|].
      split.
      + intros k Hk. unfold edges. rewrite GE, odo_app, GE1.
        destruct (Nat.eq_dec k (N - 1)) as [->|NE].
        * exists (getPoseFromTransform (a_ltrans a)). apply in_or_app. right. left. cbn.
          rewrite L1, L2. repeat f_equal; lia.
        * eexists. apply in_or_app. left. fold (edges (a_slam a)). rewrite OD. apply in_map_iff.
          exists k. split; [reflexivity|]. apply in_seq. lia.
      + intro k. rewrite (live_snoc _ _ _ _ _ GE), LV1. destruct (FF k) as [-> NE]. cbn.
        apply Nat.eqb_neq. exact NE.
    - exists s1. split; [reflexivity|]. split; [exact I1|]. split; [exact LN1|]. split; [lia|].
      split; [intros k Hk; lia|]. intro k. rewrite LV1. apply FF. }
  destruct K2 as (s2 & E2 & I2 & LN2 & SL2 & CH & LV2). rewrite E2. cbn [bind]. clear E2.
  unfold tryLoopCloseLast, tryLoopClose. rewrite SL2.
  assert (HQ : (N < length (g_nodes (s_graph s2)))%nat) by (fold (nodes s2); lia).
  assert (BR : forall k, (k < length (g_nodes (s_graph s2)))%nat -> back_reach (s_graph s2) N k).
  { fold (nodes s2). rewrite LN2. intros k Hk.
    assert (X : forall j, (j <= N)%nat -> back_reach (s_graph s2) N (N - j)).
    { induction j as [|j IH]; intro Hj; [rewrite Nat.sub_0_r; constructor|].
      destruct (CH (N - S j)%nat) as (t & Ht); [lia|].
      apply odo_In in Ht. destruct Ht as (ek & b & e & SLe & X). injection X as XF XT _.
      rewrite <- XF. apply br_step with (m := (N - j)%nat); [apply IH; lia| |lia].
      exists ek, b. exact SLe. }
    specialize (X (N - k)%nat). replace (N - (N - k))%nat with k in X by lia. apply X. lia. }
  destruct (gen_defined (s_graph s2) (si_ready _ _ I2) (e_lenv env) (i_choice i) N HQ null O BR)
    as (out & calls & GL).
  cbn [e_senv s_lenv]. rewrite GL. cbn [bind].
  assert (WG : with_graph s2 (s_graph s2) = s2) by (destruct s2; reflexivity). rewrite WG.
  destruct (gen_result (s_graph s2) (si_ready _ _ I2) _ (i_choice i) N HQ _ _ _ GL) as (_ & GC & _).
  destruct (addClosures_defined (e_senv env) (i_fresh i) INJ out s2 0%nat I2) as (s3 & k3 & F3).
  { intros j _. apply LV2. }
  { apply Forall_forall. intros c Hc. destruct (GC c Hc) as (XF & _ & nq & nc & d & Y1 & Y2 & _).
    rewrite XF. split; [exact HQ|]. eapply nth_error_lt; eauto. }
  change (mkSEnv (e_lenv env) (e_se2 env) (fun p f => mkFrame p (f_body f)) (e_odo env)) with (e_senv env).
  rewrite F3. cbn [bind fst].
  destruct (addClosures_ok _ _ _ _ _ _ _ I2 F3) as (I3 & SN3 & SV3 & xs & GE3 & FX).
  assert (LN3 : length (nodes s3) = S N) by (unfold nodes in *; rewrite (proj1 SN3); exact LN2).
  assert (K4 : exists s4, (if (0 <? length out)%nat then (do r <- optimalizeIterationaly (e_senv env) s3 (i_est i); Ok (fst r))
           else Ok s3) = Ok s4 /\ length (nodes s4) = S N).
  { destruct (0 <? length out)%nat.
    - unfold optimalizeIterationaly.
      destruct (optimalize_ok (e_senv env) s3 (i_est i) I3) as (s5 & E5 & I5 & GE5 & V5 & _ & LN5 & NN5).
      rewrite E5. cbn [bind fst]. exists s5. split; [reflexivity|]. unfold nodes in *. congruence.
    - exists s3. auto. }
  destruct K4 as (s4 & E4 & LN4). rewrite E4. cbn [bind].
  destruct (nth_error (nodes s4) N) as [n4|] eqn:N4; [|apply nth_error_None in N4; lia].
  rewrite (getPose_nth _ _ _ N4). cbn [bind]. eauto.
Qed.

Theorem alg_defined (env : aenv) l a log i null : arun env l = Ok (a, log) ->
  oob (e_lenv env) = Some null -> fresh_input a i ->
  exists st, arun env (l ++ [i]) = Ok st.
Proof.
  intros R O FI. destruct (arun_ok _ _ _ _ R) as [C W F M].
  assert (UG : forall a0 inc cov, AC env a0 log -> a_slam a0 = a_slam a ->
     exists st, updateGraph env a0 i inc cov = Ok st).
  { intros a0 inc cov C0 E. unfold updateGraph. destruct (leftWindow _ _); [|eauto].
    destruct (newNode_defined env a0 i (t2mul (a_temp a0) inc) (addToCovar (a_ctemp a0) cov inc) log null C0 O) as (st & ->).
    - unfold fresh_input in *. rewrite E. exact FI.
    - cbn [bind]. eauto. }
  assert (U : exists st, update env a i = Ok st).
  { unfold update. destruct (a_init a) eqn:AI0; [|eauto].
    destruct (a_win a) as [w|] eqn:AW; [|destruct W as [W _]; destruct (W eq_refl eq_refl)].
    destruct (movedEnough _); [|eauto].
    destruct (i_match i) as [reg|].
    - edestruct UG as (st & ->); [eapply AC_same; [exact C|..]; reflexivity|reflexivity|]. cbn [bind].
      destruct (w_move env _ reg). eauto.
    - edestruct UG as (st & ->); [eapply AC_same; [exact C|..]; reflexivity|reflexivity|]. cbn [bind]. eauto. }
  destruct U as ([a' evs] & U). eexists. eapply arun_step; eauto.
Qed.

(** read by the letter of the standard the traversals have no defined outcome *)
Theorem alg_strict (env : aenv) l a log : arun env l = Ok (a, log) -> oob (e_lenv env) = None ->
  made log = [].
Proof.
  intros R O. revert a log R. induction l as [|i l IH] using rev_ind; intros a log H.
  - injection H as <- <-. reflexivity.
  - destruct (arun_snoc _ _ _ _ H) as (a0 & log0 & a' & evs & R & U & E). injection E as -> ->.
    specialize (IH _ _ R). destruct (arun_ok _ _ _ _ R) as [C W F M].
    assert (UG : forall a0' inc cov a1 ev1, AC env a0' log0 -> updateGraph env a0' i inc cov = Ok (a1, ev1) ->
       made (rev ev1 ++ log0) = []).
    { clear - O IH. intros a0' inc cov a1 ev1 C H. unfold updateGraph in H. destruct (leftWindow _ _).
      - exfalso. apply bind_ok_inv in H. destruct H as ([a2 ev2] & NN & _). unfold newNode in NN.
        destruct C as [I AL FR MP MD FI LA LL LT OD TE P0 PS [DU NI]].
        destruct (addPose_SI (e_senv env) (a_slam a0') (f_origin (a_frame a0')) (a_frame a0') I) as [I1 ID].
        destruct (addPose (e_senv env) (a_slam a0') (f_origin (a_frame a0')) (a_frame a0')) as [s1 id].
        cbn [fst snd] in *. apply bind_ok_inv in NN. destruct NN as (s2 & E2 & NN).
        assert (I2 : SI (e_senv env) s2).
        { destruct (a_first a0').
          - apply bind_ok_inv in E2. destruct E2 as ([s2' eid] & AC2 & E2). injection E2 as <-.
            unfold addLastConstrain in AC2. eapply proj1, addConstrain_ok; eauto.
          - injection E2 as <-. exact I1. }
        apply bind_ok_inv in NN. destruct NN as ([s3 b] & E3 & _).
        unfold tryLoopCloseLast in E3.
        destruct (tryLoopClose_ok _ _ _ _ _ _ _ I2 E3) as (_ & _ & _ & loops & calls & xs & GL & _ & _ & _ & HQ).
        exact (gen_strict (s_graph s2) (si_ready _ _ I2) (e_lenv env) (i_choice i) _ HQ O _ GL).
      - injection H as <- <-. cbn. exact IH. }
    unfold update in U. destruct (a_init a0).
    + destruct (a_win a0) as [w|]; [|discriminate]. destruct (movedEnough _).
      * destruct (i_match i) as [reg|].
        -- apply bind_ok_inv in U. destruct U as ([a1 ev1] & G & U). cbn [fst snd] in U.
           destruct (w_move env _ reg) as [w2 c]. injection U as <- <-. rewrite rev_app_distr. cbn.
           eapply UG; [|exact G]. eapply AC_same; [exact C|..]; reflexivity.
        -- apply bind_ok_inv in U. destruct U as ([a1 ev1] & G & U). cbn [fst snd] in U.
           injection U as <- <-. rewrite rev_app_distr. cbn.
           eapply UG; [|exact G]. eapply AC_same; [exact C|..]; reflexivity.
      * injection U as <- <-. exact IH.
    + injection U as <- <-. exact IH.
Qed.

End A.
