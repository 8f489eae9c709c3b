(** Proofs for C143. *)
From Coq Require Import Reals Lra Psatz List ZArith Bool Arith Lia.
From Verif Require Import Base LinAlg3 GeoModel GeoSpec GeoProofs GraphModel GraphProofs LoopModel SlamModel SlamSpec SlamProofs
  AlgModel AlgSpec AlgProofs OptModel GaugeSpec.
Import ListNotations.
Open Scope R_scope.

(** ** misfit *)
Lemma misfit_error x y z : calcError x y z = misfit x z y.
Proof.
  rewrite rel_pose. unfold misfit, seen_from, compose. cbn [px py pth fst snd].
  pose proof (sc2 (pth x)) as X. rewrite cos_plus, sin_plus.
  set (d := cos (pth x) * cos (pth x) + sin (pth x) * sin (pth x)) in X.
  apply pose_eq; cbn [px py pth]; [| |f_equal; ring].
  - transitivity (cos (pth z) * (cos (pth x) * (px y - px x) + sin (pth x) * (py y - py x) - d * px z) +
       sin (pth z) * (- sin (pth x) * (px y - px x) + cos (pth x) * (py y - py x) - d * py z)); [rewrite X; ring|unfold d; ring].
  - transitivity (- sin (pth z) * (cos (pth x) * (px y - px x) + sin (pth x) * (py y - py x) - d * px z) +
       cos (pth z) * (- sin (pth x) * (px y - px x) + cos (pth x) * (py y - py x) - d * py z)); [rewrite X; ring|unfold d; ring].
Qed.
Lemma misfit_zero x z y : misfit x z y = mkP 0 0 0 <-> fits x z y.
Proof. rewrite <- misfit_error. apply error_zero. Qed.
Lemma compose_assoc g x z : compose (compose g x) z = compose g (compose x z).
Proof. unfold compose. cbn [px py pth]. rewrite cos_plus, sin_plus. apply pose_eq; cbn [px py pth]; ring. Qed.
Lemma misfit_moved g x z y : misfit (compose g x) z (compose g y) = misfit x z y.
Proof.
  unfold misfit. rewrite compose_assoc. set (t := compose x z). unfold seen_from, compose. cbn [px py pth fst snd].
  pose proof (sc2 (pth g)) as G. rewrite cos_plus, sin_plus.
  set (u := px y - px t). set (v := py y - py t).
  replace (px g + cos (pth g) * px y - sin (pth g) * py y - (px g + cos (pth g) * px t - sin (pth g) * py t))
    with (cos (pth g) * u - sin (pth g) * v) by (unfold u, v; ring).
  replace (py g + sin (pth g) * px y + cos (pth g) * py y - (py g + sin (pth g) * px t + cos (pth g) * py t))
    with (sin (pth g) * u + cos (pth g) * v) by (unfold u, v; ring).
  apply pose_eq; cbn [px py pth].
  - transitivity ((cos (pth g) * cos (pth g) + sin (pth g) * sin (pth g)) * (cos (pth t) * u + sin (pth t) * v)); [ring|rewrite G; ring].
  - transitivity ((cos (pth g) * cos (pth g) + sin (pth g) * sin (pth g)) * (- sin (pth t) * u + cos (pth t) * v)); [ring|rewrite G; ring].
  - f_equal. ring.
Qed.

(** ** same_pose *)
Lemma same_refl p : same_pose p p.
Proof. split; [auto|]. split; [auto|]. exists 0%Z. ring. Qed.
Lemma same_sym p q : same_pose p q -> same_pose q p.
Proof. intros (A & B & k & C). split; [auto|]. split; [auto|]. exists (- k)%Z. rewrite opp_IZR, C. ring. Qed.
Lemma same_trans p q r : same_pose p q -> same_pose q r -> same_pose p r.
Proof.
  intros (A & B & k & C) (A' & B' & k' & C'). split; [congruence|]. split; [congruence|].
  exists (k + k')%Z. rewrite plus_IZR, C, C'. ring.
Qed.
Lemma same_iff p q : same_pose p q <-> getTransFromPose p = getTransFromPose q.
Proof.
  split.
  - intros (A & B & k & C). destruct (period_Z (pth q) k) as [S K]. apply T2_eq; cbn; rewrite ?C, ?S, ?K, ?A, ?B; reflexivity.
  - intro H. assert (E : getPoseFromTransform (getTransFromPose p) = getPoseFromTransform (getTransFromPose q)) by (rewrite H; reflexivity).
    rewrite !pose_of_trans in E. injection E as E1 E2 E3. split; [exact E1|]. split; [exact E2|].
    destruct (normalize_wrapped (pth p)) as [_ (k & K)]. destruct (normalize_wrapped (pth q)) as [_ (k' & K')].
    exists (k' - k)%Z. rewrite minus_IZR. rewrite K, K' in E3. lra.
Qed.
Lemma compose_trans p d : getTransFromPose (compose p d) = t2mul (getTransFromPose p) (getTransFromPose d).
Proof. apply T2_eq; cbn; rewrite ?cos_plus, ?sin_plus; ring. Qed.
Lemma fits_trans x z y : fits x z y <-> getTransFromPose y = t2mul (getTransFromPose x) (getTransFromPose z).
Proof. unfold fits. rewrite same_iff, compose_trans. reflexivity. Qed.

(** ** cost *)
Lemma cost_moved l est g : cost l (fun k => compose g (est k)) = cost l est.
Proof.
  induction l as [|e l IH]; [reflexivity|]. cbn [cost fold_right]. fold (cost l est) (cost l (fun k => compose g (est k))).
  rewrite IH. destruct (ge_from e), (ge_to e); try reflexivity. rewrite misfit_moved. reflexivity.
Qed.
Lemma cost_pos l est : (forall e, In e l -> psd (ge_info e)) -> 0 <= cost l est.
Proof.
  induction l as [|e l IH]; intros P; [cbn; lra|]. cbn [cost fold_right]. fold (cost l est).
  assert (0 <= cost l est) by (apply IH; intros; apply P; right; assumption).
  destruct (ge_from e), (ge_to e); try assumption. pose proof (proj2 (P e (or_introl eq_refl))) as Q.
  match goal with |- context [quad ?i ?v] => specialize (Q v) end. lra.
Qed.
Lemma cost_zero l est : (forall e a b, In e l -> ge_from e = Some a -> ge_to e = Some b -> fits (est a) (ge_meas e) (est b)) ->
  cost l est = 0.
Proof.
  induction l as [|e l IH]; intros P; [reflexivity|]. cbn [cost fold_right]. fold (cost l est).
  rewrite IH by (intros; eapply P; eauto; right; assumption).
  destruct (ge_from e) eqn:A, (ge_to e) eqn:B; try reflexivity.
  rewrite (proj2 (misfit_zero _ _ _) (P e _ _ (or_introl eq_refl) A B)). unfold vecOf. cbn [px py pth]. rewrite Rplus_0_r. unfold quad. destruct (ge_info e). munfold. ring.
Qed.
Lemma vec_zero p : vecOf p = vzero -> p = mkP 0 0 0.
Proof. destruct p. unfold vecOf, vzero. cbn. intro H. injection H as -> -> ->. reflexivity. Qed.
Lemma cost_zero_fits l est : (forall e, In e l -> posdef (ge_info e)) -> cost l est = 0 ->
  forall e a b, In e l -> ge_from e = Some a -> ge_to e = Some b -> fits (est a) (ge_meas e) (est b).
Proof.
  intros P. assert (PS : forall e, In e l -> psd (ge_info e)).
  { intros e H. destruct (P e H) as [S Q]. split; [exact S|]. intro v.
    destruct (V3_dec v) as [->|N]; [|left; apply Q, N]. unfold quad. destruct (ge_info e). munfold. lra. }
  revert P PS. induction l as [|f l IH]; intros P PS C e a b H A B; [destruct H|].
  cbn [cost fold_right] in C. fold (cost l est) in C.
  assert (L : 0 <= cost l est) by (apply cost_pos; intros; apply PS; right; assumption).
  destruct H as [->|H].
  - rewrite A, B in C. apply misfit_zero. apply vec_zero.
    destruct (V3_dec (vecOf (misfit (est a) (ge_meas e) (est b)))) as [E|N]; [exact E|].
    pose proof (proj2 (P e (or_introl eq_refl)) _ N). lra.
  - apply (IH (fun e H => P e (or_intror H)) (fun e H => PS e (or_intror H))) with (e := e); auto.
    destruct (ge_from f), (ge_to f); try exact C.
    pose proof (proj2 (PS f (or_introl eq_refl)) (vecOf (misfit (est n) (ge_meas f) (est n0)))). lra.
Qed.

(** ** legs *)
Definition prod (l : list T2) : T2 := fold_left t2mul l t2id.
Lemma prod_snoc l t : prod (l ++ [t]) = t2mul (prod l) t.
Proof. unfold prod. rewrite fold_left_app. reflexivity. Qed.
Lemma total_legs log : total log = t2mul (prod (legs log)) (since_node log).
Proof.
  induction log as [|[] r IH]; cbn [total legs since_node]; try exact IH.
  - cbn. symmetry. apply t2mul_id_l.
  - rewrite IH. apply t2mul_assoc.
  - rewrite prod_snoc, IH, t2mul_id_r. reflexivity.
Qed.
Lemma since_legs log : legs log <> [] -> since_frame log = t2mul (last (legs log) t2id) (since_node log).
Proof.
  induction log as [|[] r IH]; cbn [since_frame legs since_node]; intro N; try (apply IH, N).
  - cbn in N. congruence.
  - rewrite (IH N). apply t2mul_assoc.
  - rewrite last_last, t2mul_id_r. reflexivity.
Qed.

Section Quiet.
Context {Body Win Scan Guess D : Type}.
Notation aenv := (aenv Body Win Scan Guess D).
Notation alg := (alg Body Win).

(** Nothing but perhaps a new node, with its constraint. *)
Definition quiet (env : aenv) (a a' : alg) (evs : list aev) : Prop :=
  (a_slam a' = a_slam a /\ made evs = []) \/
  (let N := length (nodes (a_slam a)) in
   length (nodes (a_slam a')) = S N /\ made evs = [N] /\
   (forall k p, (k < N)%nat -> getPoseLocation (a_slam a') k = Ok p -> getPoseLocation (a_slam a) k = Ok p) /\
   getPoseLocation (a_slam a') N = Ok (f_origin (a_frame a)) /\
   exists xs, edges (a_slam a') = edges (a_slam a) ++ xs /\
     forall x, In x xs -> exists ad e, x = Some (ad, e) /\ e_loop e = false).

Lemma same_poses (s s' : slam pose (frame Body) M3) k p : same_nodes (s_graph s) (s_graph s') ->
  getPoseLocation s' k = Ok p -> getPoseLocation s k = Ok p.
Proof.
  intros [L S] H. destruct (getPose_ok _ _ _ H) as (n & E & <-).
  destruct (nth_error (nodes s) k) as [m|] eqn:M.
  - destruct (S _ _ M) as (m' & M' & PM & _). unfold nodes in E. rewrite E in M'. injection M' as <-.
    rewrite (getPose_nth _ _ _ M). congruence.
  - apply nth_error_None in M. unfold nodes in *. rewrite <- L in M. apply nth_error_None in M. congruence.
Qed.
Lemma newNode_quiet (env : aenv) (a : alg) i temp ctemp a' evs : SI (e_senv env) (a_slam a) ->
  aligned (a_slam a) -> (a_first a = true -> nodes (a_slam a) <> []) ->
  newNode env a i temp ctemp = Ok (a', evs) -> no_loop evs -> quiet env a a' evs.
Proof.
  intros I AL FN H NL.
  destruct (newNode_ok env a i temp ctemp a' evs I AL FN H) as (_ & _ & LN & closed & p & EV & GP & CF & _).
  assert (closed = false) by (apply NL; rewrite EV; right; left; reflexivity). subst closed.
  right. cbv zeta. split; [exact LN|]. split; [rewrite EV; reflexivity|]. rewrite GP, (CF eq_refl).
  clear CF GP LN p EV. unfold newNode in H.
  destruct (addPose_SI (e_senv env) (a_slam a) (f_origin (a_frame a)) (a_frame a) I) as [I1 ID].
  destruct (addPose_effect (e_senv env) (a_slam a) (f_origin (a_frame a)) (a_frame a) I) as (GE1 & LN1 & NN1).
  destruct (addPose (e_senv env) (a_slam a) (f_origin (a_frame a)) (a_frame a)) as [s1 id]. cbn [fst snd] in *.
  assert (P1 : forall k p, (k < length (nodes (a_slam a)))%nat -> getPoseLocation s1 k = Ok p -> getPoseLocation (a_slam a) k = Ok p).
  { intros k p K E. destruct (getPose_ok _ _ _ E) as (n & En & <-). unfold nodes in *. rewrite NN1 in En.
    destruct (Nat.eqb_spec k (length (g_nodes (s_graph (a_slam a))))); [lia|]. apply getPose_nth. exact En. }
  apply bind_ok_inv in H. destruct H as (s2 & E2 & H).
  assert (K2 : SI (e_senv env) s2 /\ same_nodes (s_graph s1) (s_graph s2) /\
     exists xs, edges s2 = edges (a_slam a) ++ xs /\ forall x, In x xs -> exists ad e, x = Some (ad, e) /\ e_loop e = false).
  { destruct (a_first a).
    - apply bind_ok_inv in E2. destruct E2 as ([s2' eid] & AC & E2). injection E2 as <-. cbn [fst]. unfold addLastConstrain in AC.
      destruct (addConstrain_ok _ _ _ _ _ _ _ _ _ I1 AC) as (I2 & _ & _ & _ & GE & SN & _).
      split; [exact I2|]. split; [exact SN|]. eexists. unfold edges. rewrite GE, GE1. split; [reflexivity|].
      intros x [<-|[]]. eexists _, _. split; reflexivity.
    - injection E2 as <-. split; [exact I1|]. split; [apply same_nodes_refl|]. exists []. unfold edges. rewrite GE1, app_nil_r.
      split; [reflexivity|]. intros x []. }
  destruct K2 as (I2 & SN2 & xs & X2 & XN).
  apply bind_ok_inv in H. destruct H as ([s3 closed] & E3 & H). unfold tryLoopCloseLast in E3.
  destruct (tryLoopClose_ok _ _ _ _ _ _ _ I2 E3) as (I3 & SN3 & _ & loops & calls & ys & _ & GE3 & _ & CB & _).
  apply bind_ok_inv in H. destruct H as (s4 & E4 & H).
  apply bind_ok_inv in H. destruct H as (after & _ & H). injection H as <- <-.
  assert (CL : closed = false) by (apply NL; cbn; tauto). rewrite CL in E4. cbv iota in E4. injection E4 as <-. cbn [a_slam].
  split; [|split; [reflexivity|]].
  - intros k p K E. apply P1; [exact K|]. eapply same_poses; [exact SN2|]. eapply same_poses; [exact SN3|exact E].
  - exists xs. split; [|exact XN]. unfold edges in *. rewrite GE3, X2. rewrite CL in CB. destruct ys; [rewrite app_nil_r; reflexivity|discriminate].
Qed.
Lemma updateGraph_quiet (env : aenv) (a : alg) i inc cov a' evs log : AC env a log ->
  updateGraph env a i inc cov = Ok (a', evs) -> no_loop evs -> quiet env a a' evs.
Proof.
  intros C H NL. unfold updateGraph in H. destruct (leftWindow _ _).
  - apply bind_ok_inv in H. destruct H as ([a1 ev1] & NN & H). injection H as <- <-. cbn [fst snd] in *.
    assert (FN : a_first a = true -> nodes (a_slam a) <> []).
    { rewrite (ai_first _ _ _ C). intros X E. rewrite E in X. discriminate. }
    assert (NL1 : no_loop ev1) by (intros b B; apply NL; right; exact B).
    pose proof (newNode_quiet env a i _ _ a1 ev1 (ai_SI _ _ _ C) (ai_al _ _ _ C) FN NN NL1) as Q.
    destruct Q as [(A & B)|Q]; [left; split; [exact A|cbn; exact B]|right; cbn [made]; exact Q].
  - injection H as <- <-. left. split; reflexivity.
Qed.
Lemma made_rep l k p : made (l ++ [ARep k p]) = made l.
Proof. rewrite made_app. cbn. apply app_nil_r. Qed.
Lemma update_quiet (env : aenv) (a : alg) i a' evs log : AI env a log ->
  update env a i = Ok (a', evs) -> no_loop evs -> quiet env a a' evs.
Proof.
  intros [C W F M] H NL. unfold update in H.
  destruct (a_init a) eqn:AI0; [|injection H as <- <-; left; split; reflexivity].
  destruct (a_win a) as [w|]; [|discriminate].
  destruct (movedEnough _); [|injection H as <- <-; left; split; reflexivity].
  destruct (i_match i) as [reg|].
  - apply bind_ok_inv in H. destruct H as ([a1 ev1] & UG & H). cbn [fst snd] in H.
    destruct (w_move env _ reg) as [w2 c]. injection H as <- <-.
    eapply updateGraph_quiet with (log := log) in UG; [|eapply AC_same; [exact C|..]; reflexivity|intros b B; apply NL, in_or_app; left; exact B].
    unfold quiet. rewrite made_rep. exact UG.
  - apply bind_ok_inv in H. destruct H as ([a1 ev1] & UG & H). cbn [fst snd] in H. injection H as <- <-.
    eapply updateGraph_quiet with (log := log) in UG; [|eapply AC_same; [exact C|..]; reflexivity|intros b B; apply NL, in_or_app; left; exact B].
    unfold quiet. rewrite made_rep. exact UG.
Qed.

Lemma no_loop_app l l' : no_loop (l ++ l') -> no_loop l /\ no_loop l'.
Proof. intro H. split; intros b B; apply H, in_or_app; auto. Qed.
Lemma no_loop_rev l : no_loop (rev l) -> no_loop l.
Proof. intros H b B. apply H. rewrite <- in_rev. exact B. Qed.

(** The pose of the frame being filled, from the newest node. *)
Lemma frame_after (env : aenv) l (a : alg) log k p : rigid_inputs l -> arun env l = Ok (a, log) ->
  length (nodes (a_slam a)) = S k -> getPoseLocation (a_slam a) k = Ok p ->
  getTransFromPose (f_origin (a_frame a)) = t2mul (getTransFromPose p) (last (legs log) t2id).
Proof.
  intros RG R N P. destruct (arun_ok _ _ _ _ R) as [C _ _ _]. destruct (arun_rigid _ _ _ _ RG R) as [[R1 R2 R3 R4] _].
  pose proof (ai_pos _ _ _ C _ _ N P) as E. rewrite <- R3, (ai_temp _ _ _ C) in E.
  rewrite since_legs in E by (intro X; pose proof (ai_legs _ _ _ C) as L; rewrite X, N in L; discriminate).
  rewrite <- t2mul_assoc in E. rewrite (ai_temp _ _ _ C) in R2.
  assert (Z : t2det (since_node log) <> 0) by (apply rigid_nz, R2).
  rewrite <- (t2mul_id_r (getTransFromPose (f_origin (a_frame a)))), <- (t2inv_r _ Z), <- t2mul_assoc, E, t2mul_assoc, (t2inv_r _ Z).
  apply t2mul_id_r.
Qed.

(** Without loop closures every pose is the product of the legs before it. *)
Lemma poses_legs (env : aenv) l (a : alg) log : rigid_inputs l -> arun env l = Ok (a, log) -> no_loop log ->
  (forall k p, getPoseLocation (a_slam a) k = Ok p -> getTransFromPose p = prod (firstn k (legs log))) /\
  (forall x, In x (edges (a_slam a)) -> exists ad e, x = Some (ad, e) /\ e_loop e = false).
Proof.
  revert a log. induction l as [|i l IH] using rev_ind; intros a log RG R NL.
  - injection R as <- <-. cbn. split; [intros [|k] p H; discriminate|intros x []].
  - destruct (arun_snoc _ _ _ _ R) as (a0 & log0 & a' & evs & R0 & U & E). injection E as -> ->.
    destruct (no_loop_app _ _ NL) as [NE NL0]. apply no_loop_rev in NE.
    pose proof RG as RG'. apply Forall_app in RG'. destruct RG' as [RG0 _].
    destruct (IH _ _ RG0 R0 NL0) as [IP IE].
    pose proof (arun_ok _ _ _ _ R0) as A0. pose proof (arun_ok _ _ _ _ R) as A1.
    pose proof (ai_legs _ _ _ (ai_core _ _ _ A0)) as L0. pose proof (ai_legs _ _ _ (ai_core _ _ _ A1)) as L1.
    assert (LG : made evs = [] -> legs (rev evs ++ log0) = legs log0).
    { intro ME. clear - ME. assert (forall r, made r = [] -> legs (r ++ log0) = legs log0).
      { induction r as [|[] r IH]; cbn; intro X; auto; discriminate. }
      apply H. rewrite <- (rev_involutive evs) in ME. revert ME. generalize (rev evs). clear. induction l as [|x l IH]; [auto|].
      cbn [rev]. rewrite made_app. intro X. apply app_eq_nil in X. destruct X as [X1 X2]. destruct x; cbn in *; auto; discriminate. }
    assert (LP : forall n, made evs = [n] -> exists t, legs (rev evs ++ log0) = legs log0 ++ [t]).
    { intros n ME. assert (G : forall r, made r = [n] -> exists t, legs (r ++ log0) = legs log0 ++ [t]).
      { clear. induction r as [|x r IH]; [discriminate|]. destruct x; cbn; intro X; try (apply IH, X).
        injection X as -> X. exists (since_node (r ++ log0)). f_equal. clear - X. induction r as [|[] r IH]; cbn in *; auto; discriminate. }
      apply G. clear - ME. assert (forall l, made (rev l) = rev (made l)).
      { induction l as [|x l IH]; [reflexivity|]. cbn [rev]. rewrite made_app, IH. destruct x; cbn; rewrite ?app_nil_r; reflexivity. }
      rewrite H, ME. reflexivity. }
    destruct (update_quiet env a0 i a' evs log0 A0 U NE) as [(SA & ME)|(LN & ME & OLD & NEW & xs & XE & XN)].
    + rewrite SA, (LG ME). split; [exact IP|exact IE].
    + destruct (LP _ ME) as (t & LT). rewrite LT. split.
      * intros k p P. destruct (getPose_ok _ _ _ P) as (n & En & _). apply nth_error_lt in En. rewrite LN in En.
        set (N := length (nodes (a_slam a0))) in *. destruct (Nat.eq_dec k N) as [->|K].
        -- rewrite NEW in P. injection P as <-. rewrite firstn_app, <- L0, Nat.sub_diag, firstn_all, app_nil_r.
           pose proof (arun_rigid _ _ _ _ RG0 R0) as [[R1 R2 R3 R4] _]. rewrite (R4 NL0), total_legs, (ai_temp _ _ _ (ai_core _ _ _ A0)) in R3.
           rewrite (ai_temp _ _ _ (ai_core _ _ _ A0)) in R2. assert (Z : t2det (since_node log0) <> 0) by (apply rigid_nz, R2).
           rewrite <- (t2mul_id_r (getTransFromPose (f_origin (a_frame a0)))), <- (t2inv_r _ Z), <- t2mul_assoc, R3, t2mul_assoc, (t2inv_r _ Z).
           apply t2mul_id_r.
        -- assert (K' : (k < N)%nat) by lia. rewrite (IP k p (OLD k p K' P)), firstn_app.
           replace (k - length (legs log0))%nat with 0%nat by lia. rewrite firstn_O, app_nil_r. reflexivity.
      * intros x X. rewrite XE in X. apply in_app_or in X. destruct X; auto.
Qed.

Lemma prod_nth l k : (k < length l)%nat -> prod (firstn (S k) l) = t2mul (prod (firstn k l)) (nth k l t2id).
Proof.
  intro K. rewrite <- (firstn_skipn k l) at 1 3. rewrite firstn_app, app_nth2; rewrite firstn_length_le by lia; [|lia].
  replace (S k - k)%nat with 1%nat by lia. rewrite Nat.sub_diag, firstn_all2 by (rewrite firstn_length_le; lia).
  destruct (skipn k l) as [|x r] eqn:E; [apply (f_equal (@length T2)) in E; rewrite skipn_length in E; cbn in E; lia|].
  cbn [firstn nth]. apply prod_snoc.
Qed.

Lemma getEdge_slot (g : graph pose (frame Body) M3) id e : getEdge g id = Ok e -> exists ad, nth_error (g_edges g) id = Some (Some (ad, e)).
Proof.
  unfold getEdge. destruct (_ <=? _)%nat; [discriminate|]. destruct (existsb _ _); [discriminate|]. unfold vget.
  destruct (nth_error (g_edges g) id) as [[[ad e']|]|]; cbn; intro H; try discriminate. injection H as ->. eauto.
Qed.
Lemma slot_getEdge (g : graph pose (frame Body) M3) id ad e : g_pool g = [] -> nth_error (g_edges g) id = Some (Some (ad, e)) -> getEdge g id = Ok e.
Proof.
  intros P H. unfold getEdge. pose proof (nth_error_lt _ _ _ H) as L. destruct (Nat.leb_spec (length (g_edges g)) id); [lia|].
  rewrite P. cbn [existsb]. unfold vget. rewrite H. reflexivity.
Qed.
Lemma odo_slot x : forall l : list (option (addr * edge pose M3)), In x (odo_constraints l) ->
  exists k a e, nth_error l k = Some (Some (a, e)) /\ e_loop e = false /\ (e_from e, e_to e, e_trans e) = x.
Proof.
  clear. induction l as [|[[a e]|] t IH]; cbn; [intros []| |].
  - destruct (e_loop e) eqn:L.
    + intro H. destruct (IH H) as (k & X). exists (S k). exact X.
    + intros [H|H]; [exists 0%nat, a, e; auto|]. destruct (IH H) as (k & X). exists (S k). exact X.
  - intro H. destruct (IH H) as (k & X). exists (S k). exact X.
Qed.

Lemma edge_leg (env : aenv) l (a : alg) log id e : arun env l = Ok (a, log) -> getEdge (s_graph (a_slam a)) id = Ok e ->
  e_loop e = false -> exists k, (S k < length (nodes (a_slam a)))%nat /\ e_from e = k /\ e_to e = S k /\
    e_trans e = getPoseFromTransform (nth k (legs log) t2id).
Proof.
  intros R G L. destruct (arun_ok _ _ _ _ R) as [C _ _ _].
  assert (IN : In (e_from e, e_to e, e_trans e) (odo_constraints (edges (a_slam a)))).
  { destruct (getEdge_slot _ _ _ G) as (ad & S). change (nth_error (edges (a_slam a)) id = Some (Some (ad, e))) in S.
    apply nth_error_In in S. clear - S L. induction (edges (a_slam a)) as [|x r IH]; [destruct S|].
    destruct S as [->|S]; cbn.
    - rewrite L. left. reflexivity.
    - specialize (IH S). destruct x as [[ad' e']|]; [destruct (e_loop e'); [|right]|]; exact IH. }
  rewrite (ai_odo _ _ _ C) in IN. apply in_map_iff in IN. destruct IN as (k & E & K). apply in_seq in K.
  injection E as E1 E2 E3. exists k. split; [lia|]. auto.
Qed.

Theorem all_fit (env : aenv) l (a : alg) log : rigid_inputs l -> arun env l = Ok (a, log) -> no_loop log ->
  forall id e p q, getEdge (s_graph (a_slam a)) id = Ok e ->
    getPoseLocation (a_slam a) (e_from e) = Ok p -> getPoseLocation (a_slam a) (e_to e) = Ok q -> fits p (e_trans e) q.
Proof.
  intros RG R NL id e p q G P Q. destruct (poses_legs env l a log RG R NL) as [PL EL].
  assert (L : e_loop e = false).
  { destruct (getEdge_slot _ _ _ G) as (ad & S). apply nth_error_In in S.
    destruct (EL _ S) as (ad' & e' & X & LL). injection X as <- <-. exact LL. }
  destruct (edge_leg env l a log id e R G L) as (k & K & FR & TO & TR). rewrite FR in P. rewrite TO in Q. rewrite TR.
  apply fits_trans. destruct (arun_ok _ _ _ _ R) as [C _ _ _]. pose proof (ai_legs _ _ _ C) as LL.
  rewrite (PL _ _ Q), prod_nth, <- (PL _ _ P) by lia. f_equal. symmetry. apply trans_of_pose.
  assert (E : nth k (legs log) t2id = t2mul (t2inv (getTransFromPose p)) (getTransFromPose q)).
  { rewrite (PL _ _ Q), prod_nth, <- (PL _ _ P), <- t2mul_assoc by lia. rewrite t2inv_l by apply rigid_nz, rigid_pose. symmetry. apply t2mul_id_l. }
  rewrite E. apply rigid_mul; [apply rigid_inv|]; apply rigid_pose.
Qed.

Theorem newest_fits (env : aenv) l i (a : alg) log a' evs k p q : rigid_inputs (l ++ [i]) -> arun env l = Ok (a, log) ->
  update env a i = Ok (a', evs) -> In (ANode (S k)) evs -> no_loop evs ->
  getPoseLocation (a_slam a') k = Ok p -> getPoseLocation (a_slam a') (S k) = Ok q ->
  (exists id e, getEdge (s_graph (a_slam a')) id = Ok e /\ e_from e = k /\ e_to e = S k /\ e_loop e = false) /\
  forall id e, getEdge (s_graph (a_slam a')) id = Ok e -> e_from e = k -> e_to e = S k -> e_loop e = false -> fits p (e_trans e) q.
Proof.
  intros RG R U IN NE P Q. apply Forall_app in RG. destruct RG as [RG RI].
  pose proof (arun_step _ _ _ _ _ _ _ R U) as R'. pose proof (arun_ok _ _ _ _ R) as A0. pose proof (arun_ok _ _ _ _ R') as A1.
  assert (MI : In (S k) (made evs)).
  { clear - IN. induction evs as [|x r IH]; [destruct IN|]. destruct IN as [->|IN]; [left; reflexivity|]. specialize (IH IN). destruct x; cbn; auto. }
  destruct (update_quiet env a i a' evs log A0 U NE) as [(SA & ME)|(LN & ME & OLD & NEW & xs & XE & XN)]; [rewrite ME in MI; destruct MI|].
  rewrite ME in MI. destruct MI as [MI|[]]. rewrite <- MI in Q. rewrite NEW in Q. injection Q as <-.
  assert (P0 : getPoseLocation (a_slam a) k = Ok p) by (apply OLD; [lia|exact P]).
  pose proof (frame_after env l a log k p RG R MI P0) as F.
  pose proof (ai_legs _ _ _ (ai_core _ _ _ A0)) as L0.
  assert (NTH : nth k (legs (rev evs ++ log)) t2id = last (legs log) t2id).
  { assert (LP : exists t, legs (rev evs ++ log) = legs log ++ [t]).
    { assert (G : forall r n, made r = [n] -> exists t, legs (r ++ log) = legs log ++ [t]).
      { clear. induction r as [|x r IH]; intros n; [discriminate|]. destruct x; cbn; intro X; try (eapply IH, X).
        injection X as -> X. exists (since_node (r ++ log)). f_equal. clear - X. induction r as [|[] r IH]; cbn in *; auto; discriminate. }
      apply G with (n := length (nodes (a_slam a))). assert (V : forall l, made (rev l) = rev (made l)).
      { clear. induction l as [|x l IH]; [reflexivity|]. cbn [rev]. rewrite made_app, IH. destruct x; cbn; rewrite ?app_nil_r; reflexivity. }
      rewrite V, ME. reflexivity. }
    destruct LP as (t & ->). rewrite app_nth1 by lia. rewrite last_nth. f_equal. lia. }
  split.
  - pose proof (ai_odo _ _ _ (ai_core _ _ _ A1)) as OD. rewrite LN in OD.
    assert (IO : In (k, S k, getPoseFromTransform (nth k (legs (rev evs ++ log)) t2id)) (odo_constraints (edges (a_slam a')))).
    { rewrite OD. apply in_map_iff. exists k. split; [reflexivity|]. apply in_seq. lia. }
    destruct (odo_slot _ _ IO) as (id & ad & e & HE & HL & HX). injection HX as X1 X2 X3.
    exists id, e. split; [|auto]. exact (slot_getEdge _ _ _ _ (si_pool _ _ (ai_SI _ _ _ (ai_core _ _ _ A1))) HE).
  - intros id e G FR TO L. destruct (edge_leg env _ a' _ id e R' G L) as (k' & _ & FR' & _ & TR).
    assert (k' = k) by congruence. subst k'. rewrite TR, FR, NTH. apply fits_trans. rewrite F. f_equal. symmetry. apply trans_of_pose.
    assert (E : last (legs log) t2id = t2mul (t2inv (getTransFromPose p)) (getTransFromPose (f_origin (a_frame a)))).
    { rewrite F, <- t2mul_assoc, t2inv_l by apply rigid_nz, rigid_pose. symmetry. apply t2mul_id_l. }
    rewrite E. apply rigid_mul; [apply rigid_inv|]; apply rigid_pose.
Qed.

(** ** the optimiser's task without loop closures *)
Lemma fits_same z z' x y : same_pose z' z -> fits x z' y <-> fits x z y.
Proof. rewrite !fits_trans, same_iff. intros ->. reflexivity. Qed.

Lemma gedge_edge (env : aenv) l (a : alg) log ge : arun env l = Ok (a, log) -> In ge (s_gedges (a_slam a)) ->
  exists id e, getEdge (s_graph (a_slam a)) id = Ok e /\ ge_from ge = Some (e_from e) /\ ge_to ge = Some (e_to e) /\
    ge_meas ge = e_se2 env (e_trans e) /\ ge_info ge = e_odo env.
Proof.
  intros R H. destruct (arun_ok _ _ _ _ R) as [C _ _ _]. pose proof (ai_SI _ _ _ C) as I.
  apply In_nth_error in H. destruct H as (id & H). pose proof (nth_error_lt _ _ _ H) as L. rewrite (si_gelen _ _ I) in L.
  destruct (si_some _ _ I id L) as (ad & e & SL & _ & OI). rewrite (si_ge _ _ I _ _ _ SL) in H. injection H as <-.
  exists id, e. split; [exact (slot_getEdge _ _ _ _ (si_pool _ _ I) SL)|]. cbn. auto.
Qed.

Theorem best (env : aenv) l (a : alg) log here : rigid_inputs l -> arun env l = Ok (a, log) -> no_loop log ->
  (forall z, same_pose (e_se2 env z) z) -> (forall k p, getPoseLocation (a_slam a) k = Ok p -> here k = p) ->
  cost (s_gedges (a_slam a)) here = 0 /\
  (psd (e_odo env) -> forall est, 0 <= cost (s_gedges (a_slam a)) est).
Proof.
  intros RG R NL SE HE. destruct (arun_ok _ _ _ _ R) as [C _ _ _]. split.
  - apply cost_zero. intros ge x y H GF GT. destruct (gedge_edge env l a log ge R H) as (id & e & G & F & T & M & _).
    rewrite F in GF. rewrite T in GT. injection GF as <-. injection GT as <-. rewrite M. apply (fits_same _ _ _ _ (SE (e_trans e))).
    assert (PO : forall k, (k < length (nodes (a_slam a)))%nat -> getPoseLocation (a_slam a) k = Ok (here k)).
    { intros k K. apply nth_error_Some in K. destruct (nth_error (nodes (a_slam a)) k) as [n|] eqn:E; [|congruence].
      pose proof (getPose_nth _ _ _ E) as P. rewrite P. f_equal. symmetry. apply (HE k), P. }
    destruct (getEdge_slot _ _ _ G) as (ad & S). destruct (poses_legs env l a log RG R NL) as [_ EL].
    destruct (EL _ (nth_error_In _ _ S)) as (ad' & e' & X & L). injection X as <- <-.
    destruct (edge_leg env l a log id e R G L) as (k & K & FR & TO & _).
    apply (all_fit env l a log RG R NL id e); [exact G|rewrite FR|rewrite TO]; apply PO; lia.
  - intros PS est. apply cost_pos. intros ge H. destruct (gedge_edge env l a log ge R H) as (id & e & _ & _ & _ & _ & ->). exact PS.
Qed.

Theorem only (env : aenv) l (a : alg) log est : rigid_inputs l -> arun env l = Ok (a, log) -> no_loop log ->
  (forall z, same_pose (e_se2 env z) z) -> posdef (e_odo env) -> cost (s_gedges (a_slam a)) est = 0 ->
  (forall p, getPoseLocation (a_slam a) 0 = Ok p -> same_pose (est 0%nat) p) ->
  forall k p, getPoseLocation (a_slam a) k = Ok p -> same_pose (est k) p.
Proof.
  intros RG R NL SE PD CZ H0. destruct (arun_ok _ _ _ _ R) as [C _ _ _]. pose proof (ai_SI _ _ _ C) as I.
  assert (FT : forall e x y, In e (s_gedges (a_slam a)) -> ge_from e = Some x -> ge_to e = Some y -> fits (est x) (ge_meas e) (est y)).
  { apply cost_zero_fits; [|exact CZ]. intros ge H. destruct (gedge_edge env l a log ge R H) as (id & e & _ & _ & _ & _ & ->). exact PD. }
  assert (PO : forall k, (k < length (nodes (a_slam a)))%nat -> exists p, getPoseLocation (a_slam a) k = Ok p).
  { intros k K. apply nth_error_Some in K. destruct (nth_error (nodes (a_slam a)) k) as [n|] eqn:E; [|congruence].
    exists (n_pose n). apply getPose_nth, E. }
  induction k as [|k IH]; intros p P; [apply H0, P|].
  destruct (getPose_ok _ _ _ P) as (n & En & _). pose proof (nth_error_lt _ _ _ En) as KL.
  destruct (PO k ltac:(lia)) as (q & Q). specialize (IH q Q).
  assert (IO : In (k, S k, getPoseFromTransform (nth k (legs log) t2id)) (odo_constraints (edges (a_slam a)))).
  { rewrite (ai_odo _ _ _ C). apply in_map_iff. exists k. split; [reflexivity|]. apply in_seq. lia. }
  destruct (odo_slot _ _ IO) as (id & ad & e & HE & HL & HX). injection HX as X1 X2 X3.
  pose proof (slot_getEdge _ _ _ _ (si_pool _ _ I) HE) as GE.
  pose proof (si_ge _ _ I id ad e HE) as SG.
  pose proof (FT _ _ _ (nth_error_In _ _ SG) eq_refl eq_refl) as F1. cbn [ge_meas] in F1. apply (fits_same _ _ _ _ (SE (e_trans e))) in F1.
  pose proof (all_fit env l a log RG R NL id e q p GE ltac:(rewrite X1; exact Q) ltac:(rewrite X2; exact P)) as F2.
  rewrite X1, X2 in F1. apply fits_trans in F1. apply fits_trans in F2. apply same_iff in IH. apply same_iff. rewrite F1, F2, IH. reflexivity.
Qed.
End Quiet.
