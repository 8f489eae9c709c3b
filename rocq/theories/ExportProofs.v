(** Proofs about the output of the graph. *)
From Coq Require Import List ZArith Bool Arith Lia.
From Verif Require Import Base GraphModel GraphSpec GraphProofs LoopModel LoopProofs SlamModel SlamSpec SlamProofs ExportModel ExportSpec.
Import ListNotations.
Open Scope nat_scope.
Set Default Proof Using "Type".

Section Typed.
Context {Pose Obj Info Guess D : Type}.
Notation slam := (slam Pose Obj Info).
Notation senv := (senv Pose Obj Info Guess D).
Notation edge := (edge Pose Info).
Notation node := (node Pose Obj).

(** Constraints of the caller are odometry, all others are loops. *)
Definition typed (s : slam) (log : list (sev Pose Obj Info)) : Prop :=
  (forall id, length (g_edges (s_graph s)) <= id -> known_constr log id = None) /\
  (forall id a e, slot (s_graph s) id = Some (Some (a, e)) ->
    e_loop e = match known_constr log id with Some _ => false | None => true end).

Lemma typed_loops (env : senv) ch fresh (s : slam) id s' b log : SI env s -> typed s log ->
  tryLoopClose env ch fresh s id = Ok (s', b) -> typed s' (SvLoop b :: log).
Proof.
  intros I [T1 T2] TL. destruct (tryLoopClose_ok _ _ _ _ _ _ _ I TL) as (_ & _ & _ & loops & calls & xs & _ & GE & F & _).
  split.
  - intros k K. apply T1. rewrite GE, app_length in K. lia.
  - intros k a e S. cbn [known_constr]. unfold slot in S. rewrite GE in S.
    destruct (Nat.lt_ge_cases k (length (g_edges (s_graph s)))) as [L|L].
    + rewrite nth_error_app1 in S by auto. apply (T2 k a e S).
    + rewrite nth_error_app2 in S by auto. rewrite (T1 k L).
      revert S. generalize (k - length (g_edges (s_graph s))). clear - F.
      induction F as [|c x l l' C F IH]; intros [|n] S; cbn in S; try discriminate; [|eauto].
      destruct C as (a' & e' & -> & _ & _ & _ & E). injection S as -> ->. exact E.
Qed.
Lemma typed_constr (env : senv) a f t tr i (s : slam) s' id log ev : SI env s -> typed s log ->
  addConstrain env s a f t tr i = Ok (s', id) ->
  (forall k, known_constr (ev :: log) k = if id =? k then match known_constr (ev :: log) id with Some x => Some x | None => None end else known_constr log k) ->
  known_constr (ev :: log) id <> None ->
  typed s' (ev :: log).
Proof.
  intros I [T1 T2] AC K KN.
  destruct (addConstrain_ok _ _ _ _ _ _ _ _ _ I AC) as (I1 & EID & HF & HT & GE & SN & SV).
  split.
  - intros k L. rewrite K. rewrite GE, app_length in L. cbn in L. destruct (Nat.eqb_spec id k); [lia|]. apply T1. lia.
  - intros k b e S. rewrite K. unfold slot in S. rewrite GE, nth_error_snoc, <- EID in S. rewrite Nat.eqb_sym in S.
    destruct (Nat.eqb_spec id k) as [E|NE].
    + injection S as <- <-. cbn [e_loop]. destruct (known_constr (ev :: log) id); [reflexivity|congruence].
    + apply (T2 k b e S).
Qed.
Lemma typed_step (env : senv) (s : slam) log o s' ev : SI env s -> log_ok env s log -> typed s log ->
  sstep env s o = Ok (s', ev) -> typed s' (ev :: log).
Proof.
  intros I L T H. destruct o as [p x|a f t tr i|a tr i|id ch fresh|ch fresh|est]; cbn [sstep] in H.
  - destruct (addPose env s p x) as [s1 id] eqn:E. injection H as <- <-.
    destruct (addPose_effect env s p x I) as (GE & _). rewrite E in GE. cbn [fst] in GE.
    destruct T as [T1 T2]. split; [rewrite GE; exact T1|]. unfold slot. rewrite GE. exact T2.
  - apply bind_ok_inv in H. destruct H as ([s1 id] & AC & H). cbn [fst snd] in H. injection H as <- <-.
    try unfold addLastConstrain in AC. eapply (typed_constr env); [exact I|exact T|exact AC| |]; cbn [known_constr]; rewrite Nat.eqb_refl; [|discriminate].
    intros k. destruct (id =? k); reflexivity.
  - apply bind_ok_inv in H. destruct H as ([s1 id] & AC & H). cbn [fst snd] in H. injection H as <- <-.
    try unfold addLastConstrain in AC. eapply (typed_constr env); [exact I|exact T|exact AC| |]; cbn [known_constr]; rewrite Nat.eqb_refl; [|discriminate].
    intros k. destruct (id =? k); reflexivity.
  - apply bind_ok_inv in H. destruct H as ([s1 b] & TL & H). cbn [fst snd] in H. injection H as <- <-.
    eapply typed_loops; [exact I|exact T|exact TL].
  - apply bind_ok_inv in H. destruct H as ([s1 b] & TL & H). cbn [fst snd] in H. injection H as <- <-.
    eapply typed_loops; [exact I|exact T|exact TL].
  - destruct (optimalize_ok env s est I) as (s1 & O & I1 & GE & _).
    rewrite O in H. cbn [bind fst] in H. injection H as <- <-.
    destruct T as [T1 T2]. split; [rewrite GE; exact T1|]. unfold slot. rewrite GE. exact T2.
Qed.
Lemma typed_log_step (env : senv) (s : slam) log o s' log' : SI env s -> log_ok env s log -> typed s log ->
  sstep_log env (s, log) o = Ok (s', log') -> SI env s' /\ log_ok env s' log' /\ typed s' log'.
Proof.
  intros I L T H. unfold sstep_log in H. cbn [fst snd] in H.
  destruct (sstep env s o) as [[s2 ev]| |] eqn:S; [|discriminate|]; injection H as <- <-.
  - destruct (sstep_ok _ _ _ _ _ _ I L S) as [A B]. split; [exact A|]. split; [exact B|]. exact (typed_step _ _ _ _ _ _ I L T S).
  - split; [exact I|]. split; [apply log_ok_throw; exact L|exact T].
Qed.
Lemma log_ok_init (env : senv) : log_ok env (slam_init : slam) [].
Proof.
  split; [reflexivity|]. split; [reflexivity|]. split; [discriminate|]. split; [|split; discriminate].
  intro id. cbn. split; [lia|congruence].
Qed.
Lemma typed_init : typed (slam_init : slam) [].
Proof. split; [reflexivity|]. intros [|] a e; discriminate. Qed.
Lemma typed_run (env : senv) l (s : slam) log : srun env l = Ok (s, log) -> typed s log.
Proof.
  unfold srun. revert s log. assert (G : forall (s0 : slam) log0 s log, SI env s0 -> log_ok env s0 log0 -> typed s0 log0 ->
    foldM (sstep_log env) l (s0, log0) = Ok (s, log) -> typed s log).
  { induction l as [|o l IH]; intros s0 log0 s log I L T H; cbn [foldM] in H.
    - injection H as <- <-. exact T.
    - apply bind_ok_inv in H. destruct H as ([s1 log1] & E & H).
      destruct (typed_log_step _ _ _ _ _ _ I L T E) as (A & B & C). eauto. }
  intros s log. apply G; [apply SI_init|apply log_ok_init|apply typed_init].
Qed.

(** ** Traversal of a graph whose edges are all there *)
Lemma iter_all {A} null : forall (l : list (option A)) xs, l = map Some xs -> iter_pre (Some null) (length l) l = Ok xs.
Proof.
  intros l xs ->. rewrite map_length. induction xs as [|x xs IH]; [reflexivity|]. cbn [length map iter_pre].
  assert (skip_pre (Some null) (map Some xs) = Ok (map Some xs)) as ->.
  { destruct xs; [destruct null|]; reflexivity. }
  cbn [bind]. rewrite IH. reflexivity.
Qed.
Lemma all_there (env : senv) (s : slam) : SI env s -> exists es, g_edges (s_graph s) = map Some es.
Proof.
  intros I. pose proof (si_some _ _ I) as S. unfold slot in S. revert S.
  generalize (g_edges (s_graph s)). induction l as [|x l IH]; intros S; [exists []; reflexivity|].
  destruct IH as [es E].
  { intros id L. apply (S (Datatypes.S id)). cbn. lia. }
  destruct (S 0 ltac:(cbn; lia)) as (a & e & X & _). cbn in X. injection X as ->.
  exists ((a, e) :: es). cbn. f_equal. exact E.
Qed.
Lemma visit_all (env : senv) (s : slam) null : SI env s -> exists es, visitEdgesPre (Some null) (s_graph s) = Ok es /\
  g_edges (s_graph s) = map Some es.
Proof.
  intros I. destruct (all_there env s I) as [es E]. exists es. split; [|exact E].
  apply iter_all. exact E.
Qed.

Lemma edge_nodes (env : senv) (s : slam) id a e : SI env s -> slot (s_graph s) id = Some (Some (a, e)) ->
  exists nf nt, vget (g_nodes (s_graph s)) (e_from e) = Ok nf /\ vget (g_nodes (s_graph s)) (e_to e) = Ok nt /\
    n_id nf = e_from e /\ n_id nt = e_to e /\ getConstrainPoses s id = Ok (e_from e, e_to e) /\
    getPoseLocation s (e_from e) = Ok (n_pose nf) /\ getPoseLocation s (e_to e) = Ok (n_pose nt).
Proof.
  intros I S. pose proof (r_inv _ (si_ready _ _ I)) as IV.
  destruct (inv_edge _ IV _ _ _ S) as (_ & HF & HT).
  destruct (nth_error (g_nodes (s_graph s)) (e_from e)) as [nf|] eqn:NF; [|apply nth_error_None in NF; lia].
  destruct (nth_error (g_nodes (s_graph s)) (e_to e)) as [nt|] eqn:NT; [|apply nth_error_None in NT; lia].
  destruct (inv_node _ IV _ _ NF) as (IF & _). destruct (inv_node _ IV _ _ NT) as (IT & _).
  exists nf, nt. unfold getConstrainPoses, getPoseLocation, vget.
  rewrite (getEdge_slot _ id IV), S, !getNode_nth. cbn [bind]. rewrite NF, NT. cbn [bind]. rewrite IF, IT. auto 10.
Qed.
Lemma edges_grow (env : senv) (s : slam) log o s' log' : SI env s -> sstep_log env (s, log) o = Ok (s', log') ->
  length (g_edges (s_graph s)) <= length (g_edges (s_graph s')).
Proof.
  intros I H. unfold sstep_log in H. cbn [fst snd] in H.
  destruct (sstep env s o) as [[s2 ev]| |] eqn:S; [|discriminate|]; injection H as <- <-; [|lia].
  destruct o as [p x|a f t tr i|a tr i|id ch fresh|ch fresh|est]; cbn [sstep] in S.
  - destruct (addPose env s p x) as [s1 id] eqn:E. injection S as <- <-.
    destruct (addPose_effect env s p x I) as (GE & _). rewrite E in GE. cbn [fst] in GE. rewrite GE. lia.
  - apply bind_ok_inv in S. destruct S as ([s1 id] & AC & S). cbn [fst snd] in S. injection S as <- <-.
    try unfold addLastConstrain in AC.
    destruct (addConstrain_ok _ _ _ _ _ _ _ _ _ I AC) as (_ & _ & _ & _ & GE & _). rewrite GE, app_length. lia.
  - apply bind_ok_inv in S. destruct S as ([s1 id] & AC & S). cbn [fst snd] in S. injection S as <- <-.
    try unfold addLastConstrain in AC.
    destruct (addConstrain_ok _ _ _ _ _ _ _ _ _ I AC) as (_ & _ & _ & _ & GE & _). rewrite GE, app_length. lia.
  - apply bind_ok_inv in S. destruct S as ([s1 b] & TL & S). cbn [fst snd] in S. injection S as <- <-.
    destruct (tryLoopClose_ok _ _ _ _ _ _ _ I TL) as (_ & _ & _ & loops & calls & xs & _ & GE & _). rewrite GE, app_length. lia.
  - apply bind_ok_inv in S. destruct S as ([s1 b] & TL & S). cbn [fst snd] in S. injection S as <- <-.
    destruct (tryLoopClose_ok _ _ _ _ _ _ _ I TL) as (_ & _ & _ & loops & calls & xs & _ & GE & _). rewrite GE, app_length. lia.
  - destruct (optimalize_ok env s est I) as (s1 & O & I1 & GE & _).
    rewrite O in S. cbn [bind fst] in S. injection S as <- <-. rewrite GE. lia.
Qed.
End Typed.

Section Proofs.
Context {Pose Obj Info Guess D P : Type}.
Notation slam := (slam Pose Obj Info).
Notation senv := (senv Pose Obj Info Guess D).
Notation edge := (edge Pose Info).
Notation node := (node Pose Obj).
Variable xy : Pose -> P.
Lemma arrows_loop (env : senv) (s : slam) log : SI env s -> typed s log -> forall es pre ms,
  g_edges (s_graph s) = map Some (pre ++ es) -> length ms = length pre ->
  (forall id m, nth_error ms id = Some m -> arrow_of xy s log id m) ->
  exists ms', foldM (addArrow xy s) es (ms, length pre) = Ok (ms', length (pre ++ es)) /\ length ms' = length (pre ++ es) /\
    forall id m, nth_error ms' id = Some m -> arrow_of xy s log id m.
Proof.
  intros I [T1 T2]. induction es as [|[a e] es IH]; intros pre ms GE LM H.
  - exists ms. rewrite app_nil_r. auto.
  - assert (S : slot (s_graph s) (length pre) = Some (Some (a, e))).
    { unfold slot. rewrite GE, nth_error_map, nth_error_app2, Nat.sub_diag by lia. reflexivity. }
    destruct (edge_nodes env s _ a e I S) as (nf & nt & VF & VT & _ & _ & GP & PF & PT).
    cbn [foldM addArrow snd]. rewrite VF, VT. cbn [bind].
    set (m := mkArrow _ _ _ _).
    destruct (IH (pre ++ [(a, e)]) (ms ++ [m])) as (ms' & F & L & A).
    + rewrite <- app_assoc. exact GE.
    + rewrite !app_length. cbn. lia.
    + intros id x X. rewrite nth_error_snoc, LM in X. destruct (Nat.eqb_spec id (length pre)) as [->|NE]; [|auto].
      injection X as <-. split; [reflexivity|]. exists (e_from e), (e_to e), (n_pose nf), (n_pose nt).
      split; [exact GP|]. split; [exact PF|]. split; [exact PT|]. split; [reflexivity|]. split; [reflexivity|].
      cbn [ar_colour m]. rewrite (T2 _ _ _ S). destruct (known_constr log (length pre)); reflexivity.
    + rewrite app_length in F. cbn [length] in F. rewrite Nat.add_1_r in F. rewrite <- app_assoc in *. eauto.
Qed.
Lemma markers_SI (env : senv) (s : slam) log null : SI env s -> typed s log ->
  exists ms, graphMarkers xy (Some null) s = Ok ms /\ length ms = length (g_edges (s_graph s)) /\
    forall id m, nth_error ms id = Some m -> arrow_of xy s log id m.
Proof.
  intros I T. destruct (visit_all env s null I) as (es & V & GE).
  destruct (arrows_loop env s log I T es [] []) as (ms & F & L & A); [exact GE|reflexivity|intros [|]; discriminate|].
  exists ms. unfold graphMarkers. rewrite V. cbn [bind app length] in *. rewrite F. cbn [bind fst].
  split; [reflexivity|]. split; [rewrite L, GE, map_length; reflexivity|exact A].
Qed.
Theorem markers (env : senv) l (s : slam) log null : srun env l = Ok (s, log) ->
  exists ms, graphMarkers xy (Some null) s = Ok ms /\
    (forall id, getConstrainPoses s id <> Throw <-> id < length ms) /\
    forall id m, nth_error ms id = Some m -> arrow_of xy s log id m.
Proof.
  intros R. destruct (srun_ok _ _ _ _ R) as [I L]. destruct (markers_SI env s log null I (typed_run _ _ _ _ R)) as (ms & M & LM & A).
  exists ms. split; [exact M|]. split; [|exact A]. intros id. rewrite LM. split.
  - intros N. destruct (Nat.lt_ge_cases id (length (g_edges (s_graph s)))) as [|G]; [auto|]. exfalso. apply N.
    unfold getConstrainPoses, getEdge. rewrite (proj2 (Nat.leb_le _ _) G). reflexivity.
  - intros G. destruct (si_some _ _ I id G) as (a & e & S & _).
    destruct (edge_nodes env s id a e I S) as (_ & _ & _ & _ & _ & _ & GP & _). rewrite GP. discriminate.
Qed.
Theorem markers_strict (env : senv) l (s : slam) log : srun env l = Ok (s, log) -> getConstrainPoses s 0 <> Throw ->
  graphMarkers xy None s = UB.
Proof.
  intros R N. destruct (srun_ok _ _ _ _ R) as [I L]. destruct (all_there env s I) as [es E].
  unfold graphMarkers, visitEdgesPre. rewrite E, map_length.
  destruct es as [|x es].
  { exfalso. apply N. unfold getConstrainPoses, getEdge. rewrite E. reflexivity. }
  assert (G : forall (x : addr * edge) es, iter_pre None (length (x :: es)) (map Some (x :: es)) = UB).
  { clear. intros x es. revert x. induction es as [|y es IH]; intros x; [reflexivity|].
    specialize (IH y). cbn [length map] in *. remember (S (length es)) as n. cbn [iter_pre skip_pre bind]. rewrite IH. reflexivity. }
  rewrite G. reflexivity.
Qed.

(** ** Text *)
Lemma lines_loop (env : senv) (s : slam) : SI env s -> forall es pre ls,
  g_edges (s_graph s) = map Some (pre ++ es) ->
  exists ls', foldM (edgeLine s) es ls = Ok (ls ++ ls') /\ length ls' = length es /\
    forall k x, nth_error ls' k = Some x -> exists f t, getConstrainPoses s (length pre + k) = Ok (f, t) /\ x = LEdge (P := P) f t.
Proof.
  intros I. induction es as [|[a e] es IH]; intros pre ls GE.
  - exists []. rewrite app_nil_r. split; [reflexivity|]. split; [reflexivity|]. intros [|]; discriminate.
  - assert (S : slot (s_graph s) (length pre) = Some (Some (a, e))).
    { unfold slot. rewrite GE, nth_error_map, nth_error_app2, Nat.sub_diag by lia. reflexivity. }
    destruct (edge_nodes env s _ a e I S) as (nf & nt & VF & VT & IF & IT & GP & PF & PT).
    cbn [foldM]. unfold edgeLine at 1. cbn [snd]. rewrite VF, VT. cbn [bind].
    destruct (IH (pre ++ [(a, e)]) (ls ++ [LEdge (n_id nf) (n_id nt)])) as (ls' & F & L & A); [rewrite <- app_assoc; exact GE|].
    exists (LEdge (n_id nf) (n_id nt) :: ls'). rewrite F, <- app_assoc. split; [reflexivity|]. split; [cbn; lia|].
    intros [|k] x X; cbn in X.
    + injection X as <-. rewrite Nat.add_0_r. exists (e_from e), (e_to e). rewrite IF, IT. auto.
    + destruct (A k x X) as (f & t & Q & ->). rewrite app_length in Q. cbn [length] in Q.
      replace (length pre + Datatypes.S k) with (length pre + 1 + k) by lia. eauto.
Qed.
Theorem text (env : senv) l (s : slam) log null : srun env l = Ok (s, log) ->
  exists np es, graphText xy (Some null) s = Ok (np ++ es) /\ length np = n_poses log /\
    (forall id x, nth_error np id = Some x -> exists p, getPoseLocation s id = Ok p /\ x = LNode id (xy p)) /\
    (forall id, getConstrainPoses s id <> Throw <-> id < length es) /\
    (forall id x, nth_error es id = Some x -> exists f t, getConstrainPoses s id = Ok (f, t) /\ x = LEdge f t).
Proof.
  intros R. destruct (srun_ok _ _ _ _ R) as [I (N & _)]. destruct (visit_all env s null I) as (es & V & GE).
  destruct (markers env l s log null R) as (ms & M & Q & _).
  destruct (lines_loop env s I es [] (map (fun n => LNode (n_id n) (xy (n_pose n))) (g_nodes (s_graph s))) GE) as (ls & F & L & A).
  exists (map (fun n => LNode (n_id n) (xy (n_pose n))) (g_nodes (s_graph s))), ls.
  unfold graphText. destruct (visit_nodes (s_graph s)) as [VN _]. rewrite VN, V. cbn [bind]. rewrite F.
  split; [reflexivity|]. split; [rewrite map_length; auto|]. split; [|split].
  - intros id x X. rewrite nth_error_map in X. destruct (nth_error (g_nodes (s_graph s)) id) as [n|] eqn:E; [|discriminate].
    injection X as <-. destruct (inv_node _ (r_inv _ (si_ready _ _ I)) _ _ E) as (-> & _).
    exists (n_pose n). unfold getPoseLocation. rewrite getNode_nth, E. auto.
  - intros id. rewrite Q. rewrite L.
    destruct (markers_SI env s log null I (typed_run _ _ _ _ R)) as (ms' & M' & LM & _). rewrite M in M'. injection M' as <-.
    rewrite LM, GE, map_length. reflexivity.
  - exact A.
Qed.

(** ** The viewer *)
Lemma show_all : forall ms (d : display (P := P)), (forall id m, nth_error ms id = Some m -> ar_id m = id) ->
  forall id, fold_left showArrow ms d id = match nth_error ms id with Some m => Some m | None => d id end.
Proof.
  intros ms. induction ms as [|m ms IH] using rev_ind; intros d H id.
  - destruct id; reflexivity.
  - rewrite fold_left_app. cbn [fold_left]. unfold showArrow at 1.
    assert (E : ar_id m = length ms) by (apply (H (length ms)); rewrite nth_error_app2, Nat.sub_diag by lia; reflexivity).
    rewrite E, nth_error_snoc. destruct (Nat.eqb_spec id (length ms)) as [->|NE]; [reflexivity|].
    apply IH. intros k x X. apply H. rewrite nth_error_app1; [auto|]. apply nth_error_Some. congruence.
Qed.
Definition vinv (env : senv) (st : slam * list (sev Pose Obj Info) * display (P := P)) : Prop :=
  let '(s, log, d) := st in SI env s /\ log_ok env s log /\ typed s log /\
  forall id, length (g_edges (s_graph s)) <= id -> d id = None.
Lemma vstep_inv (env : senv) null st h st' : vinv env st -> hstep xy (Some null) env st h = Ok st' -> vinv env st'.
Proof.
  destruct st as [[s log] d]. intros (I & L & T & V) H. destruct h as [o|]; cbn [hstep] in H.
  - apply bind_ok_inv in H. destruct H as ([s1 log1] & E & H). cbn [fst snd] in H. injection H as <-.
    destruct (typed_log_step _ _ _ _ _ _ I L T E) as (A & B & C). split; [exact A|]. split; [exact B|]. split; [exact C|].
    intros id K. apply V. pose proof (edges_grow _ _ _ _ _ _ I E). lia.
  - apply bind_ok_inv in H. destruct H as (ms & M & H). injection H as <-.
    destruct (markers_SI env s log null I T) as (ms' & M' & LM & A). rewrite M in M'. injection M' as <-.
    split; [exact I|]. split; [exact L|]. split; [exact T|]. intros id K.
    rewrite show_all; [|intros k m X; apply (A k m X)].
    assert (nth_error ms id = None) as -> by (apply nth_error_None; lia). auto.
Qed.
Lemma vrun_inv (env : senv) null l st : hrun xy (Some null) env l = Ok st -> vinv env st.
Proof.
  unfold hrun. assert (V0 : vinv env (slam_init, [], blank)).
  { split; [apply SI_init|]. split; [apply log_ok_init|]. split; [apply typed_init|reflexivity]. }
  revert V0. generalize ((slam_init : slam), ([] : list (sev Pose Obj Info)), (blank : display (P := P))).
  induction l as [|h l IH]; intros s0 V0 H; cbn [foldM] in H; [injection H as <-; exact V0|].
  apply bind_ok_inv in H. destruct H as (s1 & E & H). eapply IH; [eapply vstep_inv; eauto|exact H].
Qed.
Theorem viewer (env : senv) null l s log d : hrun xy (Some null) env (l ++ [HPublish]) = Ok (s, log, d) ->
  (forall id, d id <> None <-> getConstrainPoses s id <> Throw) /\
  (forall id m, d id = Some m -> arrow_of xy s log id m).
Proof.
  intros H. unfold hrun in H. rewrite foldM_app in H. apply bind_ok_inv in H. destruct H as ([[s0 log0] d0] & R & H).
  pose proof (vrun_inv env null l _ R) as (I & L & T & V). cbn [foldM hstep] in H.
  destruct (markers_SI env s0 log0 null I T) as (ms & M & LM & A). rewrite M in H. cbn [bind] in H. injection H as <- <- <-.
  assert (E : forall id, fold_left showArrow ms d0 id = nth_error ms id).
  { intros id. rewrite show_all; [|intros k m X; apply (A k m X)].
    destruct (nth_error ms id) eqn:N; [reflexivity|]. apply V. apply nth_error_None in N. lia. }
  split; [|intros id m X; rewrite E in X; auto].
  intros id. rewrite E. rewrite nth_error_Some, LM. split.
  - intros G. destruct (si_some _ _ I id G) as (a & e & S & _).
    destruct (edge_nodes env s0 id a e I S) as (_ & _ & _ & _ & _ & _ & GP & _). rewrite GP. discriminate.
  - intros N. destruct (Nat.lt_ge_cases id (length (g_edges (s_graph s0)))) as [|G]; [auto|]. exfalso. apply N.
    unfold getConstrainPoses, getEdge. rewrite (proj2 (Nat.leb_le _ _) G). reflexivity.
Qed.
End Proofs.
