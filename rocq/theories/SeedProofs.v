(** What initializeGrapFromOdom does. *)
From Coq Require Import List ZArith Bool Arith Lia.
From Verif Require Import Base GraphModel GraphSpec GraphProofs LoopModel LoopProofs SlamModel SlamSpec SlamProofs ExportModel ExportProofs SeedModel SeedSpec.
Import ListNotations.
Open Scope nat_scope.

Section P.
Context {Pose Obj Info Guess D : Type}.
Notation graph := (graph Pose Obj Info).
Notation slam := (slam Pose Obj Info).
Notation senv := (senv Pose Obj Info Guess D).
Notation edge := (edge Pose Info).
Notation node := (node Pose Obj).
Notation sev := (sev Pose Obj Info).
Variable zero : Pose.
Variable concat : Pose -> Pose -> Pose.

(** * The adjacency lists are in the order of the ids *)
Definition arc (x : option (addr * edge)) : option (addr * nat) := option_map (fun ae => (fst ae, e_from (snd ae))) x.
Definition ordered (g : graph) : Prop :=
  forall k n, nth_error (g_nodes g) k = Some n ->
    n_out n = map fst (filter (fun af => snd af =? k) (somes (map arc (g_edges g)))).

Lemma somes_app2 {A} (l l' : list (option A)) : somes (l ++ l') = somes l ++ somes l'.
Proof. induction l as [|[x|] l IH]; cbn [somes app]; rewrite ?IH; reflexivity. Qed.
Lemma arcs_In (es : list (option (addr * edge))) a f : In (a, f) (somes (map arc es)) ->
  exists j e, nth_error es j = Some (Some (a, e)) /\ e_from e = f.
Proof.
  induction es as [|[[b e]|] es IH]; cbn [map arc option_map somes]; intro H.
  - destruct H.
  - destruct H as [E | H]; [injection E as <- <-; exists 0, e; auto|].
    destruct (IH H) as (j & e' & X & Y). exists (S j), e'. auto.
  - destruct (IH H) as (j & e' & X & Y). exists (S j), e'. auto.
Qed.
Lemma arcs_upd (es : list (option (addr * edge))) id a e e' : nth_error es id = Some (Some (a, e)) -> e_from e' = e_from e ->
  map arc (upd es id (Some (a, e'))) = map arc es.
Proof.
  intros H F. apply nth_error_ext. intro j. rewrite !nth_error_map, nth_error_upd.
  destruct (Nat.eqb_spec j id) as [-> | N]; cbn [andb]; [|reflexivity].
  destruct (id <? length es) eqn:L; [|reflexivity]. rewrite H. cbn. rewrite F. reflexivity.
Qed.
Lemma ordered_same (g g' : graph) : ordered g -> map arc (g_edges g') = map arc (g_edges g) ->
  (forall k n', nth_error (g_nodes g') k = Some n' -> exists n, nth_error (g_nodes g) k = Some n /\ n_out n' = n_out n) ->
  ordered g'.
Proof.
  intros O A N k n' H. destruct (N k n' H) as (n & Hn & ->). rewrite A. exact (O k n Hn).
Qed.
Lemma ordered_modEdge (g g' : graph) id f : ordered g -> (forall e, e_from (f e) = e_from e) ->
  modEdge g id f = Ok g' -> ordered g'.
Proof.
  intros O F H. unfold modEdge in H. apply bind_ok_inv in H. destruct H as (e0 & _ & H).
  apply bind_ok_inv in H. destruct H as (x & V & H). destruct x as [[a e]|]; [|discriminate]. injection H as <-.
  unfold vget in V. destruct (nth_error (g_edges g) id) as [y|] eqn:E; [|discriminate]. injection V as ->.
  eapply ordered_same; [exact O| |].
  - cbn [g_edges]. eapply arcs_upd; [exact E|apply F].
  - cbn [g_nodes]. eauto.
Qed.
Lemma ordered_addConstrain (env : senv) s a f t tr i s' id : SI env s -> ordered (s_graph s) ->
  addConstrain env s a f t tr i = Ok (s', id) -> ordered (s_graph s').
Proof.
  intros I O H. unfold addConstrain in H.
  apply bind_ok_inv in H. destruct H as (nf & NF & H).
  apply bind_ok_inv in H. destruct H as (nt & NT & H).
  apply bind_ok_inv in H. destruct H as ([g1 id1] & AE & H).
  apply bind_ok_inv in H. destruct H as (g2 & M2 & H).
  apply bind_ok_inv in H. destruct H as (g3 & M3 & H). injection H as <- <-. cbn [s_graph].
  pose proof (r_inv _ (si_ready _ _ I)) as IV. pose proof (si_pool _ _ I) as PE.
  set (g := s_graph s) in *.
  destruct (addEdge_pre g a _ _ IV AE) as (LA & HF & HT).
  destruct (addEdge_full g a _ IV PE LA HF HT) as (ns & AE' & LN & NS).
  rewrite AE in AE'. injection AE' as -> ->.
  cut (ordered (mkGraph (g_edges g ++ [Some (a, e_setId (newEdge (n_id nf) (n_id nt) tr (odo_info env)) (length (g_edges g)))]) ns [])).
  { intro O1. refine (ordered_modEdge _ _ _ (e_setLoop false) _ (fun _ => eq_refl) M3). exact (ordered_modEdge _ _ _ (e_setState Active) O1 (fun _ => eq_refl) M2). }
  intros k n' X. cbn [g_nodes g_edges] in *. rewrite NS in X.
  destruct (nth_error (g_nodes g) k) as [n|] eqn:N; [|discriminate]. injection X as <-.
  rewrite touch_node_out, map_app, somes_app2, filter_app, map_app.
  cbn [map arc option_map somes fst snd filter e_setId newEdge e_from].
  rewrite <- (O k n N). cbn [e_from newEdge] in *. rewrite (Nat.eqb_sym (n_id nf) k).
  destruct (k =? n_id nf); [|cbn [map]; rewrite app_nil_r; reflexivity].
  cbn [map fst]. apply addPtr_fresh. intro X. rewrite (O k n N) in X.
  apply in_map_iff in X. destruct X as ([b h] & EB & X). cbn [fst] in EB. subst b.
  apply filter_In in X. destruct X as [X _]. apply arcs_In in X. destruct X as (j & e & X & _).
  assert (live_addr g a = true) by (apply live_addr_iff; exists j, e; exact X). congruence.
Qed.
Lemma ordered_closures (env : senv) fresh : forall loops s k s' k', SI env s -> ordered (s_graph s) ->
  foldM (addClosure env fresh) loops (s, k) = Ok (s', k') -> ordered (s_graph s').
Proof.
  induction loops as [|c t IH]; intros s k s' k' I O H; cbn [foldM] in H.
  - injection H as <- <-. exact O.
  - apply bind_ok_inv in H. destruct H as ([s1 k1] & AC & H).
    destruct (addClosure_ok _ _ _ _ _ _ _ I AC) as (I1 & _).
    apply (IH s1 k1 s' k' I1); [|exact H]. unfold addClosure in AC.
    apply bind_ok_inv in AC. destruct AC as ([s2 id] & A & AC). cbn [fst snd] in AC.
    apply bind_ok_inv in AC. destruct AC as (g & M & AC). injection AC as <- <-. cbn [with_graph s_graph].
    refine (ordered_modEdge _ _ _ (e_setLoop true) _ (fun _ => eq_refl) M). eapply ordered_addConstrain; [exact I|exact O|exact A].
Qed.
Lemma ordered_loop (env : senv) ch fresh s id s' b : SI env s -> ordered (s_graph s) ->
  tryLoopClose env ch fresh s id = Ok (s', b) -> ordered (s_graph s').
Proof.
  intros I O H. destruct (tryLoopClose_ok _ _ _ _ _ _ _ I H) as (_ & _ & _ & loops & calls & xs & G & _).
  unfold tryLoopClose in H. rewrite G in H. cbn [bind] in H.
  apply bind_ok_inv in H. destruct H as ([s1 k1] & F & H). injection H as <- _. cbn [fst].
  assert (WG : with_graph s (s_graph s) = s) by (destruct s; reflexivity). rewrite WG in F.
  eapply ordered_closures; eassumption.
Qed.
Lemma ordered_step (env : senv) s o s' ev : SI env s -> ordered (s_graph s) -> sstep env s o = Ok (s', ev) -> ordered (s_graph s').
Proof.
  intros I O S. destruct o as [p x|a f t tr i|a tr i|id ch fresh|ch fresh|est]; cbn [sstep] in S.
  - destruct (addPose env s p x) as [s1 id] eqn:E. injection S as <- <-.
    destruct (addPose_effect env s p x I) as (GE & _ & N). rewrite E in GE, N. cbn [fst] in *.
    intros k n H. rewrite N in H. rewrite GE. destruct (Nat.eqb_spec k (length (g_nodes (s_graph s)))) as [-> | NE]; [|apply O, H].
    injection H as <-. cbn [n_out]. rewrite filter_none; [reflexivity|].
    intros [a f] X. apply arcs_In in X. destruct X as (j & e & X & <-).
    destruct (inv_edge _ (r_inv _ (si_ready _ _ I)) j a e X) as (_ & L & _). cbn [snd]. lia.
  - apply bind_ok_inv in S. destruct S as ([s1 id] & A & S). injection S as <- <-. cbn [fst]. eapply ordered_addConstrain; eassumption.
  - apply bind_ok_inv in S. destruct S as ([s1 id] & A & S). injection S as <- <-. cbn [fst]. unfold addLastConstrain in A. eapply ordered_addConstrain; eassumption.
  - apply bind_ok_inv in S. destruct S as ([s1 b] & A & S). injection S as <- <-. cbn [fst]. eapply ordered_loop; eassumption.
  - apply bind_ok_inv in S. destruct S as ([s1 b] & A & S). injection S as <- <-. cbn [fst]. unfold tryLoopCloseLast in A. eapply ordered_loop; eassumption.
  - destruct (optimalize_ok env s est I) as (s1 & OP & _ & GE & _ & _ & _ & N). rewrite OP in S. cbn [bind fst] in S. injection S as <- <-.
    eapply ordered_same; [exact O|rewrite GE; reflexivity|]. intros k n' H. rewrite N in H.
    destruct (nth_error (s_verts s1) k) as [v|]; [|discriminate].
    destruct (nth_error (g_nodes (s_graph s)) k) as [n|]; [|discriminate]. injection H as <-. exists n. auto.
Qed.
Lemma ordered_fold (env : senv) : forall l s log s' log', SI env s -> log_ok env s log -> ordered (s_graph s) ->
  foldM (sstep_log env) l (s, log) = Ok (s', log') -> ordered (s_graph s').
Proof.
  induction l as [|o l IH]; intros s log s' log' I L O H; cbn [foldM] in H.
  - injection H as <- <-. exact O.
  - apply bind_ok_inv in H. destruct H as ([s1 log1] & S & H). unfold sstep_log in S. cbn [fst snd] in S.
    destruct (sstep env s o) as [[s2 ev]| |] eqn:E; [|discriminate|].
    + injection S as <- <-. destruct (sstep_ok env s log o s2 ev I L E) as [I2 L2].
      apply (IH s2 (ev :: log) s' log' I2 L2); [|exact H]. exact (ordered_step env s o s2 ev I O E).
    + injection S as <- <-. apply (IH s (SvThrow :: log) s' log' I); [apply log_ok_throw, L|exact O|exact H].
Qed.
Lemma ordered_run (env : senv) l s log : srun env l = Ok (s, log) -> ordered (s_graph s).
Proof.
  intro H. eapply ordered_fold; [apply SI_init|apply log_ok_init| |exact H].
  intros k n X. cbn in X. destruct k; discriminate.
Qed.

(** * The first constraint that leaves a pose *)
Lemma find_first {A} (p : A -> bool) l x : find p l = Some x ->
  exists i, nth_error l i = Some x /\ p x = true /\ forall j y, j < i -> nth_error l j = Some y -> p y = false.
Proof.
  induction l as [|a l IH]; cbn [find]; [discriminate|]. destruct (p a) eqn:P.
  - intro E. injection E as <-. exists 0. split; [reflexivity|]. split; [exact P|]. intros; lia.
  - intro E. destruct (IH E) as (i & N & PX & B). exists (S i). split; [exact N|]. split; [exact PX|].
    intros [|j] y L Y; cbn in Y; [congruence|]. apply (B j y); [lia|exact Y].
Qed.
Lemma first_find (xs : list (addr * edge)) k : (forall i j a e e', nth_error xs i = Some (a, e) -> nth_error xs j = Some (a, e') -> i = j) ->
  forall ys, incl ys xs ->
  firstOdom (map Some xs) (map fst (filter (fun af => snd af =? k) (somes (map arc (map Some ys))))) =
  Ok (option_map snd (find (fun ae => (e_from (snd ae) =? k) && negb (e_loop (snd ae))) ys)).
Proof.
  intros U. induction ys as [|[a e] ys IH]; intro I; [reflexivity|].
  cbn [map arc option_map somes fst snd filter find].
  assert (I' : incl ys xs) by (intros z Z; apply I; right; exact Z).
  destruct (e_from e =? k); cbn [andb]; [|apply IH, I'].
  cbn [map fst firstOdom].
  assert (F : exists i, find_addr (map Some xs) a = Some (i, e)).
  { destruct (In_nth_error xs (a, e) (I (a, e) (or_introl eq_refl))) as (i & N).
    destruct (find_addr (map Some xs) a) as [[j e']|] eqn:FA.
    - pose proof (find_addr_some _ _ _ _ FA) as S. rewrite nth_error_map in S.
      destruct (nth_error xs j) as [y|] eqn:Y; [|discriminate]. injection S as ->.
      assert (j = i) by (eapply U; eassumption). subst j. assert (e' = e) by congruence. subst e'. eauto.
    - exfalso. clear - N FA. revert i N FA. induction xs as [|[b f] xs IH]; intros [|i] N FA; cbn in N; try discriminate.
      + injection N as -> ->. cbn in FA. rewrite Nat.eqb_refl in FA. discriminate.
      + cbn [map find_addr] in FA. destruct (b =? a); [discriminate|].
        destruct (find_addr (map Some xs) a) eqn:E; [discriminate|]. exact (IH i N eq_refl). }
  destruct F as (i & ->). destruct (e_loop e); cbn [negb]; [apply IH, I'|reflexivity].
Qed.

(** for a reachable state and any state with the same edges *)
Lemma first_of (env : senv) l s log k n : srun env l = Ok (s, log) -> nth_error (g_nodes (s_graph s)) k = Some n ->
  (firstOdom (g_edges (s_graph s)) (n_out n) = Ok None /\ no_odo log k) \/
  (exists e, firstOdom (g_edges (s_graph s)) (n_out n) = Ok (Some e) /\ e_from e = k /\
     e_to e < length (g_nodes (s_graph s)) /\ next_odo log k (e_to e) (e_trans e)).
Proof.
  intros R N. destruct (srun_ok _ _ _ _ R) as [I L]. pose proof (typed_run _ _ _ _ R) as [T1 T2].
  pose proof (r_inv _ (si_ready _ _ I)) as IV. pose proof (ordered_run _ _ _ _ R) as O.
  destruct (all_there env s I) as (xs & GE). destruct L as (_ & _ & _ & _ & _ & KC).
  assert (SL : forall id, slot (s_graph s) id = option_map Some (nth_error xs id)).
  { intro id. unfold slot. rewrite GE, nth_error_map. reflexivity. }
  assert (LV : forall id to t, leaves log k id to t <-> exists a e, nth_error xs id = Some (a, e) /\ e_from e = k /\ e_loop e = false /\ e_to e = to /\ e_trans e = t).
  { intros id to t. split.
    - intros (i & K). destruct (KC id k to t i K) as (a & e & S & F & TO & TR). exists a, e.
      pose proof (T2 id a e S) as LP. rewrite K in LP. rewrite SL in S.
      destruct (nth_error xs id) as [y|]; [|discriminate]. injection S as ->. auto.
    - intros (a & e & X & F & LP & TO & TR).
      assert (S : slot (s_graph s) id = Some (Some (a, e))) by (rewrite SL, X; reflexivity).
      rewrite (T2 id a e S) in LP. destruct (known_constr log id) as [[[[f' t'] tr'] i']|] eqn:K; [|discriminate].
      destruct (KC id f' t' tr' i' K) as (a' & e' & S' & F' & TO' & TR'). rewrite S in S'. injection S' as <- <-.
      exists i'. rewrite K. congruence. }
  rewrite (O k n N), GE. rewrite (first_find xs k); [| |intros z Z; exact Z].
  2:{ intros i j a e e' X Y. eapply (inv_addr _ IV); rewrite SL; [rewrite X|rewrite Y]; reflexivity. }
  destruct (find _ xs) as [[a e]|] eqn:F; cbn [option_map snd].
  - right. exists e. split; [reflexivity|]. destruct (find_first _ _ _ F) as (id & X & P & B). cbn [snd] in P.
    apply andb_true_iff in P. destruct P as [P1 P2]. apply Nat.eqb_eq in P1. apply negb_true_iff in P2.
    split; [exact P1|]. split.
    + assert (S : slot (s_graph s) id = Some (Some (a, e))) by (rewrite SL, X; reflexivity). apply (inv_edge _ IV _ _ _ S).
    + exists id. split; [apply LV; exists a, e; auto|]. intros j to' t' J LJ. apply LV in LJ.
      destruct LJ as (a' & e' & X' & F' & LP & _). specialize (B j (a', e') J X'). cbn [snd] in B.
      rewrite F', Nat.eqb_refl, LP in B. discriminate.
  - left. split; [reflexivity|]. intros id to t LI. apply LV in LI. destruct LI as (a & e & X & Fr & LP & _).
    apply nth_error_In in X. pose proof (find_none _ _ F _ X) as E. cbn [snd] in E. rewrite Fr, Nat.eqb_refl, LP in E. discriminate.
Qed.

(** * Ways *)
Lemma next_fun (log : list sev) k a t b u : next_odo log k a t -> next_odo log k b u -> a = b /\ t = u.
Proof.
  intros (i & L & B) (j & L' & B').
  destruct (Nat.lt_trichotomy i j) as [H | [-> | H]].
  - destruct (B' i a t H L).
  - destruct L as (x & K), L' as (y & K'). rewrite K in K'. injection K' as <- <- _. auto.
  - destruct (B j b u H L').
Qed.
Lemma next_some (log : list sev) k a t : next_odo log k a t -> ~ no_odo log k.
Proof. intros (i & L & _) N. exact (N i a t L). Qed.
Lemma way_fun (log : list sev) k l : odo_way log k l -> forall l', odo_way log k l' -> l = l'.
Proof.
  induction 1 as [k N | k to t l N W IH]; intros l' W'; inversion W' as [k' N' | k' to' t' m N' V]; subst.
  - reflexivity.
  - destruct (next_some _ _ _ _ N' N).
  - destruct (next_some _ _ _ _ N N').
  - destruct (next_fun _ _ _ _ _ _ N N') as [<- <-]. f_equal. apply IH, V.
Qed.
Lemma way_suffix (log : list sev) : forall l1 k k' t l2, odo_way log k (l1 ++ (k', t) :: l2) -> odo_way log k' l2.
Proof.
  induction l1 as [|[a u] l1 IH]; intros k k' t l2 W; inversion W; subst; [assumption|]. eapply IH; eassumption.
Qed.
Lemma way_nodup (log : list sev) k l : odo_way log k l -> NoDup (k :: map fst l).
Proof.
  induction 1 as [k N | k to t l N W IH]; [repeat constructor; intros []|].
  constructor; [|exact IH]. intro X. apply in_map_iff in X. destruct X as ([k' u] & E & X). cbn [fst] in E. subst k'.
  apply in_split in X. destruct X as (l1 & l2 & E).
  pose proof (way_on _ _ _ _ _ N W) as WW. pose proof WW as W1. rewrite E in W1. apply way_suffix in W1.
  pose proof (way_fun _ _ _ WW _ W1) as EQ. rewrite E in EQ. apply (f_equal (@length _)) in EQ.
  rewrite app_length in EQ. cbn in EQ. lia.
Qed.
Lemma reckon_fst l : forall p, map fst (reckon concat p l) = map fst l.
Proof. induction l as [|[k t] l IH]; intro p; cbn [reckon map fst]; [reflexivity|]. rewrite IH. reflexivity. Qed.

(** * The walk *)
(** only poses differ *)
Definition moved_only (s s1 : slam) : Prop :=
  s1 = with_graph s (s_graph s1) /\ g_edges (s_graph s1) = g_edges (s_graph s) /\ g_pool (s_graph s1) = g_pool (s_graph s) /\
  length (g_nodes (s_graph s1)) = length (g_nodes (s_graph s)) /\
  forall k n, nth_error (g_nodes (s_graph s)) k = Some n -> exists p, nth_error (g_nodes (s_graph s1)) k = Some (n_setPose p n).
Lemma moved_refl s : moved_only s s.
Proof.
  split; [destruct s; reflexivity|]. repeat (split; [reflexivity|]). intros k n H. exists (n_pose n). rewrite H. destruct n; reflexivity.
Qed.
Definition pose_at (s : slam) k : option Pose := option_map n_pose (nth_error (g_nodes (s_graph s)) k).
Lemma set_pose s s1 k p : moved_only s s1 -> k < length (g_nodes (s_graph s)) ->
  exists g n, modNode (s_graph s1) k (n_setPose p) = Ok g /\ moved_only s (with_graph s1 g) /\
    nth_error (g_nodes (s_graph s)) k = Some n /\ getNode g k = Ok (n_setPose p n) /\
    forall j, pose_at (with_graph s1 g) j = if j =? k then Some p else pose_at s1 j.
Proof.
  intros (W & E & PL & LN & N) K.
  destruct (nth_error (g_nodes (s_graph s)) k) as [n|] eqn:NK; [|apply nth_error_None in NK; lia].
  destruct (N k n NK) as (q & Q).
  unfold modNode. rewrite getNode_nth, Q. cbn [bind]. eexists _, n. split; [reflexivity|].
  assert (UP : forall j, nth_error (upd (g_nodes (s_graph s1)) k (n_setPose p (n_setPose q n))) j =
    if j =? k then Some (n_setPose p n) else nth_error (g_nodes (s_graph s1)) j).
  { intro j. rewrite nth_error_upd. assert (k <? length (g_nodes (s_graph s1)) = true) as -> by (rewrite LN; apply Nat.ltb_lt; exact K).
    rewrite andb_true_r. destruct (j =? k); reflexivity. }
  split; [|split; [reflexivity|split]].
  - split; [|split; [exact E|split; [exact PL|split]]].
    + rewrite W. reflexivity.
    + cbn [with_graph s_graph g_nodes]. rewrite length_upd. exact LN.
    + intros j m M. cbn [with_graph s_graph g_nodes]. rewrite UP. destruct (Nat.eqb_spec j k) as [-> | NE]; [|apply N, M].
      exists p. congruence.
  - rewrite getNode_nth. cbn [g_nodes]. rewrite UP, Nat.eqb_refl. reflexivity.
  - intro j. unfold pose_at. cbn [with_graph s_graph g_nodes]. rewrite UP. destruct (j =? k); reflexivity.
Qed.

Section Run.
Variable env : senv.
Variable ops : list (sop Pose Obj Info D).
Variable s : slam.
Variable log : list sev.
Hypothesis R : srun env ops = Ok (s, log).
Notation nodes := (g_nodes (s_graph s)).

Lemma id_of s1 k n : moved_only s s1 -> nth_error nodes k = Some n -> exists p, vget (g_nodes (s_graph s1)) k = Ok (n_setPose p n) /\ n_id n = k /\ pose_at s1 k = Some p.
Proof using R zero concat.
  intros (_ & _ & _ & _ & N) H. destruct (N k n H) as (p & P). exists p. unfold vget, pose_at. rewrite P.
  split; [reflexivity|]. split; [|reflexivity]. destruct (srun_ok _ _ _ _ R) as [I _].
  apply (inv_node _ (r_inv _ (si_ready _ _ I)) _ _ H).
Qed.
(** one round *)
Lemma walk_step s1 k p e r : moved_only s s1 -> pose_at s1 k = Some p -> e_from e = k -> e_to e < length nodes ->
  exists s2 n nx, walk concat (S r) s1 (Some e) = walk concat r s2 nx /\ moved_only s s2 /\
    nth_error nodes (e_to e) = Some n /\ firstOdom (g_edges (s_graph s)) (n_out n) = Ok nx /\
    forall j, pose_at s2 j = if j =? e_to e then Some (concat p (e_trans e)) else pose_at s1 j.
Proof using R zero concat.
  intros M P F T. cbn [walk].
  destruct (nth_error nodes (e_to e)) as [nt|] eqn:NT; [|apply nth_error_None in NT; lia].
  destruct (id_of s1 _ _ M NT) as (pt & -> & IT & _). cbn [bind].
  assert (KL : k < length nodes).
  { unfold pose_at in P. destruct M as (_ & _ & _ & LN & _). rewrite <- LN. apply nth_error_Some. intro Z. rewrite Z in P. discriminate. }
  destruct (nth_error nodes k) as [nf|] eqn:NF; [|apply nth_error_None in NF; lia].
  destruct (id_of s1 _ _ M NF) as (pf & VF & _ & PF). rewrite F, VF. cbn [bind].
  rewrite P in PF. injection PF as <-. cbn [n_setPose n_id n_pose]. rewrite IT.
  destruct (set_pose s s1 (e_to e) (concat p (e_trans e)) M T) as (g & n & MN & M2 & NN & GN & PA).
  rewrite MN. cbn [bind]. rewrite GN. cbn [bind]. change (n_out (n_setPose (concat p (e_trans e)) n)) with (n_out n).
  assert (GE : g_edges g = g_edges (s_graph s)) by apply M2. rewrite GE.
  assert (n = nt) by congruence. subst n.
  destruct (first_of env ops s log (e_to e) nt R NT) as [[FO _] | (e' & FO & _)].
  - rewrite FO. cbn [bind]. exists (with_graph s1 g), nt, None. auto.
  - rewrite FO. cbn [bind]. exists (with_graph s1 g), nt, (Some e'). auto 10.
Qed.
Lemma walk_ends k l : odo_way log k l -> forall s1 p n nx r, moved_only s s1 -> pose_at s1 k = Some p ->
  nth_error nodes k = Some n -> firstOdom (g_edges (s_graph s)) (n_out n) = Ok nx -> length l <= r ->
  exists s2, walk concat r s1 nx = Ok (s2, true) /\ moved_only s s2 /\
    (forall j q, In (j, q) (reckon concat p l) -> pose_at s2 j = Some q) /\
    (forall j, ~ In j (map fst l) -> pose_at s2 j = pose_at s1 j).
Proof using R zero concat.
  induction 1 as [k NO | k to t l N W IH]; intros s1 p n nx r M P NK FO L.
  - destruct (first_of env ops s log k n R NK) as [[FO' _] | (e & _ & _ & _ & NX)]; [|destruct (next_some _ _ _ _ NX NO)].
    rewrite FO in FO'. injection FO' as ->. exists s1. split; [destruct r; reflexivity|]. split; [exact M|].
    split; [intros j q []|reflexivity].
  - destruct (first_of env ops s log k n R NK) as [[_ NO] | (e & FO' & EF & ET & NX)]; [destruct (next_some _ _ _ _ N NO)|].
    rewrite FO in FO'. injection FO' as ->. destruct (next_fun _ _ _ _ _ _ N NX) as [-> ->].
    destruct r as [|r]; [cbn in L; lia|].
    destruct (walk_step s1 k p e r M P EF ET) as (s2 & n2 & nx2 & WS & M2 & N2 & F2 & PA).
    assert (P2 : pose_at s2 (e_to e) = Some (concat p (e_trans e))) by (rewrite PA, Nat.eqb_refl; reflexivity).
    destruct (IH s2 _ n2 nx2 r M2 P2 N2 F2) as (s3 & W3 & M3 & A & B); [cbn in L; lia|].
    pose proof (way_nodup _ _ _ W) as ND. apply NoDup_cons_iff in ND. destruct ND as [NI _].
    exists s3. split; [rewrite WS; exact W3|]. split; [exact M3|]. split.
    + intros j q. cbn [reckon In]. intros [E | X]; [|apply A, X]. injection E as <- <-.
      rewrite (B _ NI). exact P2.
    + intros j J. cbn [map fst In] in J. rewrite B by tauto. rewrite PA.
      destruct (Nat.eqb_spec j (e_to e)); [subst; tauto|reflexivity].
Qed.
Lemma walk_goes_on : forall r k s1 p n nx, moved_only s s1 -> pose_at s1 k = Some p ->
  nth_error nodes k = Some n -> firstOdom (g_edges (s_graph s)) (n_out n) = Ok nx ->
  (forall l, ~ odo_way log k l) -> exists s2, walk concat r s1 nx = Ok (s2, false).
Proof using R zero concat.
  induction r as [|r IH]; intros k s1 p n nx M P NK FO NW;
    (destruct (first_of env ops s log k n R NK) as [[_ NO] | (e & FO' & EF & ET & NX)]; [destruct (NW [] (way_end _ _ NO))|]);
    rewrite FO in FO'; injection FO' as ->.
  - exists s1. reflexivity.
  - destruct (walk_step s1 k p e r M P EF ET) as (s2 & n2 & nx2 & WS & M2 & N2 & F2 & PA). rewrite WS.
    apply (IH (e_to e) s2 (concat p (e_trans e)) n2 nx2 M2); [rewrite PA, Nat.eqb_refl; reflexivity|exact N2|exact F2|].
    intros l W. exact (NW _ (way_on _ _ _ _ _ NX W)).
Qed.
Lemma start : 0 < n_poses log -> exists s1 n nx, moved_only s s1 /\ nth_error nodes 0 = Some n /\
  firstOdom (g_edges (s_graph s)) (n_out n) = Ok nx /\
  (forall j, pose_at s1 j = if j =? 0 then Some zero else pose_at s j) /\
  forall r, initializeGrapFromOdom zero concat r s = walk concat r s1 nx.
Proof using R zero concat.
  intro NP. destruct (srun_ok _ _ _ _ R) as [I (LP & _)]. rewrite LP in NP.
  unfold initializeGrapFromOdom. destruct (si_first _ _ I) as [FA ->]. rewrite FA.
  assert (0 <? length nodes = true) as -> by (apply Nat.ltb_lt; exact NP). cbn [negb].
  destruct (set_pose s s 0 zero (moved_refl s) NP) as (g & n & MN & M2 & NN & GN & PA).
  rewrite MN. cbn [bind]. rewrite GN. cbn [bind]. change (n_out (n_setPose zero n)) with (n_out n).
  assert (GE : g_edges g = g_edges (s_graph s)) by apply M2. rewrite GE.
  destruct (first_of env ops s log 0 n R NN) as [[FO _] | (e' & FO & _)]; rewrite FO; cbn [bind].
  - exists (with_graph s g), n, None. auto.
  - exists (with_graph s g), n, (Some e'). auto 10.
Qed.
Lemma location s1 k : getPoseLocation s1 k = match pose_at s1 k with Some p => Ok p | None => Throw end.
Proof. unfold getPoseLocation, pose_at. rewrite getNode_nth. destruct (nth_error (g_nodes (s_graph s1)) k); reflexivity. Qed.
Lemma rest_same s1 : moved_only s s1 -> rest_kept s s1.
Proof.
  intros (W & E & PL & LN & N). split; [|split; [|split; [rewrite W; reflexivity|rewrite W; reflexivity]]].
  - intro k. unfold getPoseData. rewrite !getNode_nth.
    destruct (nth_error nodes k) as [n|] eqn:NK.
    + destruct (N k n NK) as (p & ->). reflexivity.
    + apply nth_error_None in NK. assert (nth_error (g_nodes (s_graph s1)) k = None) as -> by (apply nth_error_None; lia). reflexivity.
  - intro id. unfold getConstrainPoses, getConstrainTransform, getEdge. rewrite E, PL. split; [|reflexivity].
    destruct (length (g_edges (s_graph s)) <=? id); [reflexivity|]. destruct (existsb _ _); [reflexivity|].
    destruct (vget (g_edges (s_graph s)) id) as [[[a e]|]| |]; cbn [bind]; try reflexivity.
    assert (V : forall k, (do n <- vget (g_nodes (s_graph s1)) k; Ok (n_id n)) = (do n <- vget nodes k; Ok (n_id n))).
    { intro k. unfold vget. destruct (nth_error nodes k) as [n|] eqn:NK.
      - destruct (N k n NK) as (p & ->). reflexivity.
      - apply nth_error_None in NK. assert (nth_error (g_nodes (s_graph s1)) k = None) as -> by (apply nth_error_None; lia). reflexivity. }
    pose proof (V (e_from e)) as VF. pose proof (V (e_to e)) as VT.
    destruct (vget (g_nodes (s_graph s1)) (e_from e)), (vget nodes (e_from e)); cbn [bind] in *; try congruence.
    destruct (vget (g_nodes (s_graph s1)) (e_to e)), (vget nodes (e_to e)); cbn [bind] in *; congruence.
Qed.

(** * Main results *)
Lemma seed_ends l : 0 < n_poses log -> odo_way log 0 l ->
  exists s', (forall r, length l <= r -> initializeGrapFromOdom zero concat r s = Ok (s', true)) /\
    moved_only s s' /\ getPoseLocation s' 0 = Ok zero /\
    (forall k q, In (k, q) (reckon concat zero l) -> getPoseLocation s' k = Ok q) /\
    (forall k, k <> 0 -> ~ In k (map fst l) -> getPoseLocation s' k = getPoseLocation s k).
Proof using R zero concat.
  intros NP W. destruct (start NP) as (s1 & n & nx & M & NN & FO & PA & EQ).
  assert (P0 : pose_at s1 0 = Some zero) by (rewrite PA; reflexivity).
  destruct (walk_ends 0 l W s1 zero n nx (length l) M P0 NN FO (le_n _)) as (s2 & W2 & M2 & A & B).
  pose proof (way_nodup _ _ _ W) as ND. apply NoDup_cons_iff in ND. destruct ND as [NI _].
  exists s2. split; [|split; [exact M2|split; [|split]]].
  - intros r L. rewrite EQ. clear A B. revert r L W2.
    assert (MONO : forall r (s0 : slam) (x : option edge) (out : slam) r', walk concat r s0 x = Ok (out, true) -> r <= r' -> walk concat r' s0 x = Ok (out, true)).
    { clear. induction r as [|r IH]; intros s0 x out r' H L.
      - destruct x; [discriminate|]. destruct r'; exact H.
      - destruct x as [e|]; [|destruct r'; exact H]. destruct r' as [|r']; [lia|]. cbn [walk] in *.
        destruct (vget (g_nodes (s_graph s0)) (e_to e)); cbn [bind] in *; try discriminate.
        destruct (vget (g_nodes (s_graph s0)) (e_from e)); cbn [bind] in *; try discriminate.
        destruct (modNode _ _ _); cbn [bind] in *; try discriminate.
        destruct (getNode _ _); cbn [bind] in *; try discriminate.
        destruct (firstOdom _ _); cbn [bind] in *; try discriminate.
        apply IH; [exact H|lia]. }
    intros r L W2. eapply MONO; eassumption.
  - rewrite location, (B 0 NI), P0. reflexivity.
  - intros k q X. rewrite location, (A k q X). reflexivity.
  - intros k K X. rewrite !location, (B k X), PA. destruct (Nat.eqb_spec k 0); [contradiction|reflexivity].
Qed.
Lemma seed_goes_on : 0 < n_poses log -> (forall l, ~ odo_way log 0 l) ->
  forall r, exists s', initializeGrapFromOdom zero concat r s = Ok (s', false).
Proof using R zero concat.
  intros NP NW r. destruct (start NP) as (s1 & n & nx & M & NN & FO & PA & EQ). rewrite EQ.
  apply (walk_goes_on r 0 s1 zero n nx M); [rewrite PA; reflexivity|exact NN|exact FO|exact NW].
Qed.
Lemma seed_empty r : n_poses log = 0 -> initializeGrapFromOdom zero concat r s = Ok (s, true).
Proof using R zero concat.
  intro NP. destruct (srun_ok _ _ _ _ R) as [I (LP & _)]. unfold initializeGrapFromOdom.
  destruct (si_first _ _ I) as [FA _]. rewrite FA, <- LP, NP. reflexivity.
Qed.

(** the poses in a row *)
Notation along := (along concat zero).
Lemma row_way t : in_a_row log t -> forall m k, k + m = n_poses log - 1 -> 0 < n_poses log ->
  odo_way log k (map (fun j => (S j, t j)) (seq k m)).
Proof.
  intros [A B]. induction m as [|m IH]; intros k E P; cbn [seq map].
  - apply way_end. replace k with (n_poses log - 1) by lia. exact B.
  - apply way_on; [apply A; lia|]. apply IH; [lia|exact P].
Qed.
Lemma reckon_row t : forall m k, reckon concat (along t k) (map (fun j => (S j, t j)) (seq k m)) =
  map (fun j => (S j, along t (S j))) (seq k m).
Proof.
  induction m as [|m IH]; intro k; [reflexivity|]. cbn [seq map reckon]. f_equal. exact (IH (S k)).
Qed.
Lemma seed_row t : 0 < n_poses log -> in_a_row log t ->
  exists s', (forall r, n_poses log <= r -> initializeGrapFromOdom zero concat r s = Ok (s', true)) /\
    moved_only s s' /\ forall k, k < n_poses log -> getPoseLocation s' k = Ok (along t k).
Proof using R zero concat.
  intros NP RW. pose proof (row_way t RW (n_poses log - 1) 0 eq_refl NP) as W.
  destruct (seed_ends _ NP W) as (s' & EN & M & P0 & A & _). exists s'. split; [|split; [exact M|]].
  - intros r L. apply EN. rewrite map_length, seq_length. lia.
  - intros [|k] K; [exact P0|]. apply A. change zero with (along t 0). rewrite reckon_row.
    apply in_map_iff. exists k. split; [reflexivity|]. apply in_seq. lia.
Qed.

(** the optimiser starts from its own estimates *)
Lemma SI_moved s1 : moved_only s s1 -> SI env s1.
Proof using R zero concat.
  intros (W & E & PL & LN & N). destruct (srun_ok _ _ _ _ R) as [I _].
  destruct I as [RD P1 P2 P3 P4 P5 P6 P7 P8 P9 P10 P11].
  assert (NN : forall k n', nth_error (g_nodes (s_graph s1)) k = Some n' -> exists n p, nth_error nodes k = Some n /\ n' = n_setPose p n).
  { intros k n' X. destruct (nth_error nodes k) as [n|] eqn:NK.
    - destruct (N k n NK) as (p & Q). exists n, p. split; [reflexivity|congruence].
    - apply nth_error_None in NK. apply nth_error_lt in X. lia. }
  assert (SL : forall id, slot (s_graph s1) id = slot (s_graph s) id) by (intro id; unfold slot; rewrite E; reflexivity).
  split.
  - destruct RD as [R1 R2 R3 R4]. split.
    + destruct R1 as [I1 I2 I3 I4 I5 I6 I7]. split.
      * rewrite PL. exact I1.
      * intro id. rewrite PL, SL. apply I2.
      * intros id a e S. rewrite LN. rewrite SL in S. exact (I3 id a e S).
      * intros i j a e e' X Y. rewrite SL in X, Y. exact (I4 i j a e e' X Y).
      * intros k n' X. destruct (NN k n' X) as (n & p & Hn & ->). apply (I5 k n Hn).
      * intros id a e n' X Y. rewrite SL in X. destruct (NN _ n' Y) as (n & p & Hn & ->). apply (I6 id a e n X Hn).
      * intros id a e n' X Y. rewrite SL in X. destruct (NN _ n' Y) as (n & p & Hn & ->). apply (I7 id a e n X Hn).
    + apply clr_iff. apply clr_iff in R2. destruct R2 as [A B]. split.
      * intros k n' X. destruct (NN k n' X) as (n & p & Hn & ->). apply (A k n Hn).
      * intros id a e X. rewrite SL in X. exact (B id a e X).
    + rewrite E. exact R3.
    + intros k n' a X Y. destruct (NN k n' X) as (n & p & Hn & ->). destruct (R4 k n a Hn Y) as (id & e & S & T).
      exists id, e. rewrite SL. auto.
  - rewrite PL. exact P1.
  - intros id L. rewrite E in L. rewrite SL. exact (P2 id L).
  - rewrite LN. rewrite W. exact P3.
  - rewrite W. exact P4.
  - rewrite LN. rewrite W. exact P5.
  - rewrite LN. rewrite W. exact P6.
  - rewrite E. rewrite W. exact P7.
  - rewrite E. rewrite W. exact P8.
  - intros id a e S. rewrite SL in S. rewrite W. exact (P9 id a e S).
  - rewrite LN. rewrite W. exact P10.
  - rewrite LN. rewrite W. exact P11.
Qed.
Lemma optimise_same s1 est : moved_only s s1 ->
  exists a b, optimalize env s est = Ok (a, true) /\ optimalize env s1 est = Ok (b, true) /\
    g_edges (s_graph b) = g_edges (s_graph a) /\ g_nodes (s_graph b) = g_nodes (s_graph a) /\ s_verts b = s_verts a.
Proof using R zero concat.
  intro M. destruct (srun_ok _ _ _ _ R) as [I _]. pose proof (SI_moved s1 M) as I1.
  destruct (optimalize_ok env s est I) as (a & OA & IA & EA & VA & GA & LA & NA).
  destruct (optimalize_ok env s1 est I1) as (b & OB & IB & EB & VB & GB & LB & NB).
  exists a, b. split; [exact OA|]. split; [exact OB|].
  destruct (rest_same s1 M) as (_ & _ & SV & _). destruct M as (W & E & PL & LN & N).
  split; [congruence|]. split; [|congruence].
  apply nth_error_ext. intro k. rewrite NA, NB. rewrite VA, VB, SV.
  destruct (nth_error (moveVerts est (s_verts s)) k) as [v|]; [|reflexivity].
  destruct (nth_error nodes k) as [n|] eqn:NK.
  - destruct (N k n NK) as (p & ->). reflexivity.
  - apply nth_error_None in NK. assert (nth_error (g_nodes (s_graph s1)) k = None) as -> by (apply nth_error_None; lia). reflexivity.
Qed.
End Run.
End P.
