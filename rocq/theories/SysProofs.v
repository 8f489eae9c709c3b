(** Proofs about the whole system. *)
From Coq Require Import Reals Qreals Lra List ZArith QArith Bool Lia Arith Sorting.Permutation Sorting.Sorted.
From Verif Require Import Base LinAlg3 GeoModel GeoSpec GeoProofs.
From Verif Require Import GraphModel GraphSpec GraphProofs LoopModel LoopSpec LoopProofs SlamModel SlamSpec SlamProofs.
From Verif Require Import AlgModel AlgSpec AlgProofs.
From Verif Require Import VoxelModel VoxelSpec VoxelProofs VoxelOps GridModel GridSpec GridProofs GridOps ScanSpec ScanProofs ScanInit MapModel MapSpec MapHist MapDraw SysModel SysSpec.
Import ListNotations.
Open Scope nat_scope.
Set Default Proof Using "Type".

(** ** What an update does to the frames, for any kind of frame *)
Section Frames.
Context {Body Win Scan Guess D : Type}.
Notation aenv := (aenv Body Win Scan Guess D).
Notation alg := (alg Body Win).
Notation ainput := (ainput Scan D).
Notation frame := (frame Body).
Notation slam := (slam pose frame M3).

Definition objs (a : alg) : list frame := map (fun n => n_obj n) (nodes (a_slam a)).

Lemma objs_same (s s' : slam) : same_nodes (s_graph s) (s_graph s') ->
  map (fun n => n_obj n) (nodes s') = map (fun n => n_obj n) (nodes s).
Proof.
  intros [L H]. apply nth_error_ext. intro k. unfold nodes. rewrite !nth_error_map.
  destruct (nth_error (g_nodes (s_graph s)) k) as [n|] eqn:E.
  - destruct (H k n E) as (n' & -> & _ & O). cbn. congruence.
  - apply nth_error_None in E. rewrite <- L in E. apply nth_error_None in E. rewrite E. reflexivity.
Qed.

Lemma newNode_frames (env : aenv) (a : alg) i temp ctemp a' evs :
  SI (e_senv env) (a_slam a) -> newNode env a i temp ctemp = Ok (a', evs) ->
  map f_body (objs a') = map f_body (objs a) ++ [f_body (a_frame a)] /\
  (~ In ARedraw evs -> objs a' = objs a ++ [a_frame a]) /\
  exists o, a_frame a' = mkFrame o (b_merge env (b_new env) o (i_scan i)) /\
    draws evs = [(o, t2id)] /\ a_cumul a' = a_cumul a.
Proof.
  intros I H. unfold newNode in H.
  destruct (addPose_SI (e_senv env) (a_slam a) (f_origin (a_frame a)) (a_frame a) I) as [I1 ID].
  destruct (addPose_effect (e_senv env) (a_slam a) (f_origin (a_frame a)) (a_frame a) I) as (GE1 & LN1 & NN1).
  destruct (addPose (e_senv env) (a_slam a) (f_origin (a_frame a)) (a_frame a)) as [s1 id].
  cbn [fst snd] in *. subst id.
  assert (O1 : map (fun n => n_obj n) (nodes s1) = objs a ++ [a_frame a]).
  { apply nth_error_ext. intro k. unfold nodes. rewrite nth_error_map, NN1.
    unfold objs, nodes. destruct (k =? length (g_nodes (s_graph (a_slam a)))) eqn:E.
    - apply Nat.eqb_eq in E. subst k. rewrite nth_error_app2 by (rewrite map_length; lia).
      rewrite map_length, Nat.sub_diag. reflexivity.
    - apply Nat.eqb_neq in E. destruct (le_lt_dec (length (g_nodes (s_graph (a_slam a)))) k).
      + rewrite (proj2 (nth_error_None _ _)) by lia. symmetry. apply nth_error_None.
        rewrite app_length, map_length. cbn. lia.
      + rewrite nth_error_app1 by (rewrite map_length; lia). rewrite nth_error_map. reflexivity. }
  apply bind_ok_inv in H. destruct H as (s2 & E2 & H).
  assert (K2 : SI (e_senv env) s2 /\ same_nodes (s_graph s1) (s_graph s2)).
  { destruct (a_first a).
    - apply bind_ok_inv in E2. destruct E2 as ([s2' eid] & AC & E2). injection E2 as <-.
      cbn [fst]. unfold addLastConstrain in AC.
      destruct (addConstrain_ok _ _ _ _ _ _ _ _ _ I1 AC) as (I2 & _ & _ & _ & _ & SN & _). auto.
    - injection E2 as <-. split; [auto|apply same_nodes_refl]. }
  destruct K2 as (I2 & SN2).
  apply bind_ok_inv in H. destruct H as ([s3 closed] & E3 & H).
  unfold tryLoopCloseLast in E3.
  destruct (tryLoopClose_ok _ _ _ _ _ _ _ I2 E3) as (I3 & SN3 & _).
  assert (O3 : map (fun n => n_obj n) (nodes s3) = objs a ++ [a_frame a]).
  { rewrite <- O1. apply objs_same. eapply same_nodes_trans; eauto. }
  apply bind_ok_inv in H. destruct H as (s4 & E4 & H).
  assert (K4 : map f_body (map (fun n => n_obj n) (nodes s4)) = map f_body (objs a) ++ [f_body (a_frame a)] /\
     (closed = false -> map (fun n => n_obj n) (nodes s4) = objs a ++ [a_frame a])).
  { destruct closed.
    - apply bind_ok_inv in E4. destruct E4 as ([s4' b4] & E4 & Y). injection Y as <-. cbn [fst].
      unfold optimalizeIterationaly in E4.
      destruct (optimalize_ok (e_senv env) s3 (i_est i) I3) as (s5 & E5 & I5 & GE5 & V5 & _ & LN5 & NN5).
      rewrite E5 in E4. cbn [bind fst] in E4. injection E4 as <- <-.
      split; [|discriminate].
      change ([f_body (a_frame a)]) with (map f_body [a_frame a]). rewrite <- map_app, <- O3.
      apply nth_error_ext. intro k. rewrite !nth_error_map. unfold nodes. rewrite NN5.
      destruct (nth_error (s_verts s5) k) as [v|] eqn:V.
      + destruct (nth_error (g_nodes (s_graph s3)) k); reflexivity.
      + apply nth_error_None in V. rewrite (si_vlen _ _ I5), LN5 in V. apply nth_error_None in V.
        rewrite V. reflexivity.
    - injection E4 as <-. rewrite O3, map_app. auto. }
  destruct K4 as [K4 K5].
  apply bind_ok_inv in H. destruct H as (p & GP & H). injection H as <- <-.
  split; [exact K4|]. split.
  - intro NR. apply K5. destruct closed; [|reflexivity]. exfalso. apply NR. cbn. auto.
  - eexists. split; [reflexivity|]. split; [|reflexivity]. destruct closed; reflexivity.
Qed.

(** The four kinds of update. *)
Inductive did (env : aenv) (a a' : alg) (i : ainput) (evs : list aev) : Prop :=
| did_first : a_init a = false -> made evs = [] -> (~ In ARedraw evs) -> draws evs = [(mkP 0 0 0, t2id)] ->
    a_slam a' = a_slam a ->
    a_frame a' = mkFrame (mkP 0 0 0) (b_init env (f_body (a_frame a)) (i_scan i)) -> did env a a' i evs
| did_skip : a_init a = true -> made evs = [] -> (~ In ARedraw evs) -> draws evs = [] ->
    a_slam a' = a_slam a -> a_frame a' = a_frame a -> did env a a' i evs
| did_stay o m : a_init a = true -> made evs = [] -> (~ In ARedraw evs) -> draws evs = [(o, m)] ->
    o = f_origin (a_frame a) -> a_slam a' = a_slam a ->
    a_frame a' = mkFrame o (b_merge env (f_body (a_frame a)) o (s_move env m (i_scan i))) ->
    did env a a' i evs
| did_node o : a_init a = true -> made evs = [length (objs a)] -> draws evs = [(o, t2id)] ->
    map f_body (objs a') = map f_body (objs a) ++ [f_body (a_frame a)] ->
    (~ In ARedraw evs -> objs a' = objs a ++ [a_frame a]) ->
    a_frame a' = mkFrame o (b_merge env (b_new env) o (i_scan i)) ->
    did env a a' i evs.

Lemma draws_app l l' : draws (l ++ l') = draws l ++ draws l'.
Proof. induction l as [|[] r IH]; cbn; rewrite ?IH; reflexivity. Qed.

Lemma updateGraph_frames (env : aenv) (a : alg) i inc cov a' evs k p :
  SI (e_senv env) (a_slam a) -> aligned (a_slam a) ->
  (a_first a = true -> nodes (a_slam a) <> []) -> a_init a = true ->
  updateGraph env a i inc cov = Ok (a', evs) ->
  did env a a' i (evs ++ [ARep k p]).
Proof.
  intros I AL FN IN H. unfold updateGraph in H.
  destruct (leftWindow env (t2mul (a_temp a) inc)).
  - apply bind_ok_inv in H. destruct H as ([a1 ev1] & NN & H). injection H as <- <-. cbn [fst snd].
    destruct (newNode_frames env a i _ _ a1 ev1 I NN) as (B & O & o & F & DR & _).
    destruct (newNode_ok env a i _ _ a1 ev1 I AL FN NN) as (_ & _ & _ & closed & q & EV & _).
    assert (L : length (objs a) = length (nodes (a_slam a))) by apply map_length.
    apply did_node with o.
    + exact IN.
    + rewrite L, EV. destruct closed; reflexivity.
    + change (draws (ev1 ++ [ARep k p]) = [(o, t2id)]). rewrite draws_app, DR. reflexivity.
    + exact B.
    + intro NR. apply O. intro Y. apply NR. right. apply in_or_app. left. exact Y.
    + exact F.
  - injection H as <- <-. apply (did_stay env a _ i _ (f_origin (a_frame a)) (t2mul (a_temp a) inc));
      try reflexivity; auto.
    intros [Y|[Y|[Y|[]]]]; discriminate.
Qed.

Lemma update_frames (env : aenv) (a : alg) log i a' evs : AI env a log ->
  update env a i = Ok (a', evs) -> did env a a' i evs.
Proof.
  intros [C W F M] H. unfold update in H.
  assert (FN : a_first a = true -> nodes (a_slam a) <> []).
  { rewrite (ai_first _ _ _ C). intros Y E. rewrite E in Y. discriminate. }
  destruct (a_init a) eqn:IN.
  - destruct (a_win a) as [w|] eqn:EW; [|discriminate].
    destruct (movedEnough (t2mul (a_unused a) (i_motion i))).
    + destruct (i_match i) as [reg|].
      * apply bind_ok_inv in H. destruct H as ([a1 ev1] & UG & H). cbn [fst snd] in H.
        destruct (w_move env (w_merge env w (i_scan i) reg) reg) as [w2 c]. injection H as <- <-.
        match type of UG with updateGraph _ ?x _ _ _ = _ =>
          pose proof (updateGraph_frames env x i _ _ a1 ev1 (KMatch (w_origin env w) reg)
          (getPoseFromTransform (a_pos (setWindow a1 w2 c))) (ai_SI _ _ _ C) (ai_al _ _ _ C) FN IN UG) as K end.
        clear UG. rename K into UG.
        destruct UG.
        -- eapply did_first; eauto.
        -- eapply did_skip; eauto.
        -- eapply did_stay; eauto.
        -- eapply did_node; eauto.
      * apply bind_ok_inv in H. destruct H as ([a1 ev1] & UG & H). cbn [fst snd] in H. injection H as <- <-.
        match type of UG with updateGraph _ ?x _ _ _ = _ =>
          pose proof (updateGraph_frames env x i _ _ a1 ev1 KOdo
          (getPoseFromTransform (a_pos a1)) (ai_SI _ _ _ C) (ai_al _ _ _ C) FN IN UG) as K end.
        clear UG. rename K into UG.
        destruct UG.
        -- eapply did_first; eauto.
        -- eapply did_skip; eauto.
        -- eapply did_stay; eauto.
        -- eapply did_node; eauto.
    + injection H as <- <-. eapply did_skip; cbn; try reflexivity; auto. intros [Y|[]]; discriminate.
  - injection H as <- <-. eapply did_first; cbn; try reflexivity; auto. intros [Y|[Y|[]]]; discriminate.
Qed.
End Frames.

(** ** The system *)
Section System.
Context {X Guess D : Type}.
Notation cell := (ncell X).
Notation grid := (ngrid X).
Notation scan := (list (option point)).
Notation body := (res grid).
Variable merge : cell -> cell -> cell.
Variable dflt : cell.
Variable addPt : cell -> point -> cell.
Variable compute : cell -> cell.
Variable tcell : qt -> cell -> cell.
Variable occRay : cell -> point -> cell -> cell.
Variable rawOcc : cell -> Q.
Variable btw : qpose -> qpose -> qt.
Variable tp : qt -> point -> point.
Variable noLin : T2.
Variable moveOrigin : qpose -> qt -> qpose.
Variable moveScan : T2 -> point -> point.
Variable dbl : R -> Q.
Variable radius : Q.
Variable le : lenv pose (frame body) M3 Guess D.
Variable se2' : pose -> pose.
Variable odo : M3.
Variable dist : R.

Notation env := (sysEnv merge dflt addPt compute tcell occRay btw tp noLin moveOrigin moveScan dbl radius le se2' odo dist).
Notation yreach := (yreach merge dflt tcell occRay rawOcc btw tp dbl env).
Notation ystep := (ystep merge dflt tcell occRay rawOcc btw tp dbl env).
Notation drawMap := (drawMap merge dflt tcell occRay rawOcc btw tp dbl).
Notation addToMap := (addToMap merge dflt tcell occRay btw tp).
Notation fill := (fill merge dflt addPt compute tcell occRay btw tp moveScan dbl).
Notation sys := (sys X).
Notation yev := (yev D).
Notation frameNow := (frameNow dbl).
Notation gridOf := (gridOf dbl).

Lemma yreach_run h y : yreach h y -> arun env (rev (map v_in h)) = Ok (y_alg y, events h).
Proof.
  induction 1 as [|h y e y' R IH S]; [reflexivity|].
  destruct S as [i ts a' evs m' o' U DM]. cbn [map rev v_in events v_evs y_alg].
  unfold arun. rewrite foldM_app. unfold arun in IH. rewrite IH. cbn [bind foldM].
  unfold astep. cbn [fst snd]. rewrite U. reflexivity.
Qed.
Lemma yreach_AI h y : yreach h y -> AI env (y_alg y) (events h).
Proof. intro R. exact (arun_ok _ _ _ _ (yreach_run h y R)). Qed.

Lemma made_rev l : made (rev l) = rev (made l).
Proof.
  induction l as [|e r IH]; [reflexivity|]. cbn [rev]. rewrite made_app, IH. destruct e; cbn; rewrite ?app_nil_r; reflexivity.
Qed.
Lemma born_made (h : list yev) : map fst (born h) = rev (made (events h)).
Proof.
  induction h as [|e r IH]; [reflexivity|]. cbn [born events].
  rewrite map_app, map_map, IH, made_app, made_rev, rev_app_distr, rev_involutive. cbn [fst]. rewrite map_id. reflexivity.
Qed.

(** *** what each frame holds *)
Record FI (h : list yev) (a : alg body body) : Prop := {
  fi_none : h = [] <-> a_init a = false;
  fi_len : h <> [] -> length (strokes h) = S (length (objs a));
  fi_zero : h = [] -> objs a = [] /\ f_body (a_frame a) = Ok (newFrame dflt);
  fi_done : forall k f, nth_error (objs a) k = Some f -> f_body f = fill (k =? 0) (scans_of h k);
  fi_cur : h <> [] -> f_body (a_frame a) = fill (length (objs a) =? 0) (scans_of h (length (objs a)))
}.

Lemma scans_same (h : list yev) e f t k : strokes h = f :: t -> made (v_evs e) = [] -> k < length t ->
  scans_of (e :: h) k = scans_of h k.
Proof.
  intros S M L. unfold scans_of. cbn [strokes]. rewrite M, S. cbn [rev].
  rewrite !app_nth1 by (rewrite rev_length; exact L). reflexivity.
Qed.
Lemma scans_more (h : list yev) e f t : strokes h = f :: t -> made (v_evs e) = [] ->
  scans_of (e :: h) (length t) = scans_of h (length t) ++ strokes_of e.
Proof.
  intros S M. unfold scans_of. cbn [strokes]. rewrite M, S. cbn [rev].
  rewrite !app_nth2 by (rewrite rev_length; auto). rewrite rev_length, Nat.sub_diag. reflexivity.
Qed.
Lemma scans_new (h : list yev) e id k : made (v_evs e) = [id] -> k < length (strokes h) -> scans_of (e :: h) k = scans_of h k.
Proof.
  intros M L. unfold scans_of. cbn [strokes]. rewrite M. cbn [rev].
  rewrite app_nth1 by (rewrite rev_length; exact L). reflexivity.
Qed.
Lemma scans_begin (h : list yev) e id : made (v_evs e) = [id] -> scans_of (e :: h) (length (strokes h)) = strokes_of e.
Proof.
  intros M. unfold scans_of. cbn [strokes]. rewrite M. cbn [rev].
  rewrite app_nth2 by (rewrite rev_length; auto). rewrite rev_length, Nat.sub_diag. reflexivity.
Qed.

Lemma fill_snoc first l o m s : l <> [] ->
  fill first (l ++ [(o, m, s)]) =
  bMerge merge dflt addPt compute tcell occRay btw tp dbl (fill first l) o (sMove moveScan m s).
Proof.
  destruct l as [|[[o1 m1] s1] t]; [congruence|]. intros _. cbn [app].
  unfold SysSpec.fill, bMerge, sMove.
  destruct (if first then _ else _) as [g| |]; cbn [bind]; [|reflexivity|reflexivity].
  rewrite foldM_app. cbn [foldM].
  destruct (foldM _ t g) as [g'| |]; cbn [bind]; [|reflexivity|reflexivity].
  unfold add_scan. destruct (mergeInTracedPcl _ _ _ _ _ _ _ _ _ _ _ _); reflexivity.
Qed.
Lemma bind_ret {A} (x : res A) : (do a <- x; Ok a) = x.
Proof. destruct x; reflexivity. Qed.
Lemma fill_first o m s : fill true [(o, m, s)] =
  bInit merge dflt addPt compute tcell occRay btw tp (Ok (newFrame dflt)) s.
Proof. unfold SysSpec.fill. cbn [foldM]. rewrite bind_ret. reflexivity. Qed.
Lemma fill_begin o m s : fill false [(o, m, s)] =
  bMerge merge dflt addPt compute tcell occRay btw tp dbl (Ok (newFrame dflt)) o s.
Proof. unfold SysSpec.fill. cbn [foldM]. rewrite bind_ret. reflexivity. Qed.

(** Every frame has been begun with a scan. *)
Lemma strokes_nonempty h y : yreach h y -> Forall (fun f => f <> []) (strokes h).
Proof.
  induction 1 as [|h y e y' R IH S]; [constructor|].
  pose proof (yreach_AI h y R) as A.
  destruct S as [i ts a' evs m' o' U DM]. cbn [strokes v_evs].
  destruct (update_frames _ _ _ _ _ _ A U) as [IN MD NR DR SL FR|IN MD NR DR SL FR|o m IN MD NR DR O SL FR|o IN MD DR B O FR];
    rewrite MD; unfold strokes_of; cbn [v_evs v_in]; rewrite DR; cbn [map fst snd].
  - destruct (strokes h) as [|f t]; [constructor; [discriminate|constructor]|].
    inversion IH; subst. constructor; [|assumption]. intro E. apply app_eq_nil in E. destruct E; discriminate.
  - assert (NE : strokes h <> []).
    { intro E. destruct h as [|e h'].
      - inversion R; subst. cbn in IN. discriminate.
      - cbn [strokes] in E. destruct (made (v_evs e)); [destruct (strokes h')|]; discriminate. }
    destruct (strokes h) as [|f t]; [congruence|]. rewrite app_nil_r. exact IH.
  - destruct (strokes h) as [|f t]; [constructor; [discriminate|constructor]|].
    inversion IH; subst. constructor; [|assumption]. intro E. apply app_eq_nil in E. destruct E; discriminate.
  - constructor; [discriminate|exact IH].
Qed.

Lemma FI_reach h y : yreach h y -> FI h (y_alg y).
Proof.
  induction 1 as [|h y e y' R IH S].
  { split; cbn; try congruence; try tauto. - intros k f E. destruct k; discriminate. }
  pose proof (yreach_AI h y R) as A. pose proof (strokes_nonempty h y R) as NE.
  destruct S as [i ts a' evs m' o' U DM]. cbn [y_alg].
  pose proof (update_frames _ _ _ _ _ _ A U) as DID.
  assert (IN' : a_init a' = true).
  { assert (A' : AI env a' (rev evs ++ events h)) by (eapply update_ok; eauto).
    destruct (a_init a') eqn:E; [reflexivity|].
    destruct (ai_fresh _ _ _ A' E) as [Y _]. apply app_eq_nil in Y. destruct Y as [Y _].
    destruct evs; [|cbn in Y; destruct (rev evs); discriminate].
    destruct DID as [? ? ? DR|? ? ? DR ? ?|? ? ? ? ? DR|? ? MD]; try discriminate.
    exfalso. unfold update in U. destruct (a_init (y_alg y)); [|discriminate].
    destruct (a_win (y_alg y)); [|discriminate]. destruct (movedEnough _); [|discriminate].
    destruct (i_match i).
    - apply bind_ok_inv in U. destruct U as (rr & _ & U). destruct (w_move _ _ _) in U.
      injection U as _ U. apply app_eq_nil in U. destruct U; discriminate.
    - apply bind_ok_inv in U. destruct U as (rr & _ & U). injection U as _ U.
      apply app_eq_nil in U. destruct U; discriminate. }
  destruct IH as [N LEN Z DONE CUR].
  assert (SAME : forall _ : unit, a_slam a' = a_slam (y_alg y) -> objs a' = objs (y_alg y)).
  { intros _ E. unfold objs. rewrite E. reflexivity. }
  destruct DID as [IN MD NR DR SL FR|IN MD NR DR SL FR|o m IN MD NR DR O SL FR|o IN MD DR B O FR].
  - (* first *)
    assert (H0 : h = []) by (apply N; exact IN). subst h. destruct (Z eq_refl) as [OB BO].
    specialize (SAME tt SL). split.
    + rewrite IN'. split; discriminate.
    + intros _. cbn [strokes v_evs]. rewrite MD, SAME, OB. reflexivity.
    + discriminate.
    + intros k f E. rewrite SAME, OB in E. destruct k; discriminate.
    + intros _. rewrite SAME, OB, FR. cbn [length Nat.eqb f_body].
      unfold scans_of. cbn [strokes v_evs]. rewrite MD. cbn [rev app nth].
      unfold strokes_of. cbn [v_evs v_in]. rewrite DR. cbn [map fst snd]. rewrite fill_first, BO. reflexivity.
  - (* skip *)
    assert (HN : h <> []). { intro E. apply N in E. congruence. }
    specialize (SAME tt SL). specialize (LEN HN).
    destruct (strokes h) as [|f0 t] eqn:ST; [discriminate|]. cbn [length] in LEN. injection LEN as LEN.
    split.
    + rewrite IN'. split; discriminate.
    + intros _. cbn [strokes v_evs]. rewrite MD, SAME, ST. cbn [length]. lia.
    + discriminate.
    + intros k f E. rewrite SAME in E. rewrite (scans_same h (mkYE i ts evs) f0 t k ST MD); [auto|].
      apply nth_error_lt in E. lia.
    + intros _. rewrite SAME, FR, <- LEN, (scans_more h (mkYE i ts evs) f0 t ST MD).
      unfold strokes_of. cbn [v_evs v_in]. rewrite DR. cbn [map]. rewrite app_nil_r, LEN. apply CUR. exact HN.
  - (* stay *)
    assert (HN : h <> []). { intro E. apply N in E. congruence. }
    specialize (SAME tt SL). specialize (LEN HN).
    destruct (strokes h) as [|f0 t] eqn:ST; [discriminate|]. cbn [length] in LEN. injection LEN as LEN.
    split.
    + rewrite IN'. split; discriminate.
    + intros _. cbn [strokes v_evs]. rewrite MD, SAME, ST. cbn [length]. lia.
    + discriminate.
    + intros k f E. rewrite SAME in E. rewrite (scans_same h (mkYE i ts evs) f0 t k ST MD); [auto|].
      apply nth_error_lt in E. lia.
    + intros _. rewrite SAME, FR. cbn [f_body]. rewrite (CUR HN). rewrite <- LEN, (scans_more h (mkYE i ts evs) f0 t ST MD).
      unfold strokes_of. cbn [v_evs v_in]. rewrite DR. cbn [map fst snd]. rewrite fill_snoc; [reflexivity|].
      unfold scans_of. rewrite ST. cbn [rev]. rewrite app_nth2 by (rewrite rev_length; auto).
      rewrite rev_length, Nat.sub_diag. cbn [nth]. inversion NE; assumption.
  - (* node *)
    assert (HN : h <> []). { intro E. apply N in E. congruence. }
    specialize (LEN HN).
    assert (LO : length (objs a') = S (length (objs (y_alg y)))).
    { rewrite <- (map_length f_body (objs a')), B, app_length, map_length. cbn. lia. }
    split.
    + rewrite IN'. split; discriminate.
    + intros _. cbn [strokes v_evs]. rewrite MD, LO. cbn [length]. lia.
    + discriminate.
    + intros k f E. rewrite (scans_new h (mkYE i ts evs) (length (objs (y_alg y))) k MD).
      2:{ apply nth_error_lt in E. lia. }
      assert (E2 : nth_error (map f_body (objs a')) k = Some (f_body f)) by (rewrite nth_error_map, E; reflexivity).
      rewrite B in E2. destruct (Nat.eq_dec k (length (objs (y_alg y)))) as [->|NK].
      * rewrite nth_error_app2 in E2 by (rewrite map_length; auto).
        rewrite map_length, Nat.sub_diag in E2. injection E2 as <-. apply CUR. exact HN.
      * apply nth_error_lt in E. rewrite nth_error_app1 in E2 by (rewrite map_length; lia).
        rewrite nth_error_map in E2. destruct (nth_error (objs (y_alg y)) k) as [f1|] eqn:E1; [|discriminate].
        injection E2 as <-. apply DONE. exact E1.
    + intros _. rewrite LO, FR. cbn [f_body Nat.eqb]. rewrite <- LEN, (scans_begin h (mkYE i ts evs) _ MD).
      unfold strokes_of. cbn [v_evs v_in]. rewrite DR. cbn [map fst snd]. rewrite fill_begin. reflexivity.
Qed.
End System.
