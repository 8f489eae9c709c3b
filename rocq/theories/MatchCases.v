(** The scan matcher: when it returns, and concrete matches. *)
From Coq Require Import Reals ZArith List Bool Lia Lra Psatz Permutation.
From Verif Require Import Base LinAlg3 GeoModel GeoSpec GeoProofs OptModel RegModel RegSpec
  CorrModel CorrSpec CorrTable CorrBuild CorrInit CorrSearch CorrCases MatchModel MatchSpec MatchProofs.
Import ListNotations.
Open Scope R_scope.

Section Returns.
  Context {F : Type}.
  Variable cloud : F -> list P2.
  Variable cellSize : F -> R.
  Variable d2d : F -> F -> T2 -> bool * T2.
  Variable corr : R -> list P2 -> list P2 -> T2 -> res (bool * T2).
  Hypothesis cells : forall f, 0 < cellSize f /\ 1 / 2 * cellSize f <= 997 / 100.
  Hypothesis defined : forall f x y g, exists r, corr (cellSize f) x y g = Ok r.

  Lemma proof_ok (s : mstate F) x y f t : ms_in s = Some x -> ms_target s = Some y ->
    ms_cell s = cellSize f -> exists q, proofTransform s t = Ok q.
  Proof.
    intros A B C. unfold proofTransform. rewrite A, B, C.
    destruct (cells f) as [C1 C2].
    destruct (init_good y (cellSize f) (1 / 2) C1 C2) as (tab & E & G). rewrite E. cbn [bind].
    destruct (scores_spec _ _ _ _ C1 C2 E) as [S _].
    destruct (S (map (t2apply t) x)) as (q & Q & _). eauto.
  Qed.
  Lemma robust_ok (s : mstate F) x y f g : ms_in s = Some x -> ms_target s = Some y ->
    ms_cell s = cellSize f -> ms_limit s <= 7 / 10 -> exists s', robustRun d2d corr s g = Ok s'.
  Proof.
    intros A B C L. unfold robustRun.
    destruct (proof_ok s x y f (snd (runD2d d2d s g)) A B C) as [q EQ]. rewrite EQ. cbn [bind].
    destruct (fst (runD2d d2d s g) && xgt q (Fin (7 / 10))) eqn:Q.
    - apply andb_true_iff in Q. destruct Q as [_ Q]. unfold finishAlign. rewrite EQ. cbn [bind].
      assert (N : xlt q (Fin (ms_limit s)) = false).
      { destruct q as [v| | |]; cbn in Q |- *; try discriminate; try reflexivity.
        destruct (Rlt_dec (7 / 10) v); [|discriminate]. destruct (Rlt_dec v (ms_limit s)); [exfalso; lra|reflexivity]. }
      rewrite N. eauto.
    - unfold runCorr. rewrite A, B, C. destruct (defined f x y g) as [rc ->]. cbn [bind].
      destruct (negb (fst rc)); [eauto|]. destruct (negb (fst (runD2d d2d s (snd rc)))); [eauto|].
      unfold finishAlign. destruct (proof_ok s x y f (snd (runD2d d2d s (snd rc))) A B C) as [q2 ->]. cbn [bind].
      destruct (xlt q2 _); [destruct (xgt q (Fin (6 / 10)))|]; eexists; reflexivity.
  Qed.
  Lemma match_ok (s : mstate F) a b g : ms_limit s <= 7 / 10 ->
    exists s' r, matchFrames cloud cellSize d2d corr s a b g = Ok (s', r).
  Proof.
    intros L. unfold matchFrames, align.
    set (s0 := setInputTarget cloud cellSize (setInputSource cloud s a) b).
    assert (K : exists s', match ms_in s0, ms_target s0 with
                 | Some _, Some _ => robustRun d2d corr s0 g | _, _ => Ok s0 end = Ok s').
    { destruct (ms_in s0) eqn:A; [destruct (ms_target s0) eqn:B|]; eauto.
      apply (robust_ok s0 l l0 b); auto. }
    destruct K as [s' ->]. cbn [bind]. eauto.
  Qed.
  Theorem returns ops : (forall x, In (Threshold x) ops -> x <= 7 / 10 \/ 1 <= x) -> forall a b g,
    exists s s' r, foldM (mstep cloud cellSize d2d corr) ops newMatcher = Ok s /\
      matchFrames cloud cellSize d2d corr s a b g = Ok (s', r).
  Proof.
    intros T a b g.
    assert (K : exists s, foldM (mstep cloud cellSize d2d corr) ops newMatcher = Ok s /\ ms_limit s <= 7 / 10).
    { assert (L0 : ms_limit (newMatcher (F := F)) <= 7 / 10) by (cbn; lra). revert L0.
      generalize (newMatcher (F := F)). induction ops as [|o t IH]; intros s0 L0; cbn [foldM]; [eauto|].
      assert (S : exists s1, mstep cloud cellSize d2d corr s0 o = Ok s1 /\ ms_limit s1 <= 7 / 10).
      { destruct o as [x|a1 b1 g1]; cbn [mstep].
        - eexists. split; [reflexivity|]. unfold setScoreThreshold, setRejectionLimit.
          destruct (T x (or_introl eq_refl)); destruct (Rlt_dec 0 x), (Rlt_dec x 1); cbn [ms_limit]; lra.
        - destruct (match_ok s0 a1 b1 g1 L0) as (s1 & r & E). rewrite E. cbn [bind fst].
          eexists. split; [reflexivity|]. unfold matchFrames in E. apply bind_ok_inv in E.
          destruct E as (s2 & E & Q). injection Q as <- _.
          destruct (align_fields _ _ _ _ _ E) as (-> & _). exact L0. }
      destruct S as (s1 & -> & L1). cbn [bind]. apply IH; [|exact L1].
      intros x X. apply T. now right. }
    destruct K as (s & E & L). destruct (match_ok s a b g L) as (s' & r & M). eauto.
  Qed.
End Returns.

(** ** Concrete matches: frames are clouds with cells of one metre *)
Definition sure (a b : list P2) (g : T2) : bool * T2 :=
  match a, b with _ :: _, _ :: _ => (true, t2id) | _, _ => (false, t2id) end.
Lemma sure_empty : empty_fails (fun a => a) sure.
Proof. intros a b g [-> | ->]; [reflexivity|]. destruct a; reflexivity. Qed.
Definition metre (_ : list P2) : R := 1.

Lemma three_val t p : good three 1 (1 / 2) t ->
  l_minx t = -5 -> l_maxx t = 5 -> l_miny t = -5 -> l_maxy t = 5 -> l_border t = 1%Z -> l_step t = 1 -> l_half t = 1 / 2 ->
  (forall r c, occupied t three r c <-> r = 6%Z /\ c = 6%Z) ->
  (p = (0, 0) -> ptScore t p = Ok 100%Z) /\ (5 <= fst p \/ fst p <= -5 -> ptScore t p = Ok 0%Z).
Proof.
  intros G B1 B2 B3 B4 Bo S1 S2 OC. destruct (ptScore_ok _ _ _ _ p G) as [E IB].
  pose proof G as (_ & _ & _ & V). split.
  - intros ->. destruct (insideBox t (0, 0)) eqn:I.
    + rewrite E. f_equal. apply (V _ _ (IB eq_refl)). apply OC. unfold rowOf, colOf. cbn [fst snd].
      rewrite B1, B4, S1, S2, Bo. rewrite !(floorR_unique _ 5) by lra. now split.
    + exfalso. assert (S : strictly t (0, 0)) by (unfold strictly; rewrite B1, B2, B3, B4; cbn; lra).
      apply insideBox_spec in S. congruence.
  - intros O. destruct (insideBox t p) eqn:I; [|exact E].
    apply insideBox_spec in I. exfalso. unfold strictly in I. rewrite B1, B2 in I. destruct I. lra.
Qed.
Lemma score_mix k far : (forall p, In p far -> 5 <= fst p \/ fst p <= -5) -> (0 < k)%nat ->
  exists t, initGrid three 1 (1 / 2) = Ok t /\
    getScorePts t (repeat (0, 0) k ++ far) = Ok (Fin (INR k / 3)).
Proof.
  intros FR K. destruct three_table as (t & E & G & B1 & B2 & B3 & B4 & Bo & S1 & S2 & R & C & P & OC).
  exists t. split; [exact E|].
  assert (V : forall p, _) by (intro p; exact (three_val t p G B1 B2 B3 B4 Bo S1 S2 OC)).
  unfold getScorePts, scoreOf.
  assert (SUM : foldM (fun acc p => do v <- ptScore t p; Ok (acc + v)%Z) (repeat (0, 0) k ++ far) 0%Z
                = Ok (100 * Z.of_nat k)%Z).
  { rewrite foldM_app.
    assert (A1 : forall n acc, foldM (fun acc p => do v <- ptScore t p; Ok (acc + v)%Z) (repeat (0, 0) n) acc
                 = Ok (acc + 100 * Z.of_nat n)%Z).
    { induction n as [|n IH]; intro acc; cbn [repeat foldM]; [f_equal; lia|].
      rewrite (proj1 (V (0, 0)) eq_refl). cbn [bind]. rewrite IH. f_equal. lia. }
    rewrite A1. cbn [bind]. clear A1.
    assert (A2 : forall acc, foldM (fun acc p => do v <- ptScore t p; Ok (acc + v)%Z) far acc = Ok acc).
    { induction far as [|p l IH]; intro acc; cbn [foldM]; [reflexivity|].
      rewrite (proj2 (V p) (FR p (or_introl eq_refl))). cbn [bind]. rewrite Z.add_0_r.
      apply IH. intros q Q. apply FR. now right. }
    rewrite A2. f_equal. }
  match goal with |- bind ?x _ = _ => change x with
    (foldM (fun acc p => do v <- ptScore t p; Ok (acc + v)%Z) (repeat (0, 0) k ++ far) 0%Z) end.
  rewrite SUM. cbn [bind].
  match goal with |- context [if ?b then _ else _] => assert (N0 : b = false) end.
  { apply Nat.eqb_neq. rewrite app_length, repeat_length. lia. }
  rewrite N0, P. unfold OCCUPIED, xdiv. replace (100 * INR 3) with 300 by (cbn; ring).
  destruct (Req_EM_T 300 0); [exfalso; lra|]. do 2 f_equal. rewrite mult_IZR, <- INR_IZR_INZ. field.
Qed.

Lemma apply_id p : t2apply t2id p = p.
Proof. destruct p as [x y]. unfold t2apply, t2id. cbn. f_equal; ring. Qed.
Lemma map_id_apply l : map (t2apply t2id) l = l.
Proof. induction l as [|p l IH]; [reflexivity|]. cbn [map]. now rewrite apply_id, IH. Qed.

(** four points on the middle of the target and sixteen elsewhere *)
Definition scattered : list P2 := repeat (0, 0) 4 ++ repeat (9, 9) 16.
Lemma scattered_score : exists t, initGrid three 1 (1 / 2) = Ok t /\ getScorePts t scattered = Ok (Fin (4 / 3)).
Proof.
  destruct (score_mix 4 (repeat (9, 9) 16)) as (t & E & S); [|lia|].
  - intros p I. apply repeat_spec in I. subst p. cbn. lra.
  - exists t. split; [exact E|]. unfold scattered. rewrite S. do 2 f_equal. cbn. lra.
Qed.
Lemma known_accepted corr ops s g p l x : foldM (mstep (fun a => a) metre sure corr) ops newMatcher = Ok s ->
  (exists t, initGrid three 1 (1 / 2) = Ok t /\ getScorePts t (p :: l) = Ok (Fin x)) -> 1 <= x ->
  exists s', matchFrames (fun a => a) metre sure corr s (p :: l) three g =
    Ok (s', mkMR true (Fin x) (mkM 5000 0 0 0 5000 0 0 0 10000) t2id).
Proof.
  intros R (t & E & S) X. destruct (reach_inv _ _ _ _ _ _ R) as [_ L]. pose proof (asked_range (F := list P2) ops) as AR.
  unfold matchFrames, align. cbn [setInputTarget setInputSource ms_in ms_target pclSet three].
  unfold robustRun.
  match goal with |- context [proofTransform ?x _] => set (s0 := x) end.
  assert (PT : proofTransform s0 t2id = Ok (Fin x)).
  { change (proofTransform s0 t2id) with (do t <- initGrid three 1 (1 / 2); getScorePts t (map (t2apply t2id) (p :: l))).
    rewrite E. cbn [bind]. rewrite map_id_apply. exact S. }
  assert (RD : forall g, runD2d sure s0 g = (true, t2id)) by reflexivity. rewrite !RD. cbn [fst snd].
  rewrite PT. cbn [bind].
  unfold xgt at 1. destruct (Rlt_dec (7 / 10) x) as [_|N]; [|exfalso; lra]. cbn [andb].
  unfold finishAlign. rewrite PT. cbn [bind]. unfold xlt, xgt.
  assert (LL : ms_limit s0 = asked ops) by (exact L). rewrite LL.
  destruct (Rlt_dec x (asked ops)) as [N|_]; [exfalso; lra|]. cbn [bind outcome ms_conv ms_quality ms_final]. eexists. reflexivity.
Qed.
Lemma scattered_accepted corr ops s g : foldM (mstep (fun a => a) metre sure corr) ops newMatcher = Ok s ->
  exists s', matchFrames (fun a => a) metre sure corr s scattered three g =
    Ok (s', mkMR true (Fin (4 / 3)) (mkM 5000 0 0 0 5000 0 0 0 10000) t2id).
Proof. intro R. apply (known_accepted _ ops _ _ _ _ _ R scattered_score). lra. Qed.
(** three points in the middle *)
Lemma middle_accepted corr ops s g : foldM (mstep (fun a => a) metre sure corr) ops newMatcher = Ok s ->
  exists s', matchFrames (fun a => a) metre sure corr s (repeat (0, 0) 3) three g =
    Ok (s', mkMR true (Fin (3 / 3)) (mkM 5000 0 0 0 5000 0 0 0 10000) t2id).
Proof.
  intro R. apply (known_accepted _ ops _ _ _ _ _ R); [|lra].
  destruct (score_mix 3 []) as (t & E & S); [intros p []|lia|]. exists t. split; [exact E|].
  replace (3 / 3) with (INR 3 / 3) by (cbn; lra). exact S.
Qed.
Lemma scattered_far : ~ overlap 2 5 scattered three.
Proof.
  intros (h & m & P & N & L).
  assert (C : forall l, (forall p, In p l -> p = (0, 0) \/ p = (9, 9)) -> (forall p, In p l -> exists q, In q three /\ within 2 p q) ->
     forall p, In p l -> p = (0, 0)).
  { intros l A B p I. destruct (A p I) as [-> | ->]; [reflexivity|]. exfalso. destruct (B _ I) as (q & Q & W1 & _).
    cbn [fst] in W1. apply Rabs_def2 in W1. destruct Q as [<-|[<-|[<-|[]]]]; cbn in W1; lra. }
  assert (S : forall p, In p (h ++ m) -> p = (0, 0) \/ p = (9, 9)).
  { intros p I. apply (Permutation_in _ (Permutation_sym P)) in I. unfold scattered in I.
    apply in_app_or in I. destruct I as [I|I]; apply repeat_spec in I; auto. }
  assert (H0 : forall p, In p h -> p = (0, 0)).
  { apply C; [intros p I; apply S, in_or_app; now left|exact N]. }
  (* at most four *)
  assert (D : forall x y : P2, {x = y} + {x <> y}).
  { intros [a b] [c d]. destruct (Req_EM_T a c); [destruct (Req_EM_T b d)|]; [left; congruence| |]; right; congruence. }
  assert (K : (length h <= 4)%nat).
  { assert (CN : count_occ D scattered (0, 0) = 4%nat).
    { unfold scattered. rewrite count_occ_app.
      rewrite (count_occ_repeat_eq D (x := (0, 0)) (y := (0, 0))) by reflexivity.
      rewrite (count_occ_repeat_neq D (x := (0, 0)) (y := (9, 9))); [reflexivity|].
      intro Q. injection Q as Q _. lra. }
    rewrite (Permutation_count_occ D) in P. rewrite P, count_occ_app in CN.
    assert (E : count_occ D h (0, 0) = length h).
    { clear - H0. induction h as [|p l IH]; [reflexivity|]. cbn [length].
      rewrite (H0 p (or_introl eq_refl)), count_occ_cons_eq by reflexivity. f_equal. apply IH. intros q Q. apply H0. now right. }
    lia. }
  apply le_INR in K. cbn in K. lra.
Qed.

(** a cloud against itself *)
Lemma three_self : exists t, initGrid three 1 (1 / 2) = Ok t /\ getScorePts t three = Ok (Fin (1 / 3)).
Proof.
  destruct (score_mix 1 [(5, 5); (-5, -5)]) as (t & E & S); [|lia|].
  - intros p [<-|[<-|[]]]; cbn; lra.
  - exists t. split; [exact E|]. exact S.
Qed.
Lemma self_rejected corr g s' r :
  matchFrames (fun a => a) metre sure corr newMatcher three three g = Ok (s', r) -> mr_success r = false.
Proof.
  intros H. unfold matchFrames, align in H. cbn [setInputTarget setInputSource ms_in ms_target pclSet three] in H.
  unfold robustRun in H. cbn [runD2d ms_src ms_tgt sure fst snd] in H.
  match type of H with context [proofTransform ?x _] => set (s0 := x) in H end.
  assert (PT : proofTransform s0 t2id = Ok (Fin (1 / 3))).
  { destruct three_self as (t & E & S). 
    change (proofTransform s0 t2id) with (do t <- initGrid three 1 (1 / 2); getScorePts t (map (t2apply t2id) three)).
    rewrite E. cbn [bind]. rewrite map_id_apply. exact S. }
  assert (RD : forall g, runD2d sure s0 g = (true, t2id)) by reflexivity. rewrite !RD in H. cbn [fst snd] in H.
  rewrite PT in H. cbn [bind] in H. unfold xgt, xlt in H.
  destruct (Rlt_dec (7 / 10) (1 / 3)) as [N|_]; [exfalso; lra|]. cbn [andb] in H.
  apply bind_ok_inv in H. destruct H as (s2 & H & E). injection E as _ <-. cbn [mr_success].
  apply bind_ok_inv in H. destruct H as (rc & _ & H).
  destruct (negb (fst rc)); [injection H as <-; reflexivity|].
  rewrite RD in H. cbn [negb fst snd] in H. unfold finishAlign in H. rewrite PT in H. cbn [bind xlt xgt ms_limit newMatcher s0] in H.
  change (ms_limit s0) with (6 / 10) in H. unfold xlt, xgt in H.
  destruct (Rlt_dec (1 / 3) (6 / 10)) as [_|N]; [|exfalso; lra].
  destruct (Rlt_dec (6 / 10) (1 / 3)) as [N|_]; [exfalso; lra|]. injection H as <-. reflexivity.
Qed.

(** an empty scan after another one *)
Definition back : T2 := mkT2 1 0 0 1 7 0.
Definition found (_ : R) (_ _ : list P2) (_ : T2) : res (bool * T2) := Ok (true, back).
Lemma empty_after s : ms_in s = Some scattered ->
  exists s' r, matchFrames (fun a => a) metre sure found s [] three t2id = Ok (s', r) /\ mr_success r = false /\ mr_transform r = back.
Proof.
  intro A. destruct s as [x1 x2 x3 x4 x5 x6 x7 x8 x9]. cbn [ms_in] in A. subst x4.
  unfold matchFrames, align. cbn [setInputTarget setInputSource ms_in ms_target pclSet three].
  unfold robustRun. cbn [runD2d ms_src ms_tgt sure fst snd].
  match goal with |- context [proofTransform ?x _] => set (s0 := x) end.
  assert (PT : proofTransform s0 t2id = Ok (Fin (4 / 3))).
  { destruct scattered_score as (t & E & S). 
    change (proofTransform s0 t2id) with (do t <- initGrid three 1 (1 / 2); getScorePts t (map (t2apply t2id) scattered)).
    rewrite E. cbn [bind]. rewrite map_id_apply. exact S. }
  assert (RD : forall g, runD2d sure s0 g = (false, t2id)) by reflexivity. rewrite !RD. cbn [fst snd].
  rewrite PT. cbn [bind andb]. unfold runCorr, found. cbn [s0 setInputTarget setInputSource ms_in ms_target pclSet three bind fst snd negb].
  rewrite RD. cbn [negb fst bind].
  eexists. eexists. split; [reflexivity|]. split; reflexivity.
Qed.
Lemma stale : exists s s' r s0' r0,
  foldM (mstep (fun a => a) metre sure found) [Match scattered three t2id] newMatcher = Ok s /\
  matchFrames (fun a => a) metre sure found s [] three t2id = Ok (s', r) /\
  matchFrames (fun a => a) metre sure found newMatcher [] three t2id = Ok (s0', r0) /\
  mr_success r = false /\ mr_success r0 = false /\ mr_transform r <> mr_transform r0.
Proof.
  destruct (scattered_accepted found [] newMatcher t2id eq_refl) as (s & E).
  assert (A : ms_in s = Some scattered).
  { unfold matchFrames in E. apply bind_ok_inv in E. destruct E as (s2 & E & Q). injection Q as <- _.
    destruct (align_fields _ _ _ _ _ E) as (_ & -> & _). reflexivity. }
  destruct (empty_after s A) as (s' & r & M & S & B).
  exists s, s', r. eexists. eexists. split.
  { cbn [foldM mstep]. rewrite E. reflexivity. }
  split; [exact M|]. split; [reflexivity|]. split; [exact S|]. split; [reflexivity|].
  rewrite B. cbn [mr_transform ms_final setInputTarget setInputSource newMatcher].
  unfold back, t2id. intro Q. injection Q as Q. lra.
Qed.
