(** Proofs about the scan matcher. *)
From Coq Require Import Reals ZArith List Bool Lia Lra Psatz Permutation.
From Verif Require Import Base LinAlg3 GeoModel GeoSpec GeoProofs OptModel RegModel RegSpec
  CorrModel CorrSpec CorrTable CorrBuild CorrInit CorrCases MatchModel MatchSpec.
Import ListNotations.
Open Scope R_scope.

(** ** what a score says about the points *)
Lemma fold_shift {A} (f : A -> Z) l : forall acc,
  fold_left (fun a p => (a + f p)%Z) l acc = (acc + fold_left (fun a p => (a + f p)%Z) l 0)%Z.
Proof.
  induction l as [|p l IH]; intro acc; cbn [fold_left]; [lia|]. rewrite IH. rewrite (IH (0 + f p)%Z). lia.
Qed.
Lemma split_hits {A} (f : A -> Z) l : (forall p, In p l -> (0 <= f p <= 100)%Z) ->
  exists hits misses, Permutation l (hits ++ misses) /\ (forall p, In p hits -> In p l /\ (0 < f p)%Z) /\
    (fold_left (fun a p => (a + f p)%Z) l 0 <= 100 * Z.of_nat (length hits))%Z.
Proof.
  induction l as [|p l IH]; intro B.
  - exists [], []. split; [apply Permutation_refl|]. split; [intros p []|cbn; lia].
  - destruct IH as (h & m & P & H & S); [intros q Q; apply B; now right|].
    pose proof (B p (or_introl eq_refl)) as Bp. cbn [fold_left]. rewrite fold_shift.
    destruct (Z.ltb_spec 0 (f p)) as [E|E].
    + exists (p :: h), m. split; [now constructor|]. split.
      * intros q [<-|Q]; [split; [now left|exact E]|]. destruct (H q Q). split; [now right|assumption].
      * cbn [length]. lia.
    + exists h, (p :: m). split; [eapply Permutation_trans; [constructor; exact P|apply Permutation_middle]|].
      split; [intros q Q; destruct (H q Q); split; [now right|assumption]|lia].
Qed.

Lemma abs_le_inv x y : Rabs x <= y -> - y <= x <= y.
Proof. unfold Rabs. destruct (Rcase_abs x); lra. Qed.
Lemma cell_near target step t p : good target step (1 / 2) t ->
  forall v, ptScore t p = Ok v -> (0 < v)%Z ->
  exists q, In q target /\ within ((IZR (l_border t) + 1) * step) p q.
Proof.
  intros G v E P. pose proof G as (Hs & GM & L & V). pose proof GM as (G1 & G2 & _).
  destruct (ptScore_ok _ _ _ _ p G) as [ES IB]. rewrite E in ES. injection ES as ES.
  destruct (insideBox t p) eqn:I; [|lia]. rewrite ES in P.
  destruct (V _ _ (IB eq_refl)) as (_ & ([Z0|(r0 & c0 & (q & Q1 & Q2 & Q3) & N1 & N2 & _)] & _) & _); [lia|].
  exists q. split; [exact Q1|].
  assert (Fp : fallsInto t p (rowOf t (snd p)) (colOf t (fst p))).
  { apply falls_iff; [split; [now rewrite G1|now rewrite G2, G1]|]. now split. }
  set (r := rowOf t (snd p)) in *. set (c := colOf t (fst p)) in *. clearbody r c.
  unfold fallsInto in Fp, Q3. rewrite G1 in *.
  assert (A1 : IZR (Z.abs (c - c0)) <= IZR (l_border t)) by now apply IZR_le.
  assert (A2 : IZR (Z.abs (r - r0)) <= IZR (l_border t)) by now apply IZR_le.
  rewrite abs_IZR, minus_IZR in A1, A2. rewrite !minus_IZR in Fp, Q3.
  destruct Fp as [F1 F2], Q3 as [F3 F4].
  set (b := IZR (l_border t)) in *. clearbody b.
  unfold within. split; apply Rabs_def1.
  - apply abs_le_inv in A1. nra.
  - apply abs_le_inv in A1. nra.
  - apply abs_le_inv in A2. nra.
  - apply abs_le_inv in A2. nra.
Qed.

Lemma score_overlap target step pts x tab : 0 < step -> 1 / 2 * step <= 997 / 100 -> target <> [] ->
  initGrid target step (1 / 2) = Ok tab -> getScorePts tab pts = Ok (Fin x) ->
  (0 <= x <= INR (length pts) / INR (length target)) /\
  exists b, nearest (2 * sigma step (1 / 2)) b /\
    overlap ((IZR b + 1) * step) (x * INR (length target)) pts target.
Proof.
  intros Hs Hw NE E S.
  destruct (scores_spec _ _ _ _ Hs Hw E) as [SB _]. destruct (SB pts) as (s & Es & B).
  rewrite S in Es. injection Es as <-. destruct (B NE) as (y & Ey & By). injection Ey as <-.
  split; [exact By|].
  destruct (init_good target step (1 / 2) Hs Hw) as (t' & E' & G). rewrite E in E'. injection E' as <-.
  destruct (good_geom _ _ _ _ G) as (_ & _ & NB & _).
  exists (l_border tab). split; [exact NB|].
  pose proof G as (_ & GM & L & V). pose proof GM as (_ & _ & _ & _ & _ & _ & G7).
  set (f := fun p => match ptScore tab p with Ok v => v | _ => 0%Z end).
  assert (Fo : forall p, ptScore tab p = Ok (f p) /\ (0 <= f p <= 100)%Z).
  { intro p. unfold f. destruct (ptScore_ok _ _ _ _ p G) as [EP IB]. rewrite EP. split; [reflexivity|].
    destruct (insideBox tab p); [|lia]. exact (proj1 (V _ _ (IB eq_refl))). }
  destruct (split_hits f pts (fun p _ => proj2 (Fo p))) as (h & m & P & H & SH).
  exists h, m. split; [exact P|]. split.
  { intros p Hp. destruct (H p Hp) as [_ Pp]. apply (cell_near _ _ _ _ G (f p)); [apply Fo|exact Pp]. }
  assert (PP : 0 < INR (length target)) by (apply lt_0_INR; destruct target; [congruence|cbn; lia]).
  unfold getScorePts, scoreOf in S. rewrite (sum_fold _ (ptScore tab) f pts 0%Z (fun p _ => proj1 (Fo p))) in S.
  cbn [bind] in S. set (n := fold_left _ pts 0%Z) in *. rewrite G7 in S.
  apply IZR_le in SH. rewrite mult_IZR, <- INR_IZR_INZ in SH.
  destruct (Nat.eqb_spec (length pts) 0) as [Z0|Z0].
  - injection S as <-. rewrite Rmult_0_l. apply pos_INR.
  - unfold xdiv, OCCUPIED in S. destruct (Req_EM_T (100 * INR (length target)) 0) as [Q|Q]; [exfalso; lra|].
    injection S as <-.
    replace (IZR n / (100 * INR (length target)) * INR (length target)) with (IZR n / 100) by (field; lra).
    lra.
Qed.
Lemma small_cells step b : 0 < step <= 1 -> nearest (2 * sigma step (1 / 2)) b -> b = 1%Z.
Proof.
  intros S N. apply (nearest_unique (2 * sigma step (1 / 2))); [exact N|].
  unfold sigma. rewrite Rmin_left by lra. rewrite Rmax_left by lra. unfold nearest. lra.
Qed.

Section P.
  Context {F : Type}.
  Variable cloud : F -> list P2.
  Variable cellSize : F -> R.
  Variable d2d : F -> F -> T2 -> bool * T2.
  Variable corr : R -> list P2 -> list P2 -> T2 -> res (bool * T2).
  Notation robustRun := (robustRun d2d corr).
  Notation align := (align d2d corr).
  Notation matchFrames := (matchFrames cloud cellSize d2d corr).
  Notation mstep := (mstep cloud cellSize d2d corr).
  Notation run ops := (foldM mstep ops (newMatcher (F := F))).
  Notation verified := (verified cloud cellSize).

  (** results are only kept while both clouds are there *)
  Definition minv (s : mstate F) : Prop :=
    ms_in s = None \/ ms_target s = None -> ms_conv s = false.

  Lemma finish_fields (s : mstate F) q first t s' : finishAlign s q first t = Ok s' ->
    exists c f x, s' = outcome s c f x.
  Proof.
    unfold finishAlign. intro H. apply bind_ok_inv in H. destruct H as (s2 & _ & H).
    destruct (xlt s2 _); [destruct (xgt q _); [destruct first|]|]; try discriminate;
      injection H as <-; eauto.
  Qed.
  Lemma robust_fields s g s' : robustRun s g = Ok s' -> exists c f x, s' = outcome s c f x.
  Proof.
    unfold MatchModel.robustRun. intro H. apply bind_ok_inv in H. destruct H as (q & _ & H).
    destruct (fst (runD2d d2d s g) && xgt q (Fin (7 / 10))); [eapply finish_fields; exact H|].
    apply bind_ok_inv in H. destruct H as (rc & _ & H).
    destruct (negb (fst rc)); [injection H as <-; eauto|].
    destruct (negb (fst (runD2d d2d s (snd rc)))); [injection H as <-; eauto|].
    eapply finish_fields; exact H.
  Qed.
  Lemma align_fields s g s' : align s g = Ok s' ->
    ms_limit s' = ms_limit s /\ ms_in s' = ms_in s /\ ms_target s' = ms_target s.
  Proof.
    unfold MatchModel.align. intro H.
    assert (K : s' = s \/ robustRun s g = Ok s').
    { destruct (ms_in s); [destruct (ms_target s)|]; [now right| |]; left; injection H as <-; reflexivity. }
    destruct K as [->|K]; [auto|]. destruct (robust_fields _ _ _ K) as (c & f & x & ->). cbn. auto.
  Qed.
  Lemma pclSet_none old c : pclSet old c = None -> old = None.
  Proof. destruct c; [auto|discriminate]. Qed.

  Lemma step_inv s o s' : minv s -> mstep s o = Ok s' ->
    minv s' /\ ms_limit s' = match o with
      | Threshold x => if Rlt_dec 0 x then if Rlt_dec x 1 then x else ms_limit s else ms_limit s
      | Match _ _ _ => ms_limit s end.
  Proof.
    intros I H. destruct o as [x|a b g]; cbn [MatchModel.mstep] in H.
    - injection H as <-. unfold setScoreThreshold, setRejectionLimit.
      destruct (Rlt_dec 0 x), (Rlt_dec x 1); (split; [exact I|reflexivity]).
    - apply bind_ok_inv in H. destruct H as ([s1 r] & H & E). injection E as <-. cbn [fst].
      unfold MatchModel.matchFrames in H. apply bind_ok_inv in H. destruct H as (s2 & H & E).
      injection E as <- _. set (s0 := setInputTarget cloud cellSize (setInputSource cloud s a) b) in *.
      destruct (align_fields _ _ _ H) as (L & A & B). split; [|exact L].
      intro N. rewrite A, B in N. unfold MatchModel.align in H.
      assert (E : s2 = s0).
      { destruct N as [N|N]; rewrite N in H; [|destruct (ms_in s0)]; injection H as <-; reflexivity. }
      subst s2. cbn in N |- *. apply I.
      destruct N as [N|N]; apply pclSet_none in N; auto.
  Qed.
  Lemma run_inv ops : forall s0 s, minv s0 -> foldM mstep ops s0 = Ok s ->
    minv s /\ ms_limit s = fold_left (fun l o => match o with
      | Threshold x => if Rlt_dec 0 x then if Rlt_dec x 1 then x else l else l
      | Match _ _ _ => l end) ops (ms_limit s0).
  Proof.
    induction ops as [|o t IH]; intros s0 s I H; cbn [foldM] in H.
    - injection H as <-. auto.
    - apply bind_ok_inv in H. destruct H as (s1 & H1 & H).
      destruct (step_inv _ _ _ I H1) as [I1 L1]. destruct (IH _ _ I1 H) as [I2 L2].
      split; [exact I2|]. cbn [fold_left]. rewrite L2, L1. reflexivity.
  Qed.
  Lemma reach_inv ops s : run ops = Ok s -> minv s /\ ms_limit s = asked ops.
  Proof. intro H. apply (run_inv ops newMatcher s (fun _ => eq_refl) H). Qed.
  Lemma asked_range ops : 0 < asked (F := F) ops < 1.
  Proof.
    unfold asked. assert (G : forall l0, 0 < l0 < 1 -> 0 < fold_left (fun l o => match o with
      | Threshold x => if Rlt_dec 0 x then if Rlt_dec x 1 then x else l else l
      | Match _ _ _ => l end) ops l0 < 1).
    { induction ops as [|o t IH]; intros l0 H; cbn [fold_left]; [exact H|]. apply IH.
      destruct o as [x|]; [|exact H]. destruct (Rlt_dec 0 x); [|exact H]. destruct (Rlt_dec x 1); lra. }
    apply G. lra.
  Qed.

  (** ** accepted results *)
  Lemma finish_true (s : mstate F) q first t s' : finishAlign s q first t = Ok s' -> ms_conv s' = true ->
    (ms_final s' = t /\ proofTransform s t = Ok (ms_quality s') /\
     xlt (ms_quality s') (Fin (ms_limit s)) = false) \/
    (first = Some (ms_final s') /\ ms_quality s' = q /\ xgt q (Fin (6 / 10)) = true).
  Proof.
    unfold finishAlign. intros H C. apply bind_ok_inv in H. destruct H as (s2 & E & H).
    destruct (xlt s2 (Fin (ms_limit s))) eqn:L.
    - destruct (xgt q (Fin (6 / 10))) eqn:G; [|injection H as <-; discriminate].
      destruct first as [f|]; [|discriminate]. injection H as <-. right. cbn. auto.
    - injection H as <-. left. cbn. auto.
  Qed.
  Lemma robust_true s g s' : robustRun s g = Ok s' -> ms_conv s' = true ->
    (exists g', fst (runD2d d2d s g') = true) /\
    (exists g', ms_final s' = snd (runD2d d2d s g')) /\
    proofTransform s (ms_final s') = Ok (ms_quality s') /\
    (xlt (ms_quality s') (Fin (ms_limit s)) = false \/ xgt (ms_quality s') (Fin (6 / 10)) = true).
  Proof.
    unfold MatchModel.robustRun. intros H C. apply bind_ok_inv in H. destruct H as (q & Eq & H).
    destruct (fst (runD2d d2d s g)) eqn:C1; cbn [andb] in H.
    - destruct (xgt q (Fin (7 / 10))) eqn:G.
      + destruct (finish_true _ _ _ _ _ H C) as [(A & B & D)|(A & _)]; [|discriminate].
        split; [eauto|]. split; [eauto|]. rewrite A. auto.
      + apply bind_ok_inv in H. destruct H as (rc & _ & H).
        destruct (negb (fst rc)); [injection H as <-; discriminate|].
        destruct (fst (runD2d d2d s (snd rc))) eqn:C2; cbn [negb] in H; [|injection H as <-; discriminate].
        destruct (finish_true _ _ _ _ _ H C) as [(A & B & D)|(A & B & D)].
        * split; [eauto|]. split; [eauto|]. rewrite A. auto.
        * injection A as A. split; [eauto|]. split; [eauto|]. rewrite <- A, B. auto.
    - apply bind_ok_inv in H. destruct H as (rc & _ & H).
      destruct (negb (fst rc)); [injection H as <-; discriminate|].
      destruct (fst (runD2d d2d s (snd rc))) eqn:C2; cbn [negb] in H; [|injection H as <-; discriminate].
      destruct (finish_true _ _ _ _ _ H C) as [(A & B & D)|(A & B & D)].
      * split; [eauto|]. split; [eauto|]. rewrite A. auto.
      * injection A as A. split; [eauto|]. split; [eauto|]. rewrite <- A, B. auto.
  Qed.

  Lemma success_nonempty ops s a b g s' r : empty_fails cloud d2d -> run ops = Ok s ->
    matchFrames s a b g = Ok (s', r) -> mr_success r = true ->
    cloud a <> [] /\ cloud b <> [] /\
    robustRun (setInputTarget cloud cellSize (setInputSource cloud s a) b) g = Ok s' /\
    r = mkMR (ms_conv s') (ms_quality s') (mkM 5000 0 0 0 5000 0 0 0 10000) (ms_final s').
  Proof.
    intros EF R H S. destruct (reach_inv _ _ R) as [I _].
    unfold MatchModel.matchFrames in H. apply bind_ok_inv in H. destruct H as (s2 & H & E).
    injection E as <- <-. cbn [mr_success] in S.
    set (s0 := setInputTarget cloud cellSize (setInputSource cloud s a) b) in *.
    assert (K : robustRun s0 g = Ok s2).
    { unfold MatchModel.align in H.
      destruct (ms_in s0) eqn:EI; [destruct (ms_target s0) eqn:ET; [exact H|]|];
        exfalso; injection H as <-; cbn in S, EI; try cbn in ET.
      - rewrite I in S; [discriminate|]. right. now apply pclSet_none in ET.
      - rewrite I in S; [discriminate|]. left. now apply pclSet_none in EI. }
    destruct (robust_true _ _ _ K S) as ((g' & C) & _).
    cbn [runD2d s0 setInputTarget setInputSource ms_src ms_tgt] in C.
    assert (NE : cloud a <> [] /\ cloud b <> []).
    { split; intro N; rewrite (EF a b g') in C; auto; discriminate. }
    destruct NE. auto.
  Qed.

  Theorem accepted ops s a b g s' r : empty_fails cloud d2d ->
    0 < cellSize b -> 1 / 2 * cellSize b <= 997 / 100 -> run ops = Ok s ->
    matchFrames s a b g = Ok (s', r) -> mr_success r = true ->
    exists x, mr_score r = Fin x /\ verified a b (mr_transform r) x /\
      Rmin (asked ops) (6 / 10) <= x <= INR (length (cloud a)) / INR (length (cloud b)) /\
      (exists g', mr_transform r = snd (d2d a b g')) /\
      exists n, nearest (2 * sigma (cellSize b) (1 / 2)) n /\ (cellSize b <= 1 -> n = 1%Z) /\
        overlap ((IZR n + 1) * cellSize b) (x * INR (length (cloud b)))
                (map (t2apply (mr_transform r)) (cloud a)) (cloud b).
  Proof.
    intros EF Hc Hw R H S. destruct (reach_inv _ _ R) as [_ L].
    destruct (success_nonempty _ _ _ _ _ _ _ EF R H S) as (NA & NB & K & ->). cbn [mr_success] in S.
    destruct (robust_true _ _ _ K S) as (_ & (g' & FD) & PT & Q).
    cbn [mr_score mr_transform]. cbn [runD2d setInputTarget setInputSource ms_src ms_tgt] in FD.
    unfold proofTransform in PT. cbn [ms_in ms_target ms_cell setInputTarget setInputSource] in PT.
    destruct (cloud a) as [|pa la] eqn:EA; [congruence|]. destruct (cloud b) as [|pb lb] eqn:EB; [congruence|].
    cbn [pclSet] in PT. apply bind_ok_inv in PT. destruct PT as (tab & ET & ES).
    destruct (scores_spec _ _ _ _ Hc Hw ET) as [SB _].
    destruct (SB (map (t2apply (ms_final s')) (pa :: la))) as (sc & Es & B).
    rewrite ES in Es. injection Es as Es. destruct (B NB) as (x & Ex & Bx). rewrite Ex in Es.
    exists x. rewrite Es. split; [reflexivity|]. split.
    { exists tab. rewrite EA, EB. split; [exact ET|]. rewrite ES, Es. reflexivity. }
    split.
    { cbn [setInputTarget setInputSource ms_limit] in Q. rewrite L, Es in Q. rewrite map_length in Bx.
      split; [|apply Bx]. cbn [xlt xgt] in Q.
      destruct Q as [Q|Q].
      - unfold xlt, xgt in Q. destruct (Rlt_dec x (asked ops)); [discriminate|].
        apply Rle_trans with (asked ops); [apply Rmin_l|lra].
      - unfold xgt in Q. destruct (Rlt_dec (6 / 10) x); [|discriminate].
        apply Rle_trans with (6 / 10); [apply Rmin_r|lra]. }
    split; [eauto|].
    rewrite Es in ES. destruct (score_overlap _ _ _ _ _ Hc Hw NB ET ES) as (_ & n & N & O).
    exists n. split; [exact N|]. split; [intro; apply (small_cells (cellSize b)); [lra|exact N]|exact O].
  Qed.

  (** ** no memory *)
  Lemma robust_same (s1 s2 : mstate F) g : ms_limit s1 = ms_limit s2 -> ms_src s1 = ms_src s2 -> ms_tgt s1 = ms_tgt s2 ->
    ms_in s1 = ms_in s2 -> ms_target s1 = ms_target s2 -> ms_cell s1 = ms_cell s2 ->
    robustRun s1 g = robustRun s2 g.
  Proof.
    destruct s1 as [a1 a2 a3 a4 a5 a6 a7 a8 a9], s2 as [b1 b2 b3 b4 b5 b6 b7 b8 b9].
    cbn [ms_limit ms_src ms_tgt ms_in ms_target ms_cell]. intros -> -> -> -> -> ->. reflexivity.
  Qed.
  Theorem same_nonempty ops1 ops2 s1 s2 a b g : run ops1 = Ok s1 -> run ops2 = Ok s2 ->
    asked ops1 = asked ops2 -> cloud a <> [] -> cloud b <> [] ->
    matchFrames s1 a b g = matchFrames s2 a b g.
  Proof.
    intros R1 R2 A NA NB. destruct (reach_inv _ _ R1) as [_ L1]. destruct (reach_inv _ _ R2) as [_ L2].
    unfold MatchModel.matchFrames, MatchModel.align.
    cbn [ms_in ms_target setInputTarget setInputSource].
    destruct (cloud a) as [|pa la] eqn:EA; [congruence|]. destruct (cloud b) as [|pb lb] eqn:EB; [congruence|].
    cbn [pclSet].
    rewrite (robust_same _ (setInputTarget cloud cellSize (setInputSource cloud s2 a) b));
      cbn [ms_limit ms_src ms_tgt ms_in ms_target ms_cell setInputTarget setInputSource];
      rewrite ?EA, ?EB; try reflexivity. congruence.
  Qed.
  Theorem empty_rejected ops s a b g s' r : empty_fails cloud d2d -> run ops = Ok s ->
    cloud a = [] \/ cloud b = [] -> matchFrames s a b g = Ok (s', r) -> mr_success r = false.
  Proof.
    intros EF R N H. destruct (mr_success r) eqn:S; [|reflexivity]. exfalso.
    destruct (success_nonempty _ _ _ _ _ _ _ EF R H S) as (NA & NB & _). tauto.
  Qed.
  Theorem always_rigid ops s a b g s' r : (forall a b g, rigid (snd (d2d a b g))) ->
    (forall c x y g r, corr c x y g = Ok r -> rigid (snd r)) -> run ops = Ok s ->
    matchFrames s a b g = Ok (s', r) -> rigid (mr_transform r).
  Proof.
    intros RD RC.
    assert (RF : forall (s : mstate F) q f t s', rigid t -> (forall u, f = Some u -> rigid u) ->
              finishAlign s q f t = Ok s' -> rigid (ms_final s')).
    { clear s s' ops r. intros s q f t s' T U H. unfold finishAlign in H. apply bind_ok_inv in H.
      destruct H as (s2 & _ & H).
      destruct (xlt s2 _); [destruct (xgt q _); [destruct f as [u|]|]|]; try discriminate;
        injection H as <-; cbn; auto. }
    assert (RD' : forall (s : mstate F) g, rigid (snd (runD2d d2d s g))).
    { intros s1 g1. unfold runD2d. destruct (ms_src s1), (ms_tgt s1); cbn [snd]; auto using rigid_id. }
    assert (RR : forall s g s', robustRun s g = Ok s' -> rigid (ms_final s')).
    { clear s s' ops r g. intros s g s' H. unfold MatchModel.robustRun in H. apply bind_ok_inv in H.
      destruct H as (q & _ & H). destruct (fst (runD2d d2d s g) && xgt q (Fin (7 / 10))).
      - eapply RF; [| |exact H]; [apply RD'|discriminate].
      - apply bind_ok_inv in H. destruct H as (rc & EC & H).
        assert (RRC : rigid (snd rc)).
        { unfold runCorr in EC. destruct (ms_in s), (ms_target s); try discriminate. eapply RC; exact EC. }
        destruct (negb (fst rc)); [injection H as <-; apply rigid_id|].
        destruct (negb (fst (runD2d d2d s (snd rc)))); [injection H as <-; exact RRC|].
        eapply RF; [| |exact H]; [apply RD'|intros u E; injection E as <-; apply RD']. }
    assert (RA : forall s g s', rigid (ms_final s) -> align s g = Ok s' -> rigid (ms_final s')).
    { clear s s' ops r g. intros s g s' T H. unfold MatchModel.align in H.
      destruct (ms_in s); [destruct (ms_target s)|]; [eapply RR; exact H| |]; injection H as <-; exact T. }
    assert (RM : forall s a b g s' r, rigid (ms_final s) -> matchFrames s a b g = Ok (s', r) ->
              rigid (ms_final s') /\ mr_transform r = ms_final s').
    { clear s a b g s' ops r. intros s a b g s' r T H. unfold MatchModel.matchFrames in H. apply bind_ok_inv in H.
      destruct H as (s2 & H & E). injection E as <- <-. split; [|reflexivity].
      eapply RA; [|exact H]. exact T. }
    intros R H.
    assert (RS : rigid (ms_final s)).
    { clear H. revert R. generalize (newMatcher (F := F)) (rigid_id : rigid (ms_final (newMatcher (F := F)))).
      induction ops as [|o t IH]; intros s0 T R; cbn [foldM] in R; [injection R as <-; exact T|].
      apply bind_ok_inv in R. destruct R as (s1 & H1 & R). apply (IH s1); [|exact R].
      destruct o as [x|a1 b1 g1]; cbn [MatchModel.mstep] in H1.
      - injection H1 as <-. unfold setScoreThreshold. destruct (setRejectionLimit x); exact T.
      - apply bind_ok_inv in H1. destruct H1 as ([s3 r3] & H1 & E). injection E as <-.
        apply (RM _ _ _ _ _ _ T H1). }
    destruct (RM _ _ _ _ _ _ RS H) as [A ->]. exact A.
  Qed.
End P.

(** ** the grid registration on an empty grid *)
Lemma d2d_zero_fails solve eps step max_iter fuel ready ly ls guess s :
  solves_zero solve -> (forall q, ly_score ly q = sdzero) ->
  forall r, d2dAlign solve eps step max_iter fuel ready (ly :: ls) guess s = Some (Some r) -> rs_conv r = false.
Proof.
  intros SZ Z r. unfold d2dAlign. destruct ready; [|intro H; injection H as <-; reflexivity].
  cbn [runLayers]. destruct fuel as [|fuel]; [discriminate|]. cbn [d2dLoop].
  unfold newtonStep. rewrite Z. cbn [sd_hess sd_grad sdzero].
  assert (E : vscale (-1) vzero = vzero) by (unfold vscale, vzero; cbn; f_equal; ring).
  rewrite E, SZ. destruct (Req_EM_T (vnorm vzero) 0) as [_|N].
  - intro H. injection H as <-. reflexivity.
  - exfalso. apply N. unfold vnorm. replace (vdot vzero vzero) with 0 by (mcomp; ring). apply sqrt_0.
Qed.
Lemma score_no_source nearest param t h : calcScore nearest param [] t h = sdzero.
Proof. reflexivity. Qed.
Lemma sdadd_zero : sdadd sdzero sdzero = sdzero.
Proof.
  unfold sdadd, sdzero, madd, vadd, mzero, vzero. cbn. rewrite !Rplus_0_l. reflexivity.
Qed.
Lemma score_no_target near param src t h : (forall p k, near p k = []) -> calcScore near param src t h = sdzero.
Proof.
  intro E. unfold calcScore. induction src as [|c l IH]; [reflexivity|].
  cbn [fold_left]. unfold cellScore at 2. rewrite E. cbn [fold_left]. rewrite sdadd_zero. exact IH.
Qed.
