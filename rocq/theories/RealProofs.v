(** The registrations of the program: what they do on frames without distributions, and
    how far they go from where they start. *)
From Coq Require Import Reals Qreals Lra List ZArith QArith Bool Lia Arith Permutation.
From Verif Require Import Base LinAlg3 GeoModel GeoSpec GeoProofs OptModel RegModel RegSpec RegStep RegNewton.
From Verif Require Import CorrModel CorrSpec CorrSearch MatchModel MatchSpec MatchProofs MatchCases.
From Verif Require Import AlgModel VoxelModel GridModel CellsFrom.
From Verif Require Import CloseModel CloseSpec.
From Verif Require Import RealModel RealSpec.
Import ListNotations.
Open Scope R_scope.
Set Default Proof Using "Type".

(** ** the scan matcher only looks at its two frames *)
Section Match.
  Context {F : Type}.
  Variable cloud : F -> list P2.
  Variable cellSize : F -> R.
  Variable d2d d2d' : F -> F -> T2 -> bool * T2.
  Variable corr : R -> list P2 -> list P2 -> T2 -> res (bool * T2).

  Lemma match_cong s a b g : (forall q, d2d a b q = d2d' a b q) ->
    matchFrames cloud cellSize d2d corr s a b g = matchFrames cloud cellSize d2d' corr s a b g.
  Proof.
    intro E. unfold matchFrames, align.
    set (s0 := setInputTarget cloud cellSize (setInputSource cloud s a) b).
    assert (R0 : forall q, runD2d d2d s0 q = runD2d d2d' s0 q).
    { intro q. unfold runD2d. cbn [s0 setInputTarget setInputSource ms_src ms_tgt]. apply E. }
    assert (R1 : robustRun d2d corr s0 g = robustRun d2d' corr s0 g).
    { unfold robustRun. rewrite <- (R0 g). destruct (proofTransform s0 (snd (runD2d d2d s0 g))) as [q| |]; try reflexivity.
      cbn [bind]. destruct (fst (runD2d d2d s0 g) && xgt q (Fin (7 / 10))); [reflexivity|].
      destruct (runCorr corr s0 g) as [rc| |]; try reflexivity. cbn [bind]. rewrite (R0 (snd rc)). reflexivity. }
    rewrite R1. reflexivity.
  Qed.

  (** where an accepted transform comes from *)
  Lemma robust_from (s : mstate F) g s' : robustRun d2d corr s g = Ok s' -> ms_conv s' = true ->
    exists g', (g' = g \/ exists rc, runCorr corr s g = Ok rc /\ fst rc = true /\ g' = snd rc) /\
      ms_final s' = snd (runD2d d2d s g').
  Proof.
    unfold robustRun. intros H C. apply bind_ok_inv in H. destruct H as (q & Eq & H).
    destruct (fst (runD2d d2d s g) && xgt q (Fin (7 / 10))).
    - destruct (finish_true _ _ _ _ _ H C) as [(A & _)|(A & _)]; [|discriminate]. exists g. auto.
    - apply bind_ok_inv in H. destruct H as (rc & EC & H).
      destruct (fst rc) eqn:FR; cbn [negb] in H; [|injection H as <-; discriminate].
      destruct (fst (runD2d d2d s (snd rc))) eqn:C2; cbn [negb] in H; [|injection H as <-; discriminate].
      destruct (finish_true _ _ _ _ _ H C) as [(A & _)|(A & _)].
      + exists (snd rc). split; [right; exists rc; auto|exact A].
      + injection A as A. exists g. auto.
  Qed.
  Lemma match_from limit a b g s' r : empty_fails cloud d2d ->
    matchFrames cloud cellSize d2d corr (setScoreThreshold newMatcher limit) a b g = Ok (s', r) -> mr_success r = true ->
    exists g', (g' = g \/ exists rc, corr (cellSize b) (cloud a) (cloud b) g = Ok rc /\ fst rc = true /\ g' = snd rc) /\
      mr_transform r = snd (d2d a b g').
  Proof.
    intros EF M S.
    assert (RN : foldM (MatchModel.mstep cloud cellSize d2d corr) [Threshold limit] newMatcher =
                 Ok (setScoreThreshold newMatcher limit)) by reflexivity.
    destruct (success_nonempty _ _ _ _ _ _ _ _ _ _ _ EF RN M S) as (NA & NB & K & ->). cbn [mr_success] in S.
    destruct (robust_from _ _ _ K S) as (g' & O & E). cbn [mr_transform]. exists g'. split.
    - destruct O as [O|(rc & C & O)]; [now left|right; exists rc; split; [|exact O]].
      unfold runCorr in C. cbn [setInputTarget setInputSource ms_in ms_target ms_cell] in C.
      destruct (cloud a); [congruence|]. destruct (cloud b); [congruence|]. exact C.
    - rewrite E. reflexivity.
  Qed.
End Match.

(** ** grids without distributions *)
Section Real.
  Context {X : Type}.
  Variable merge : ncell X -> ncell X -> ncell X.
  Variable dflt : ncell X.
  Variable covOf : ncell X -> M3.
  Variable search : list point -> P2 -> nat -> list nat.
  Variable solve : M3 -> V3 -> option V3.
  Notation loopD2d := (loopD2d merge dflt covOf search solve).
  Notation frameD2d := (frameD2d merge dflt covOf search solve).
  Notation d2dLayer := (d2dLayer merge dflt covOf search).

  Hypothesis DG : nc_gauss dflt = false.
  Set Default Proof Using "DG".

  Lemma coarse_none (g g' : ngrid X) cs : getGaussianCells g = [] ->
    createCoarserGrid merge dflt g cs = Ok g' -> getGaussianCells g' = [] /\ n_means g' = Some [].
  Proof.
    intros N E. unfold createCoarserGrid, mergeInCells in E. cbn [orb] in E.
    destruct (bbox _) as [[[x0 y0] x1] y1]. apply bind_ok_inv in E. destruct E as (v0 & E0 & E).
    apply bind_ok_inv in E. destruct E as (v1 & E1 & E). injection E as <-.
    assert (NG : forall c, In c (getValidCells (n_vox g)) -> nc_gauss c = false).
    { intros c I. destruct (nc_gauss c) eqn:G; [|reflexivity]. exfalso.
      assert (J : In c (getGaussianCells g)) by (apply filter_In; auto). rewrite N in J. exact J. }
    assert (V : v1 = v0).
    { clear E0. revert NG E1. generalize (getValidCells (n_vox g)). intro l. revert v0.
      induction l as [|c l IH]; intros v0 NG E1; cbn [foldM] in E1; [now injection E1|].
      rewrite (NG c (or_introl eq_refl)) in E1. cbn [bind] in E1. apply IH; [|exact E1].
      intros c' I. apply NG. now right. }
    subst v1.
    assert (H0 : holds (fun c => nc_gauss c = false) (cells v0)).
    { eapply holds_enlarge; [|exact E0]. intros c I. cbn in I. destruct I as [I|[]]. injection I as <-. exact DG. }
    assert (F : filter nc_gauss (getValidCells v0) = []).
    { pose proof (fun c => holds_valid _ v0 c H0) as K. revert K. generalize (getValidCells v0).
      induction l as [|c l IH]; intro K; [reflexivity|]. cbn [filter]. rewrite (K c (or_introl eq_refl)).
      apply IH. intros c' I. apply K. now right. }
    unfold updateMeans, getGaussianCells. cbn [n_vox n_means]. rewrite F. split; reflexivity.
  Qed.
  Lemma knn_none (g : ngrid X) p k : n_means g = Some [] -> knn search g p k = [].
  Proof.
    intro N. unfold knn. rewrite N. induction (search [] p k) as [|i l IH]; [reflexivity|].
    cbn [flat_map]. rewrite IH. destruct i; reflexivity.
  Qed.
  Lemma layer_none ratio a b size ly : getGaussianCells a = [] \/ getGaussianCells b = [] ->
    d2dLayer ratio a b size = Ok ly -> forall q, ly_score ly q = sdzero.
  Proof.
    intros N E q. unfold RealModel.d2dLayer in E. apply bind_ok_inv in E. destruct E as (a' & EA & E).
    apply bind_ok_inv in E. destruct E as (b' & EB & E). injection E as <-. cbn [ly_score].
    destruct N as [N|N].
    - destruct (coarse_none _ _ _ N EA) as [-> _]. apply score_no_source.
    - apply score_no_target. intros p k. destruct (coarse_none _ _ _ N EB) as [_ M]. rewrite (knn_none b' p k M). reflexivity.
  Qed.
  Lemma d2d_none a b g : solves_zero solve -> getGaussianCells a = [] \/ getGaussianCells b = [] ->
    fst (loopD2d a b g) = false.
  Proof.
    intros SZ N. unfold RealModel.loopD2d, shown. change sizes with (2%Q :: [1; 1 # 2; 1 # 4]%Q). cbn [layersOf].
    destruct (d2dLayer (55 / 100) a b 2) as [ly| |] eqn:E; try reflexivity. cbn [bind].
    match goal with |- context [do b <- ?t; Ok (ly :: b)] => destruct t as [rest| |]; try reflexivity end. cbn [bind].
    match goal with |- context [d2dAlign ?s ?e ?st ?m ?f ?r ?l ?gg ?x] =>
      pose proof (d2d_zero_fails s e st m f r ly rest gg x SZ (layer_none _ _ _ _ _ N E)) as Z;
      destruct (d2dAlign s e st m f r l gg x) as [[rr|]|]; try reflexivity end.
    exact (Z rr eq_refl).
  Qed.

  (** ** how far it goes *)
  Lemma layers_len f l ls : layersOf f l = Ok ls -> length ls = length l.
  Proof using.
    revert ls. induction l as [|q l IH]; intros ls E; cbn [layersOf] in E; [injection E as <-; reflexivity|].
    apply bind_ok_inv in E. destruct E as (a & _ & E). apply bind_ok_inv in E. destruct E as (b & E & Q).
    injection Q as <-. cbn [length]. now rewrite (IH b E).
  Qed.
  Lemma d2d_reach a b v : exists w, snd (loopD2d a b (vecToMat v)) = vecToMat w /\ dist3 w v <= 4.
  Proof.
    unfold RealModel.loopD2d, shown.
    destruct (layersOf (d2dLayer (55 / 100) a b) sizes) as [ls| |] eqn:E; cbn [bind snd];
      try (exists v; split; [reflexivity|rewrite dist3_refl; lra]).
    destruct (d2d_align solve (1 / 10) (1 / 10) 10 ltac:(lra) 10 ls v fresh) as (r & -> & (w & RF & D) & _).
    { cbv. lia. }
    exists w. split; [exact RF|]. rewrite (layers_len _ _ _ E) in D. cbn [length sizes] in D.
    replace (INR (d2d_rounds 10)) with 10 in D by (change (d2d_rounds 10) with 10%nat; cbn; lra).
    rewrite Rmax_left in D by lra. replace (INR 4) with 4 in D by (cbn; lra). lra.
  Qed.

  Definition current (f : frame (res (ngrid X))) : Prop :=
    forall g, f_body f = Ok g -> n_means g = Some (map nc_mean (getGaussianCells g)).
  Lemma current_none f g : current f -> f_body f = Ok g -> cloudOf f = [] -> getGaussianCells g = [].
  Proof.
    intros C B N. unfold cloudOf in N. rewrite B, (C g B), map_map in N. now apply map_eq_nil in N.
  Qed.
  Lemma frame_none a b g : solves_zero solve -> current a -> current b -> cloudOf a = [] \/ cloudOf b = [] ->
    fst (frameD2d a b g) = false.
  Proof.
    intros SZ CA CB N. unfold RealModel.frameD2d. destruct (f_body a) as [ga| |] eqn:BA; try reflexivity.
    destruct (f_body b) as [gb| |] eqn:BB; try reflexivity. apply (d2d_none _ _ _ SZ).
    destruct N as [N|N]; [left; exact (current_none a ga CA BA N)|right; exact (current_none b gb CB BB N)].
  Qed.
  Lemma frame_reach a b v : cloudOf a <> [] -> cloudOf b <> [] ->
    exists w, snd (frameD2d a b (vecToMat v)) = vecToMat w /\ dist3 w v <= 4.
  Proof.
    unfold RealModel.frameD2d, cloudOf. destruct (f_body a) as [ga| |]; [|congruence|congruence].
    destruct (f_body b) as [gb| |]; [|congruence|congruence]. intros _ _. apply d2d_reach.
  Qed.
End Real.
Set Default Proof Using "Type".

(** ** the correlative search *)
Lemma real_rots : rotCount (mkCC (1 / 4) (2 / 10) 4 3) 30.
Proof.
  intro k. cbn [cc_rrange cc_rot]. split; intro H.
  - assert (K : INR k <= INR 29) by (apply le_INR; lia). replace (INR 29) with 29 in K by (cbn; lra). lra.
  - apply INR_lt. replace (INR 30) with 30 by (cbn; lra). lra.
Qed.
Lemma corr_is_run sched pick a b g : shares sched -> sorts pick ->
  corrRun 2 (sched a b g) (mkCC (1 / 4) (2 / 10) 4 3) a b g (corrAlign sched pick (1 / 4) a b g).
Proof.
  intros SH SO.
  assert (U : usable (mkCC (1 / 4) (2 / 10) 4 3)) by (unfold usable; cbn; lra).
  destruct (search_runs 2 (sched a b g) _ a b g 30 U real_rots (SH a b g)) as [(T & R) _].
  inversion R as [|t l best E1 E2 E3 E4 E5]; subst. cbn [cc_step] in E1.
  unfold corrAlign. rewrite E1. cbn [bind]. destruct E2 as [x2 X2]. destruct E3 as [x3 X3].
  rewrite X2, X3. cbn [bind]. rewrite E4. cbn [bind].
  assert (NE : l <> []) by (intros ->; exact (proj1 E5)).
  destruct l as [|v0 l0]; [congruence|].
  apply CorrOk with t (v0 :: l0); try assumption; [eexists; exact X2|eexists; exact X3|apply SO; exact NE].
Qed.
Lemma corr_reach sched pick a b g : shares sched -> sorts pick ->
  exists v, corrAlign sched pick (1 / 4) a b g = Ok (true, vecToMat v) /\ Rabs (vx v) <= 4 /\ Rabs (vy v) <= 4 /\ Rabs (vz v) <= 3.
Proof.
  intros SH SO.
  assert (U : usable (mkCC (1 / 4) (2 / 10) 4 3)) by (unfold usable; cbn; lra).
  destruct (search_runs 2 (sched a b g) _ a b g 30 U real_rots (SH a b g)) as [_ K].
  destruct (K _ (corr_is_run sched pick a b g SH SO)) as (_ & v & _ & E & (i & j & k & V & BX & BY & BZ) & _).
  exists v. split; [exact E|]. subst v. cbn [vx vy vz cc_range cc_step cc_rot cc_rrange] in *.
  pose proof (pos_INR i). pose proof (pos_INR j). pose proof (pos_INR k).
  split; [|split]; apply Rabs_le; lra.
Qed.
