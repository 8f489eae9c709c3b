(** Proofs about the text of robust edges, the edge with a null hypothesis, the other
    mixture edges and taking back a step. *)
From Coq Require Import Reals ZArith List Lra Lia.
From Verif Require Import Base LinAlg3 Deriv GeoModel GeoSpec GeoProofs GeoCov OptModel OptSpec OptProofs PlugModel PlugSpec.
Import ListNotations.
Open Scope R_scope.

(** ** Text *)
Lemma sym_fold i : symmetric i -> mkM (m11 i) (m12 i) (m13 i) (m12 i) (m22 i) (m23 i) (m13 i) (m23 i) (m33 i) = i.
Proof. intros (A & B & C). destruct i; cbn in *. subst. reflexivity. Qed.
Lemma rdInfo_wr i old rest : symmetric i -> rdInfo (Some (wrInfo i ++ rest)) old = (i, Some rest).
Proof. intros S. unfold rdInfo, wrInfo. cbn. rewrite (sym_fold i S). reflexivity. Qed.
Lemma rdPose_wr p junk rest : rdPose (Some (wrPose p ++ rest)) junk = (p, Some rest).
Proof. destruct p. reflexivity. Qed.

Theorem switch_text v old rest : swRead (Some (swWrite v ++ rest)) old = (mkSw (Some v) (Some v), Some rest).
Proof. reflexivity. Qed.
Theorem prior_text e e' junk rest : priorRead (Some (priorWrite e ++ rest)) junk e' = (e, Some rest).
Proof. destruct e; reflexivity. Qed.
Theorem switchable_text e e' junk rest : symmetric (snd e) ->
  switchableRead (Some (switchableWrite e ++ rest)) junk e' = (e, Some rest).
Proof.
  intros S. unfold switchableRead, switchableWrite. rewrite <- app_assoc, rdPose_wr, rdInfo_wr by auto.
  destruct e; reflexivity.
Qed.

(** *** Mixture *)
Lemma mix_write_loop (es : list sedge) (ws : list R) : length ws = length es -> forall l lw pre prew acc,
  es = pre ++ l -> ws = prew ++ lw -> length prew = length pre ->
  foldM (fun acc c => do e <- vget es c; do w <- vget ws c; Ok (acc ++ compWrite (e, w)))
    (seq (length pre) (length l)) acc = Ok (acc ++ flat_map compWrite (combine l lw)).
Proof.
  intros L. induction l as [|e l IH]; intros lw pre prew acc E W P.
  - cbn. rewrite app_nil_r. reflexivity.
  - destruct lw as [|w lw].
    { exfalso. subst es ws. rewrite !app_length in L. cbn in L. lia. }
    cbn [length seq foldM]. unfold vget at 1 2.
    rewrite E at 1. rewrite nth_error_app2, Nat.sub_diag by lia. cbn [nth_error bind].
    rewrite W at 1. rewrite nth_error_app2 by lia. rewrite P, Nat.sub_diag. cbn [nth_error bind].
    specialize (IH lw (pre ++ [e]) (prew ++ [w]) (acc ++ compWrite (e, w))).
    rewrite !app_length in IH. cbn [length] in IH. rewrite !Nat.add_1_r in IH.
    rewrite IH; rewrite <- ?app_assoc; auto.
Qed.
Lemma mix_write m : mx_n m = length (mx_edges m) -> length (mx_w m) = length (mx_edges m) ->
  mixWrite m = Ok (TInt (Z.of_nat (mx_n m)) :: flat_map compWrite (combine (mx_edges m) (mx_w m))).
Proof.
  intros N L. unfold mixWrite. rewrite N.
  pose proof (mix_write_loop (mx_edges m) (mx_w m) L (mx_edges m) (mx_w m) [] [] [] eq_refl eq_refl eq_refl) as H.
  cbn [length app] in H. rewrite H. reflexivity.
Qed.

Definition refresh (fresh e : sedge) : sedge := mkSE (se_v0 e) (se_v1 e) (se_meas e) (se_info e) (se_err fresh).
Lemma existsb_in l n : In n l -> existsb (Nat.eqb n) l = true.
Proof. intros I. apply existsb_exists. exists n. split; [auto|apply Nat.eqb_refl]. Qed.
Lemma upd_last {A} (l : list A) a b : upd (l ++ [a]) (length l) b = l ++ [b].
Proof. induction l; cbn; [auto|]. f_equal. auto. Qed.
Lemma set_last l fresh v0 v1 p i : setComp (l ++ [fresh]) (length l) v0 v1 p i = Ok (l ++ [mkSE v0 v1 p i (se_err fresh)]).
Proof.
  unfold setComp, vget, vset. rewrite nth_error_app2, Nat.sub_diag by lia. cbn [nth_error bind].
  rewrite app_length. cbn [length].
  destruct (Nat.ltb_spec (length l) (length l + 1)); [|lia]. rewrite upd_last. reflexivity.
Qed.
Lemma read_one fresh junk junkM verts es ws w0 e w rest :
  In (se_v0 e) verts -> In (se_v1 e) verts -> symmetric (se_info e) ->
  readComp fresh junk junkM verts (es, ws, w0, Some (compWrite (e, w) ++ rest)) (length es) =
  Ok (es ++ [refresh fresh e], ws ++ [w], w, Some rest).
Proof.
  intros V0 V1 S. unfold readComp, compWrite. cbn [fst snd app rdWord rdNum rdInt].
  rewrite !Nat2Z.id, (existsb_in _ _ V0), (existsb_in _ _ V1). cbn [andb negb].
  rewrite <- app_assoc, rdPose_wr, rdInfo_wr by auto.
  rewrite set_last. reflexivity.
Qed.
Lemma read_loop fresh junk junkM verts : forall l es ws w0 rest,
  (forall ew, In ew l -> In (se_v0 (fst ew)) verts /\ In (se_v1 (fst ew)) verts /\ symmetric (se_info (fst ew))) ->
  exists w', foldM (readComp fresh junk junkM verts) (seq (length es) (length l))
    (es, ws, w0, Some (flat_map compWrite l ++ rest)) =
    Ok (es ++ map (fun ew => refresh fresh (fst ew)) l, ws ++ map snd l, w', Some rest).
Proof.
  induction l as [|[e w] l IH]; intros es ws w0 rest H.
  - exists w0. cbn. rewrite !app_nil_r. reflexivity.
  - destruct (H (e, w)) as (V0 & V1 & S); [left; auto|]. cbn [fst] in V0, V1, S.
    cbn [length seq foldM flat_map]. rewrite <- app_assoc, (read_one _ _ _ _ _ _ _ _ _ _ V0 V1 S). cbn [bind].
    destruct (IH (es ++ [refresh fresh e]) (ws ++ [w]) w rest) as [w' F]; [intros; apply H; right; auto|].
    exists w'. rewrite app_length in F. cbn [length] in F. rewrite Nat.add_1_r in F. rewrite F.
    cbn [map fst snd]. rewrite <- !app_assoc. reflexivity.
Qed.
Lemma det_loop es : forall l pre ds, es = pre ++ l ->
  foldM (fun ds i => do e <- vget es i; Ok (ds ++ [mdet (minv (se_info e))])) (seq (length pre) (length l)) ds =
  Ok (ds ++ map (fun e => mdet (minv (se_info e))) l).
Proof.
  induction l as [|e l IH]; intros pre ds E; [cbn; rewrite app_nil_r; reflexivity|].
  cbn [length seq foldM]. unfold vget at 1. rewrite E at 1. rewrite nth_error_app2, Nat.sub_diag by lia.
  cbn [nth_error bind]. specialize (IH (pre ++ [e]) (ds ++ [mdet (minv (se_info e))])).
  rewrite app_length in IH. cbn [length] in IH. rewrite Nat.add_1_r in IH.
  rewrite IH; rewrite <- ?app_assoc; auto.
Qed.
Lemma map_fst_combine {A B C} (f : A -> C) (l : list A) : forall l' : list B, length l' = length l ->
  map (fun x => f (fst x)) (combine l l') = map f l.
Proof. induction l; intros [|b l'] L; cbn in *; try lia; auto. f_equal. apply IHl. lia. Qed.
Lemma map_snd_combine {A B} (l : list A) : forall l' : list B, length l' = length l ->
  map snd (combine l l') = l'.
Proof. induction l; intros [|b l'] L; cbn in *; try lia; auto. f_equal. apply IHl. lia. Qed.

(** Reading the text of a mixture into a fresh edge is handing over its components. *)
Lemma mix_read fresh junk junkM verts est self m rest : mx_n m = length (mx_edges m) ->
  length (mx_w m) = length (mx_edges m) -> storable verts (mx_edges m) ->
  exists text, mixWrite m = Ok text /\
  mixRead fresh junk junkM verts est (newMixture self) (Some (text ++ rest)) =
  do m' <- initComponents est (newMixture self) (map (refresh fresh) (mx_edges m)) (mx_w m); Ok (m', Some rest).
Proof.
  intros N L S. eexists. split; [apply mix_write; auto|].
  unfold mixRead. cbn [app rdInt newMixture mx_n mx_edges mx_w mx_det mx_self mx_best]. rewrite Nat2Z.id.
  destruct (read_loop fresh junk junkM verts (combine (mx_edges m) (mx_w m)) [] [] (px junk) rest) as [w' F].
  { intros [e w] I. apply in_combine_l in I. exact (S e I). }
  rewrite combine_length, L, Nat.min_id in F. cbn [length app] in F.
  rewrite N. unfold stream in *. rewrite F. cbn [bind].
  rewrite map_fst_combine, map_snd_combine by auto.
  pose proof (det_loop (map (refresh fresh) (mx_edges m)) (map (refresh fresh) (mx_edges m)) [] [] eq_refl) as D.
  rewrite map_length in D. cbn [length app] in D. rewrite D. cbn [bind].
  unfold initComponents, newMixture. cbn [mx_self mx_best mx_det app]. rewrite map_length. reflexivity.
Qed.

Lemma run_held self es ws est0 ests m : proper es ws -> mixrun self es ws est0 ests = Ok m -> held es ws m.
Proof.
  intros P. unfold mixrun, initComponents. set (m0 := mkMix _ _ _ _ _ _).
  assert (H : held es ws m0).
  { subst m0. split; [|split; [|split; [|split]]]; cbn; auto.
    intros i e E. exists e. split; [auto|]. repeat split. }
  destruct (compute_ok est0 es ws m0 P H) as (m1 & _ & _ & _ & C & H1 & _). rewrite C. cbn [bind].
  destruct (foldM_mix ests es ws m1 P H1) as (m2 & F & H2). rewrite F. intros [= <-]. exact H2.
Qed.
Lemma held_forall2 es ws m : held es ws m -> Forall2 same_component es (mx_edges m).
Proof.
  intros (_ & _ & _ & L & H). revert L H. generalize (mx_edges m). clear.
  induction es as [|e es IH]; intros [|e' l] L H; cbn in L; try lia; constructor.
  - destruct (H 0%nat e eq_refl) as (f & [= <-] & K). exact K.
  - apply IH; [lia|]. intros i f F. exact (H (S i) f F).
Qed.
Lemma same_trans_map fresh es l : Forall2 same_component es l -> Forall2 same_component es (map (refresh fresh) l).
Proof. induction 1; cbn; constructor; auto. Qed.
Lemma nth2 {A B} (P : A -> B -> Prop) l l' : Forall2 P l l' -> forall i b, nth_error l' i = Some b ->
  exists a, nth_error l i = Some a /\ P a b.
Proof. induction 1; intros [|i] c E; cbn in *; try discriminate; [injection E as <-; eauto|eauto]. Qed.
Lemma nth2' {A B} (P : A -> B -> Prop) l l' : Forall2 P l l' -> forall i a, nth_error l i = Some a ->
  exists b, nth_error l' i = Some b /\ P a b.
Proof. induction 1; intros [|i] c E; cbn in *; try discriminate; [injection E as <-; eauto|eauto]. Qed.
Lemma same_nll est e e' w : same_component e e' -> nll est e' w = nll est e w.
Proof. intros (A & B & C & D). unfold nll, cov_det, residual. rewrite A, B, C, D. reflexivity. Qed.
Lemma f2_len {A B} (P : A -> B -> Prop) l l' : Forall2 P l l' -> length l' = length l.
Proof. induction 1; cbn; auto. Qed.

Theorem mixture_text self es ws est0 ests m : proper es ws -> mixrun self es ws est0 ests = Ok m ->
  forall fresh junk junkM verts self' est rest, storable verts es ->
  exists text m' i e w, mixWrite m = Ok text /\
    mixRead fresh junk junkM verts est (newMixture self') (Some (text ++ rest)) = Ok (m', Some rest) /\
    mx_n m' = length es /\ Forall2 same_component es (mx_edges m') /\ mx_w m' = ws /\
    nth_error es i = Some e /\ nth_error ws i = Some w /\ shows m' i e /\
    forall j f v, nth_error es j = Some f -> nth_error ws j = Some v -> nll est e w <= nll est f v.
Proof.
  intros P R fresh junk junkM verts self' est rest S.
  pose proof (run_held _ _ _ _ _ _ P R) as H. pose proof (held_forall2 _ _ _ H) as SC.
  destruct H as (N & W & D & L & _). destruct P as (NE & LW & PW & PD).
  destruct (mix_read fresh junk junkM verts est self' m rest) as (text & T & RD); [congruence|congruence| |].
  { intros e' I. apply In_nth_error in I as [i I]. destruct (nth2 _ _ _ SC i e' I) as (e & E & K1 & K2 & K3 & K4).
    rewrite K1, K2, K4. apply S. apply (nth_error_In _ _ E). }
  rewrite W in RD. pose proof (same_trans_map fresh _ _ SC) as SC'. revert RD SC'.
  generalize (map (refresh fresh) (mx_edges m)). intros es' RD SC'.
  assert (P' : proper es' ws).
  { split; [|split; [|split]]; auto.
    - intros ->. inversion SC'. subst es. congruence.
    - rewrite (f2_len _ _ _ SC'). auto.
    - intros e' I. apply In_nth_error in I as [i I]. destruct (nth2 _ _ _ SC' i e' I) as (e & E & K1 & K2 & K3 & K4).
      unfold cov_det. rewrite K4. apply PD. apply (nth_error_In _ _ E). }
  destruct (mixture_best self' es' ws est [] P') as (m' & i & e' & w & R' & E' & W' & Sh & _ & B).
  pose proof (run_held _ _ _ _ _ _ P' R') as H'.
  unfold mixrun in R'. destruct (initComponents est (newMixture self') es' ws) as [mm| |] eqn:I; try discriminate.
  cbn in R'. injection R' as ->. cbn [bind] in RD.
  destruct (nth2 _ _ _ SC' i e' E') as (e & E & K).
  exists text, m', i, e, w. split; [exact T|]. split; [exact RD|].
  pose proof (held_forall2 _ _ _ H') as SC2. destruct H' as (N' & W2 & _ & L' & _).
  split; [rewrite N', (f2_len _ _ _ SC'); auto|]. split; [|split; [auto|split; [auto|split; [auto|split]]]].
  - clear - SC' SC2. revert es SC'. induction SC2; intros es SC'; inversion SC'; subst; constructor; auto.
    unfold same_component in *. intuition congruence.
  - destruct Sh as (A & B1 & C & D1 & F). destruct K as (K1 & K2 & K3 & K4).
    split; [auto|]. split; [congruence|]. split; [congruence|]. split; congruence.
  - intros j f v F V. destruct (nth2' _ _ _ SC' j f F) as (f' & F' & Kf). cbn [last] in B.
    rewrite <- (same_nll est e e' w K), <- (same_nll est f f' v Kf). eapply B; eauto.
Qed.

(** *** Reading into an edge that is in use *)
Lemma pair_choice m e0 e1 le lw ld : mx_n m = 2%nat -> mx_edges m = e0 :: e1 :: le -> mx_w m = 1 :: 1 :: lw ->
  mx_det m = 1 :: / 8 :: ld -> seError zeros e0 = e0 -> se_err e0 = mkP 0 0 0 ->
  seError zeros e1 = e1 -> se_err e1 = mkP 0 0 0 ->
  exists m', computeErrorMix zeros m = Ok m' /\ mx_best m' = Some 1%Z /\ mx_det m' = 1 :: / 8 :: ld /\
    mx_edges m' = e0 :: e1 :: le /\ mx_w m' = 1 :: 1 :: lw /\ mx_n m' = 2%nat.
Proof.
  pose proof ln_neg as LN. intros N E W D S0 Z0 S1 Z1. unfold computeErrorMix. rewrite N. cbn [seq foldM].
  unfold bestStep at 1. rewrite (neg_zero m 0 e0 1 1); try rewrite E; try rewrite W; try rewrite D; auto; try lra.
  cbn [bind]. rewrite ln_1. cbn [xgt].
  unfold bestStep at 1.
  erewrite (neg_zero _ 1 e1 1 (/ 8)); cbn [mx_edges mx_w mx_det mx_self mx_n mx_best]; try rewrite W; try rewrite D; try reflexivity; auto; try lra.
  cbn [bind xgt]. rewrite ln_1. destruct (Rlt_dec (- 0 + 1 / 2 * ln (/ 8)) (- 0 + 1 / 2 * 0)); [|lra].
  cbn [bind]. unfold updateBelief. cbn [mx_edges mx_best mx_self mx_n mx_w mx_det]. cbn [Z.ltb Z.compare Z.of_nat].
  unfold vget. cbn. eexists. split; [reflexivity|]. cbn. repeat split; auto.
Qed.
Lemma stay_wide : seError zeros wide = wide /\ se_err wide = mkP 0 0 0.
Proof. split; [|reflexivity]. unfold seError, wide, zeros; cbn. rewrite error_zeros. auto. Qed.
Lemma stay_tight : seError zeros tight = tight /\ se_err tight = mkP 0 0 0.
Proof. split; [|reflexivity]. unfold seError, tight, zeros; cbn. rewrite error_zeros. auto. Qed.
Lemma refresh_zero fresh e : se_err fresh = mkP 0 0 0 -> se_err e = mkP 0 0 0 -> refresh fresh e = e.
Proof. intros A B. destruct e. unfold refresh. cbn in *. rewrite A, B. reflexivity. Qed.

Theorem mixture_text_reuse self self' junk junkM : exists m text m1 m2,
  mixrun self [tight; wide] [1; 1] zeros [] = Ok m /\ mixWrite m = Ok text /\
  mixrun self' [wide; tight] [1; 1] zeros [] = Ok m1 /\
  mixRead wide junk junkM [0; 1]%nat zeros m1 (Some text) = Ok (m2, Some []) /\
  mx_best m2 = Some 1%Z /\ length (mx_edges m2) = 4%nat /\ nll zeros tight 1 < nll zeros wide 1.
Proof.
  destruct stay_wide as [SW ZW]. destruct stay_tight as [ST ZT].
  destruct (mixture_best self [tight; wide] [1; 1] zeros [] (proj2 proper_pair)) as (m & _ & _ & _ & R & _).
  pose proof (run_held _ _ _ _ _ _ (proj2 proper_pair) R) as H.
  pose proof (held_forall2 _ _ _ H) as SC. destruct H as (N & W & D & L & _).
  assert (L1 : mx_n m = length (mx_edges m)) by congruence.
  assert (L2 : length (mx_w m) = length (mx_edges m)) by (rewrite W, L; reflexivity).
  exists m, (TInt 2 :: compWrite (tight, 1) ++ compWrite (wide, 1)). unfold mixrun at 2, initComponents.
  edestruct (pair_choice (mkMix (mx_self (newMixture self')) (length [wide; tight]) (mx_best (newMixture self')) [wide; tight] [1; 1]
    (mx_det (newMixture self') ++ map (fun e => mdet (minv (se_info e))) [wide; tight])) wide tight [] [] [])
    as (m1 & C1 & B1 & D1 & E1 & W1 & N1); auto.
  { cbn [mx_det newMixture app map]. fold (cov_det wide). fold (cov_det tight). rewrite det_wide, det_tight. reflexivity. }
  exists m1. rewrite C1. cbn [bind foldM].
  inversion SC as [|? t ? ? Kt SC1 Q1 Q2]; subst. inversion SC1 as [|? w ? ? Kw SC2 Q3 Q4]; subst. inversion SC2; subst. clear SC SC1 SC2.
  assert (MW : mixWrite m = Ok (TInt 2 :: compWrite (tight, 1) ++ compWrite (wide, 1))).
  { rewrite mix_write by assumption. rewrite N, <- Q2, W. cbn [combine flat_map length Z.of_nat Pos.of_succ_nat Pos.succ].
    destruct Kt as (T1 & T2 & T3 & T4). destruct Kw as (U1 & U2 & U3 & U4).
    unfold compWrite. cbn [fst snd]. rewrite T1, T2, T3, T4, U1, U2, U3, U4, app_nil_r. reflexivity. }
  unfold mixRead. cbn [rdInt]. change (Z.to_nat 2) with 2%nat. cbn [seq foldM].
  rewrite E1, W1, D1. 
  assert (R1 : forall w0 rest, readComp wide junk junkM [0; 1]%nat ([wide; tight], [1; 1], w0, Some (compWrite (tight, 1) ++ rest)) 0 =
    Ok ([tight; tight; wide], [1; 1; 1], 1, Some rest)).
  { intros w0 rest. reflexivity. }
  assert (R2 : forall w0, readComp wide junk junkM [0; 1]%nat ([tight; tight; wide], [1; 1; 1], w0, Some (compWrite (wide, 1))) 1 =
    Ok ([tight; wide; wide; wide], [1; 1; 1; 1], 1, Some [])).
  { intros w0. unfold readComp, compWrite. cbn. reflexivity. }
  edestruct (pair_choice (mkMix (mx_self m1) 2 (mx_best m1) [tight; wide; wide; wide] [1; 1; 1; 1]
    (([1; / 8] ++ [mdet (minv (se_info tight))]) ++ [mdet (minv (se_info wide))])) tight wide [wide; wide] [1; 1])
    as (m2 & C2 & B2 & D2 & E2 & W2 & N2); auto; [reflexivity|].
  exists m2. split; [exact R|]. split; [exact MW|]. split; [reflexivity|].
  split; [|split; [exact B2|split; [rewrite E2; reflexivity|]]].
  - unfold stream in *. rewrite R1. cbn [bind]. rewrite R2. cbn [bind].
    cbn [vget nth_error bind foldM]. rewrite C2. reflexivity.
  - rewrite nll_wide, nll_tight. pose proof ln_neg. lra.
Qed.

(** ** Null hypothesis *)
Definition nhSet (w : R) (i : M3) : nhset :=
  mkNS w i (1 / sqrt (mdet (minv i))) (mscale w i) (1 / sqrt (mdet (minv (mscale w i)))).
Theorem null_text w z i : symmetric i -> forall rest old junk h,
  nhRead (Some (nhText w z i ++ rest)) old junk h =
  (mkNH (mkSE (se_v0 (nh_edge h)) (se_v1 (nh_edge h)) z i (se_err (nh_edge h))) (nh_null h) (Some (nhSet w i)), Some rest).
Proof.
  intros S rest old junk h. unfold nhRead, nhText. cbn [app rdNum].
  rewrite <- app_assoc, rdPose_wr, rdInfo_wr by auto. reflexivity.
Qed.
Theorem null_rewrite_loses h old junk h' : exists n,
  snd (nhRead (Some (nhWrite h)) old junk h') = None /\
  nh_set (fst (nhRead (Some (nhWrite h)) old junk h')) = Some n /\
  ns_w n = px (se_meas (nh_edge h)) /\
  se_meas (nh_edge (fst (nhRead (Some (nhWrite h)) old junk h'))) =
    mkP (py (se_meas (nh_edge h))) (pth (se_meas (nh_edge h))) (m11 (se_info (nh_edge h))).
Proof. unfold nhWrite, nhRead, wrPose, wrInfo. cbn. eexists. repeat split; reflexivity. Qed.

Lemma mdet_minv i : mdet i <> 0 -> mdet (minv i) = / mdet i.
Proof.
  intros H. assert (E : mdet (minv i) * mdet i = 1) by (rewrite <- mdet_mmul, minv_l by auto; apply mdet_id).
  apply Rmult_eq_reg_r with (mdet i); [|auto]. rewrite E. field. auto.
Qed.
Lemma mdet_mscale w i : mdet (mscale w i) = w ^ 3 * mdet i.
Proof. unfold mdet. cbn [m11 m12 m13 m21 m22 m23 m31 m32 m33 mscale]. ring. Qed.
Lemma quad_mscale w i v : quad (mscale w i) v = w * quad i v.
Proof. unfold quad, mvmul, vdot. cbn [m11 m12 m13 m21 m22 m23 m31 m32 m33 mscale vx vy vz]. ring. Qed.
Lemma nu_sqrt i : 0 < mdet i -> 1 / sqrt (mdet (minv i)) = sqrt (mdet i).
Proof.
  intros H. rewrite mdet_minv by lra. rewrite sqrt_inv. field. apply Rgt_not_eq, sqrt_lt_R0. exact H.
Qed.
Lemma pow3_pos w : 0 < w -> 0 < w ^ 3.
Proof. intros. apply pow_lt. auto. Qed.
Definition fac : R := sqrt (/ (2 * PI) ^ 3).
Lemma fac_pos : 0 < fac.
Proof. apply sqrt_lt_R0, Rinv_0_lt_compat, pow_lt. pose proof PI_RGT_0. lra. Qed.
Lemma gauss_eq i v : 0 < mdet i -> gauss i v = fac * (sqrt (mdet i) * exp (- (quad i v / 2))).
Proof.
  intros H. unfold gauss, fac, Rdiv. rewrite sqrt_mult; [ring|lra|].
  apply Rlt_le, Rinv_0_lt_compat, pow_lt. pose proof PI_RGT_0. lra.
Qed.
Lemma null_cmp w i v : 0 < w -> 0 < mdet i ->
  (null_likelier w i v <-> exp (- (quad i v / 2)) < sqrt (w ^ 3) * exp (- (w * quad i v / 2))).
Proof.
  intros W D. unfold null_likelier. pose proof fac_pos as F.
  assert (D' : 0 < mdet (mscale w i)) by (rewrite mdet_mscale; apply Rmult_lt_0_compat; [apply pow3_pos|]; auto).
  rewrite !gauss_eq, quad_mscale, mdet_mscale by auto.
  rewrite sqrt_mult by (try apply Rlt_le, pow3_pos; lra).
  pose proof (sqrt_lt_R0 _ D) as SD.
  split; intro H.
  - apply Rmult_lt_reg_l with (sqrt (mdet i)); [exact SD|]. apply Rmult_lt_reg_l with fac; [exact F|]. lra.
  - apply Rmult_lt_compat_l with (r := sqrt (mdet i)) in H; [|exact SD].
    apply Rmult_lt_compat_l with (r := fac) in H; [|exact F]. lra.
Qed.
Lemma null_code w i v : 0 < w -> 0 < mdet i ->
  (ns_nuC (nhSet w i) * exp (- quad (ns_infoC (nhSet w i)) v) <
   ns_nuN (nhSet w i) * exp (- quad (ns_infoN (nhSet w i)) v) <-> null_likelier w (mscale 2 i) v).
Proof.
  intros W D.
  assert (D2 : 0 < mdet (mscale 2 i)) by (rewrite mdet_mscale; apply Rmult_lt_0_compat; [lra|auto]).
  assert (D' : 0 < mdet (mscale w i)) by (rewrite mdet_mscale; apply Rmult_lt_0_compat; [apply pow3_pos|]; auto).
  rewrite null_cmp by auto. cbn [nhSet ns_nuC ns_nuN ns_infoC ns_infoN].
  rewrite !nu_sqrt, !quad_mscale, mdet_mscale by auto.
  rewrite sqrt_mult by (try apply Rlt_le, pow3_pos; lra).
  pose proof (sqrt_lt_R0 _ D) as SD.
  replace (2 * quad i v / 2) with (quad i v) by field.
  replace (w * (2 * quad i v) / 2) with (w * quad i v) by field.
  split; intro H.
  - apply Rmult_lt_reg_l with (sqrt (mdet i)); [exact SD|]. lra.
  - apply Rmult_lt_compat_l with (r := sqrt (mdet i)) in H; [|exact SD]. lra.
Qed.

(** *** Runs *)
Lemma null_step e w i h est : nh_set h = Some (nhSet w i) -> se_v0 (nh_edge h) = se_v0 e -> se_v1 (nh_edge h) = se_v1 e ->
  se_meas (nh_edge h) = se_meas e ->
  exists h', nhError est h = Ok h' /\ nh_set h' = Some (nhSet w i) /\ se_v0 (nh_edge h') = se_v0 e /\
    se_v1 (nh_edge h') = se_v1 e /\ se_meas (nh_edge h') = se_meas e /\
    se_err (nh_edge h') = residual est e /\
    se_info (nh_edge h') = (if nh_null h' then mscale w i else i) /\
    (nh_null h' = true <-> ns_nuC (nhSet w i) * exp (- quad (ns_infoC (nhSet w i)) (vecOf (residual est e))) <
      ns_nuN (nhSet w i) * exp (- quad (ns_infoN (nhSet w i)) (vecOf (residual est e)))).
Proof.
  intros S A B C. unfold nhError. rewrite S. unfold seError. cbn [se_err se_v0 se_v1 se_meas]. rewrite A, B, C.
  fold (residual est e). eexists. split; [reflexivity|]. cbn [nh_set nh_edge nh_null se_v0 se_v1 se_meas se_err se_info].
  repeat split; auto; try (destruct (Rlt_dec _ _); auto; discriminate).
Qed.
Lemma null_steps e w i ests : forall h, nh_set h = Some (nhSet w i) -> se_v0 (nh_edge h) = se_v0 e -> se_v1 (nh_edge h) = se_v1 e ->
  se_meas (nh_edge h) = se_meas e ->
  exists h', foldM (fun h est => nhError est h) ests h = Ok h' /\ nh_set h' = Some (nhSet w i) /\ se_v0 (nh_edge h') = se_v0 e /\
    se_v1 (nh_edge h') = se_v1 e /\ se_meas (nh_edge h') = se_meas e.
Proof.
  induction ests as [|est ests IH]; intros h S A B C; [exists h; auto|].
  cbn [foldM]. destruct (null_step e w i h est S A B C) as (h1 & E & S1 & A1 & B1 & C1 & _). rewrite E. cbn [bind]. auto.
Qed.
Theorem null_run e w old junk ests est : symmetric (se_info e) ->
  exists h, nhrun e w old junk ests est = Ok h /\ se_v0 (nh_edge h) = se_v0 e /\
    se_v1 (nh_edge h) = se_v1 e /\ se_meas (nh_edge h) = se_meas e /\
    se_err (nh_edge h) = residual est e /\
    se_info (nh_edge h) = (if nh_null h then mscale w (se_info e) else se_info e) /\
    nh_set h = Some (nhSet w (se_info e)) /\
    (0 < w -> 0 < mdet (se_info e) ->
      (nh_null h = true <-> null_likelier w (mscale 2 (se_info e)) (vecOf (residual est e)))).
Proof.
  intros S. unfold nhrun. rewrite <- (app_nil_r (nhText _ _ _)), (null_text w (se_meas e) (se_info e) S). cbn [fst newNH nh_edge nh_null].
  rewrite foldM_app. set (h0 := mkNH _ _ _).
  destruct (null_steps e w (se_info e) ests h0) as (h1 & E & S1 & A1 & B1 & C1); try reflexivity.
  rewrite E. cbn [bind foldM].
  destruct (null_step e w (se_info e) h1 est S1 A1 B1 C1) as (h & E2 & S2 & A2 & B2 & C2 & D2 & I2 & N2).
  rewrite E2. cbn [bind]. exists h. repeat (split; [solve [auto]|]). intros W D. rewrite N2. apply null_code; auto.
Qed.

Lemma sqrt3_le1 w : 0 < w <= 1 -> 0 < sqrt (w ^ 3) <= 1.
Proof.
  intros [A B]. split; [apply sqrt_lt_R0, pow3_pos; auto|].
  rewrite <- sqrt_1. apply sqrt_le_1_alt. 
  replace 1 with (1 ^ 3) by ring. apply pow_incr. lra.
Qed.
(** Doubling the information keeps a more likely null hypothesis more likely. *)
Lemma null_double w i v : 0 < w <= 1 -> 0 < mdet i -> null_likelier w i v -> null_likelier w (mscale 2 i) v.
Proof.
  intros W D H.
  assert (D2 : 0 < mdet (mscale 2 i)) by (rewrite mdet_mscale; apply Rmult_lt_0_compat; [lra|auto]).
  rewrite null_cmp in H |- * by (auto; lra). rewrite quad_mscale.
  destruct (sqrt3_le1 w W) as [S1 S2].
  set (q := quad i v) in *. set (s := sqrt (w ^ 3)) in *.
  replace (- (2 * q / 2)) with (- (q / 2) + - (q / 2)) by field.
  replace (- (w * (2 * q) / 2)) with (- (w * q / 2) + - (w * q / 2)) by field.
  rewrite !exp_plus. set (a := exp (- (q / 2))) in *. set (b := exp (- (w * q / 2))) in *.
  assert (0 < a) by apply exp_pos. assert (0 < b) by apply exp_pos.
  apply Rlt_le_trans with ((s * b) * (s * b)).
  - apply Rmult_le_0_lt_compat; lra.
  - replace (s * b * (s * b)) with (s * (s * (b * b))) by ring.
    apply Rmult_le_compat_l; [lra|]. rewrite <- (Rmult_1_l (b * b)) at 2.
    apply Rmult_le_compat_r; [|lra]. apply Rlt_le, Rmult_lt_0_compat; auto.
Qed.

(** *** An information matrix for which the choice is wrong *)
Definition apart : nat -> pose := fun n => match n with O => mkP 0 0 0 | _ => mkP 2 0 0 end.
Lemma residual_apart : residual apart wide = mkP 2 0 0.
Proof.
  unfold residual, apart, wide. cbn [se_v0 se_v1 se_meas]. rewrite rel_pose. cbn [px py pth].
  rewrite cos_0, sin_0, normalize_id by (pose proof PI_RGT_0; lra). apply pose_eq; cbn; ring.
Qed.
Lemma sym_wide : symmetric (se_info wide).
Proof. unfold symmetric, wide. cbn. auto. Qed.
Lemma quad_apart : quad (se_info wide) (vecOf (mkP 2 0 0)) = 4.
Proof. unfold quad, mvmul, vdot, wide. cbn. ring. Qed.
Lemma sqrt_64 : sqrt ((1 / 4) ^ 3) = 1 / 8.
Proof. replace ((1 / 4) ^ 3) with ((1 / 8) * (1 / 8)) by field. apply sqrt_square. lra. Qed.
Lemma e_bounds : 2 < exp 1 <= 3.
Proof. split; [|apply exp_le_3]. pose proof (exp_ineq1 1). lra. Qed.
Lemma null_wrong : null_likelier (1 / 4) (mscale 2 (se_info wide)) (vecOf (residual apart wide)) /\
  ~ null_likelier (1 / 4) (se_info wide) (vecOf (residual apart wide)).
Proof.
  rewrite residual_apart.
  assert (D : 0 < mdet (se_info wide)) by (cbn; rewrite mdet_id; lra).
  assert (D2 : 0 < mdet (mscale 2 (se_info wide))) by (rewrite mdet_mscale; apply Rmult_lt_0_compat; [lra|auto]).
  rewrite !null_cmp by (auto; lra). rewrite quad_mscale, quad_apart, sqrt_64.
  destruct e_bounds as [E1 E2]. pose proof (exp_pos 1) as E0.
  assert (E3 : exp 3 = exp 1 * exp 1 * exp 1) by (rewrite <- !exp_plus; f_equal; ring).
  split.
  - replace (- (2 * 4 / 2)) with (-(1) + - (3)) by field. replace (- (1 / 4 * (2 * 4) / 2)) with (-(1)) by field.
    rewrite exp_plus, (exp_Ropp 3). rewrite (Rmult_comm (1 / 8)).
    apply Rmult_lt_compat_l; [apply exp_pos|]. replace (1 / 8) with (/ 8) by field.
    apply Rinv_lt_contravar; [apply Rmult_lt_0_compat; [lra|apply exp_pos]|]. rewrite E3.
    assert (4 < exp 1 * exp 1) by (replace 4 with (2 * 2) by ring; apply Rmult_le_0_lt_compat; lra).
    replace 8 with (4 * 2) by ring. apply Rmult_le_0_lt_compat; lra.
  - apply Rle_not_lt. replace (- (4 / 2)) with (- (1 / 2) + - (3 / 2)) by field.
    replace (- (1 / 4 * 4 / 2)) with (- (1 / 2)) by field.
    rewrite exp_plus, (exp_Ropp (3 / 2)). rewrite (Rmult_comm (1 / 8)).
    apply Rmult_le_compat_l; [apply Rlt_le, exp_pos|]. replace (1 / 8) with (/ 8) by field.
    apply Rinv_le_contravar; [apply exp_pos|].
    apply Rnot_lt_le. intros H. pose proof (exp_pos (3 / 2)) as P.
    assert (64 < exp 3).
    { replace 3 with (3 / 2 + 3 / 2) by field. rewrite exp_plus. replace 64 with (8 * 8) by ring.
      apply Rmult_le_0_lt_compat; lra. }
    assert (exp 1 * exp 1 <= 9) by (replace 9 with (3 * 3) by ring; apply Rmult_le_compat; lra).
    assert (exp 1 * exp 1 * exp 1 <= 27).
    { replace 27 with (9 * 3) by ring. apply Rmult_le_compat; try lra. apply Rlt_le, Rmult_lt_0_compat; lra. }
    lra.
Qed.

(** *** Jacobian *)
Lemma plain_blocks vi vj z : plainJacobians vi vj z = calcJacobianBlocks vi vj z.
Proof.
  unfold plainJacobians. destruct (switch_blocks vi vj z 1) as [A B]. rewrite mscale_1 in A, B.
  rewrite (surjective_pairing (fst _)), A, B. symmetry. apply surjective_pairing.
Qed.
Lemma jac33 vi vj z : m33 (fst (calcJacobianBlocks vi vj z)) = -1.
Proof. reflexivity. Qed.

Theorem null_jacobian e w old junk ests est : symmetric (se_info e) ->
  forall h, nhrun e w old junk ests est = Ok h ->
  let vi := est (se_v0 e) in let vj := est (se_v1 e) in
  normalizeAngle (pth vj - pth vi - pth (se_meas e)) <> PI ->
  exists a b, nhJacobians est h = Ok (a, b) /\
   (nh_null h = false -> is_jacobian (fun x => calcError x vj (se_meas e)) vi a /\
                         is_jacobian (fun x => calcError vi x (se_meas e)) vj b) /\
   (nh_null h = true -> w <> 1 -> ~ is_jacobian (fun x => calcError x vj (se_meas e)) vi a).
Proof.
  intros S h R vi vj N. destruct (null_run e w old junk ests est S) as (h' & R' & A & B & C & _ & _ & SS & _).
  rewrite R in R'. injection R' as <-.
  unfold nhJacobians. rewrite plain_blocks, A, B, C, SS. fold vi vj.
  pose proof (jacobian_first vi vj (se_meas e) N) as J1. pose proof (jacobian_second vi vj (se_meas e) N) as J2.
  destruct (nh_null h) eqn:E.
  - eexists _, _. split; [reflexivity|]. split; [discriminate|]. intros _ W J. cbn [ns_w nhSet] in J.
    destruct J1 as (_ & _ & _ & _ & _ & _ & _ & _ & K1). destruct J as (_ & _ & _ & _ & _ & _ & _ & _ & K2).
    pose proof (uniqueness_limite _ _ _ _ K1 K2) as U. cbn [m33 mscale] in U. rewrite jac33 in U. lra.
  - eexists _, _. split; [f_equal; apply surjective_pairing|]. split; [auto|discriminate].
Qed.
Theorem null_unread e est : nhError est (newNH e) = UB.
Proof. reflexivity. Qed.

(** ** Mixtures over any component *)
Section Generic.
  Context {C S : Type}.
  Variable chi : S -> C -> R.
  Variable det : C -> R.
  Definition gheld (cs : list C) (ws : list R) (m : @gmix C) : Prop :=
    gm_n m = length cs /\ gm_all m = cs /\ gm_w m = ws /\ gm_det m = map det cs.
  Lemma gneg s cs ws m i c w : gproper det cs ws -> gheld cs ws m -> nth_error cs i = Some c -> nth_error ws i = Some w ->
    gNegLog chi s m i = Ok (Fin (gnll chi det s c w)).
  Proof.
    intros (NE & LW & PW & PD) (N & A & W & D) E F. unfold gNegLog, vget. rewrite A, W, D, E, F, (map_nth_error det i cs E).
    cbn [bind]. unfold xlog, gnll.
    destruct (Rlt_dec 0 w) as [|X]; [|exfalso; apply X, PW, (nth_error_In _ _ F)].
    destruct (Rlt_dec 0 (det c)) as [|X]; [|exfalso; apply X, PD, (nth_error_In _ _ E)]. reflexivity.
  Qed.
  Lemma gloop s cs ws m : gproper det cs ws -> gheld cs ws m -> forall k, (k <= length cs)%nat ->
    exists b, foldM (gStep chi s m) (seq 0 k) ((-1)%Z, PInf) = Ok b /\
      (k = 0%nat /\ b = ((-1)%Z, PInf) \/ exists i c w, (i < k)%nat /\ b = (Z.of_nat i, Fin (gnll chi det s c w)) /\
        nth_error cs i = Some c /\ nth_error ws i = Some w /\
        forall j d v, (j < k)%nat -> nth_error cs j = Some d -> nth_error ws j = Some v ->
          gnll chi det s c w <= gnll chi det s d v).
  Proof.
    intros P H. induction k as [|k IH]; intros K; [eexists; split; [reflexivity|left; auto]|].
    destruct IH as (b & F & B); [lia|]. rewrite seq_S, foldM_app, F. cbn [bind foldM Nat.add].
    pose proof P as (_ & LW & _).
    destruct (nth_len cs k) as [c E]; [lia|]. destruct (nth_len ws k) as [w W]; [lia|].
    unfold gStep. rewrite (gneg s cs ws m k c w P H E W). cbn [bind].
    destruct B as [[-> ->]|(i & c' & w' & I & -> & E' & W' & M)]; cbn [snd xgt].
    - eexists. split; [reflexivity|]. right. exists 0%nat, c, w. repeat split; auto.
      intros j d v J D V. assert (j = 0)%nat as -> by lia. rewrite E in D. rewrite W in V.
      injection D as <-. injection V as <-. lra.
    - destruct (Rlt_dec (gnll chi det s c w) (gnll chi det s c' w')); (eexists; split; [reflexivity|]); right.
      + exists k, c, w. repeat split; auto. intros j d v J D V.
        destruct (Nat.eq_dec j k) as [->|]; [rewrite E in D; rewrite W in V; injection D as <-; injection V as <-; lra|].
        pose proof (M j d v ltac:(lia) D V). lra.
      + exists i, c', w'. repeat split; auto. intros j d v J D V.
        destruct (Nat.eq_dec j k) as [->|]; [rewrite E in D; rewrite W in V; injection D as <-; injection V as <-; lra|].
        apply (M j d v); auto. lia.
  Qed.
  Lemma gerror_ok s cs ws m : gproper det cs ws -> gheld cs ws m ->
    exists m' i c, gError chi s m = Ok m' /\ gheld cs ws m' /\ gshows m' i c /\ likeliest chi det s cs ws i c.
  Proof.
    intros P H. pose proof P as (NE & LW & _). pose proof H as (N & A & W & D).
    destruct (gloop s cs ws m P H (length cs) (le_n _)) as (b & F & [[Z _]|(i & c & w & I & -> & E & V & M)]).
    { destruct cs; [congruence|discriminate]. }
    unfold gError. rewrite N, F. cbn [bind fst]. destruct (Z.ltb_spec (Z.of_nat i) 0); [lia|].
    rewrite Nat2Z.id. unfold vget. rewrite A, E. cbn [bind]. eexists _, i, c. split; [reflexivity|].
    split; [repeat split; cbn; auto; congruence|]. split; [split; reflexivity|].
    exists w. repeat split; auto. intros j d v Dj Vj. apply (M j); auto. apply nth_error_Some. congruence.
  Qed.
  Lemma grun_ok cs ws s0 l : gproper det cs ws -> exists m i c, grun chi det cs ws s0 l = Ok m /\ gheld cs ws m /\
    gshows m i c /\ likeliest chi det (last l s0) cs ws i c.
  Proof.
    intros P. unfold grun, gInit. set (m0 := mkGM _ _ _ _ _ _).
    assert (H : gheld cs ws m0) by (subst m0; repeat split; cbn; auto). clearbody m0.
    destruct (gerror_ok s0 cs ws m0 P H) as (m & i & c & E & Hm & Sh & Li). rewrite E. cbn [bind].
    clear H E m0. revert m i c s0 Hm Sh Li. induction l as [|s l IH]; intros m i c s0 Hm Sh Li.
    - exists m, i, c. auto.
    - cbn [foldM]. destruct (gerror_ok s cs ws m P Hm) as (m1 & i1 & c1 & E1 & H1 & S1 & L1). rewrite E1. cbn [bind].
      destruct (IH m1 i1 c1 s H1 S1 L1) as (m2 & i2 & c2 & E2 & H2 & S2 & L2).
      exists m2, i2, c2. split; [exact E2|]. split; [exact H2|]. split; [exact S2|].
      destruct l as [|x l]; [exact L2|]. 
      replace (last (s :: x :: l) s0) with (last (x :: l) s); [exact L2|].
      cbn [last]. clear. revert x. induction l as [|y l IH]; intros x; [reflexivity|]. cbn [last] in *. apply IH.
  Qed.
  Theorem generic_best cs ws s0 l : gproper det cs ws -> exists m i c, grun chi det cs ws s0 l = Ok m /\
    gshows m i c /\ likeliest chi det (last l s0) cs ws i c.
  Proof. intros P. destruct (grun_ok cs ws s0 l P) as (m & i & c & E & _ & Sh & L). eauto 6. Qed.
  Theorem generic_linear3 cs ws s0 l s : gproper det cs ws -> exists m m' i c, grun chi det cs ws s0 l = Ok m /\
    gLinearize3 chi s m = Ok m' /\ gshows m' i c /\ likeliest chi det s cs ws i c.
  Proof.
    intros P. destruct (grun_ok cs ws s0 l P) as (m & _ & _ & E & H & _).
    destruct (gerror_ok s cs ws m P H) as (m' & i & c & E' & _ & Sh & L). exists m, m', i, c. auto.
  Qed.
  Theorem generic_linearxy cs ws s0 l : gproper det cs ws -> exists m m' i c, grun chi det cs ws s0 l = Ok m /\
    gLinearizeXY (last l s0) m = Ok m' /\ gshows m' i c /\ likeliest chi det (last l s0) cs ws i c.
  Proof. intros P. destruct (generic_best cs ws s0 l P) as (m & i & c & E & Sh & L). exists m, m, i, c. auto. Qed.
End Generic.

(** *** A landmark mixture that is linearised somewhere else *)
Definition here (x : R) : (nat -> pose) * (nat -> P2) := (fun _ => mkP 0 0 0, fun _ => (x, 0)).
Definition mark (x : R) : xyedge := mkXY 0 1 x 0 1 1.
Lemma mark_chi x y : xyChi (here x) (mark y) = (x - y) * (x - y).
Proof.
  unfold xyChi, here, mark. cbn [fst snd xy_v0 xy_v1 xy_mx xy_my xy_ix xy_iy].
  unfold t2inv. rewrite (rigid_det _ (rigid_pose _)), Rinv_1. unfold t2apply, getTransFromPose.
  cbn. rewrite cos_0, sin_0. ring.
Qed.
Lemma mark_nll x y : gnll xyChi xyDet (here x) (mark y) 1 = 1 / 2 * ((x - y) * (x - y)).
Proof.
  unfold gnll. rewrite mark_chi, ln_1. unfold xyDet, mark. cbn [xy_ix xy_iy].
  replace (/ (1 * 1)) with 1 by field. rewrite ln_1. ring.
Qed.
Lemma marks_proper : gproper xyDet [mark 0; mark 2] [1; 1].
Proof.
  split; [discriminate|]. split; [reflexivity|]. split; intros x [<-|[<-|[]]]; unfold xyDet, mark; cbn [xy_ix xy_iy]; try lra;
  replace (/ (1 * 1)) with 1 by field; lra.
Qed.
Theorem landmark_stale : exists m m', grun xyChi xyDet [mark 0; mark 2] [1; 1] (here 0) [] = Ok m /\
  gLinearizeXY (here 2) m = Ok m' /\ gshows m' 0 (mark 0) /\
  gnll xyChi xyDet (here 2) (mark 2) 1 < gnll xyChi xyDet (here 2) (mark 0) 1.
Proof.
  destruct (generic_best xyChi xyDet [mark 0; mark 2] [1; 1] (here 0) [] marks_proper) as (m & i & c & E & Sh & w & A & B & M).
  exists m, m. split; [exact E|]. split; [reflexivity|]. cbn [last] in M.
  split; [|rewrite !mark_nll; lra].
  destruct i as [|[|i]].
  - cbn in A. injection A as <-. exact Sh.
  - exfalso. cbn in A, B. injection A as <-. injection B as <-.
    specialize (M 0%nat (mark 0) 1 eq_refl eq_refl). rewrite !mark_nll in M. lra.
  - destruct i; discriminate.
Qed.

(** ** Taking back *)
Lemma balanced_stack l : balanced l -> forall sw, exists sw', forall st, vrun l (mkSt sw st) = Ok (mkSt sw' st).
Proof.
  unfold vrun. induction 1 as [|o l H IH|l l' H IH H' IH'|l l' H IH H' IH']; intros sw.
  - exists sw. reflexivity.
  - destruct (IH (swstep sw o)) as (sw' & E). exists sw'. intro st. cbn [foldM vstep bind st_sw st_stack]. apply E.
  - destruct (IH sw) as (s1 & E). destruct (IH' (mkSw (sw_x s1) (sw_est sw))) as (s2 & E2). exists s2. intro st.
    cbn [foldM vstep bind st_sw st_stack]. rewrite foldM_app, E. cbn [bind foldM vstep st_stack st_sw]. apply E2.
  - destruct (IH sw) as (s1 & E). destruct (IH' s1) as (s2 & E2). exists s2. intro st.
    cbn [foldM vstep bind st_sw st_stack]. rewrite foldM_app, E. cbn [bind foldM vstep st_stack st_sw]. apply E2.
Qed.
Theorem taken_back l v : balanced l -> exists w v', vrun l v = Ok w /\ vrun (VPush :: l ++ [VPop]) v = Ok v' /\
  vEst v' = vEst v /\ st_stack v' = st_stack v /\ vX v' = vX w.
Proof.
  intros B. destruct v as [sw st]. destruct (balanced_stack l B sw) as (s1 & E).
  exists (mkSt s1 st). eexists. split; [apply E|].
  split; [unfold vrun in *; cbn [foldM vstep bind st_sw st_stack]; rewrite foldM_app, E; reflexivity|].
  repeat split.
Qed.
Theorem kept l v : balanced l -> exists w, vrun l v = Ok w /\ vrun (VPush :: l ++ [VDiscard]) v = Ok w.
Proof.
  intros B. destruct v as [sw st]. destruct (balanced_stack l B sw) as (s1 & E).
  exists (mkSt s1 st). split; [apply E|].
  unfold vrun in *; cbn [foldM vstep bind st_sw st_stack]; rewrite foldM_app, E; reflexivity.
Qed.
Lemma plus_in s u : sw_x s = Some 0 -> 0 <= u <= 1 -> swstep s (SwOplus (Some u)) = mkSw (Some u) (Some u).
Proof.
  intros X U. cbn. rewrite X. cbn. rewrite Rplus_0_l. destruct (Rlt_dec u 0); [lra|].
  cbn. destruct (Rlt_dec 1 u); [lra|]. reflexivity.
Qed.
Theorem back_remembers u d : 0 < u -> 0 < d -> u + d <= 1 -> exists v v',
  vrun [VPush; VOp (SwOplus (Some u)); VPop] newStacked = Ok v /\ vEst v = Some 0 /\ vX v = Some u /\
  vrun [VOp (SwOplus (Some d))] v = Ok v' /\ vEst v' = Some (u + d).
Proof.
  intros U D L. unfold vrun. cbn [foldM]. cbn [vstep bind newStacked st_sw st_stack].
  rewrite (plus_in newSwitch u) by (try reflexivity; lra).
  eexists _, _. split; [reflexivity|]. cbn [sw_x st_sw st_stack].
  split; [reflexivity|]. split; [reflexivity|]. split; [reflexivity|].
  unfold vEst. cbn. destruct (Rlt_dec (u + d) 0); [lra|]. cbn. destruct (Rlt_dec 1 (u + d)); [lra|]. reflexivity.
Qed.
