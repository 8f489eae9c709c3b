(** Proofs about the mixture edge and the switchable constraint. *)
From Coq Require Import Reals ZArith List Lra Lia.
From Verif Require Import Base LinAlg3 Deriv GeoModel GeoSpec GeoProofs GeoCov OptModel OptSpec.
Import ListNotations.
Open Scope R_scope.

(** ** Mixture *)
(** Same component apart from the stored error. *)
Definition like (e e' : sedge) : Prop :=
  se_v0 e' = se_v0 e /\ se_v1 e' = se_v1 e /\ se_meas e' = se_meas e /\ se_info e' = se_info e.
Definition held (es : list sedge) (ws : list R) (m : mixture) : Prop :=
  mx_n m = length es /\ mx_w m = ws /\ mx_det m = map cov_det es /\
  length (mx_edges m) = length es /\
  forall i e, nth_error es i = Some e -> exists e', nth_error (mx_edges m) i = Some e' /\ like e e'.

Lemma nth_len {A} (l : list A) i : (i < length l)%nat -> exists a, nth_error l i = Some a.
Proof. intro H. destruct (nth_error l i) eqn:E; [eauto|]. apply nth_error_None in E. lia. Qed.

Lemma neg_ok est es ws m c : proper es ws -> held es ws m -> (c < length es)%nat ->
  exists m' e w, getNegLogProb est m c = Ok (m', Fin (nll est e w)) /\ held es ws m' /\
    nth_error es c = Some e /\ nth_error ws c = Some w /\ mx_self m' = mx_self m.
Proof.
  intros (NE & LW & PW & PD) (Hn & Hw & Hd & Hl & He) L.
  destruct (nth_len es c L) as [e E]. destruct (nth_len ws c) as [w W]; [lia|].
  destruct (He c e E) as [e' [E' (K1 & K2 & K3 & K4)]].
  unfold getNegLogProb, vget, vset. rewrite E', Hw, W. cbn [bind].
  rewrite Hd, (map_nth_error cov_det c es E). cbn [bind].
  rewrite Hl. destruct (Nat.ltb_spec c (length es)); [|lia]. cbn [bind].
  eexists _, e, w. split; [|split; [|split; [exact E|split; [reflexivity|]]]].
  - f_equal. f_equal. unfold xlog, nll.
    destruct (Rlt_dec 0 w) as [|N]; [|exfalso; apply N, PW, (nth_error_In _ _ W)].
    destruct (Rlt_dec 0 (cov_det e)) as [|N]; [|exfalso; apply N, PD, (nth_error_In _ _ E)].
    cbn [xopp xhalf xadd]. do 2 f_equal.
    unfold chi2, seError, residual. cbn [se_info se_err]. rewrite K1, K2, K3, K4. reflexivity.
  - split; [|split; [|split; [|split]]]; cbn [mx_n mx_w mx_det mx_edges]; auto.
    + rewrite length_upd. auto.
    + intros j f F. rewrite nth_error_upd. rewrite Hl, (proj2 (Nat.ltb_lt c (length es)) L). destruct (j =? c)%nat eqn:J; cbn [andb].
      * apply Nat.eqb_eq in J. subst j. rewrite E in F. injection F as <-.
        eexists. split; [reflexivity|]. split; [|split; [|split]]; cbn; auto.
      * apply He. auto.
  - reflexivity.
Qed.

Lemma best_loop est es ws : proper es ws -> forall l s m best err,
  (forall i, In i l -> (i < length es)%nat) -> s = (m, best, err) -> held es ws m ->
  exists m' best' err', foldM (bestStep est) l s = Ok (m', best', err') /\ held es ws m' /\
    mx_self m' = mx_self m /\
    (xgt err err' = true \/ (best' = best /\ err' = err)) /\
    (err' = err /\ best' = best \/ exists i e w, In i l /\ best' = Z.of_nat i /\ nth_error es i = Some e /\
       nth_error ws i = Some w /\ err' = Fin (nll est e w)) /\
    (forall i e w, In i l -> nth_error es i = Some e -> nth_error ws i = Some w ->
       xgt err' (Fin (nll est e w)) = false).
Proof.
  intros P. induction l as [|c l IH]; intros s m best err Hl -> H.
  - exists m, best, err. cbn. repeat split; auto; try (intros ? ? ? []). all: destruct H; intuition.
  - cbn [foldM bestStep].
    destruct (neg_ok est es ws m c P H) as (m1 & e & w & G & H1 & E & W & S1); [apply Hl; left; auto|].
    rewrite G. cbn [bind].
    assert (Hl' : forall i, In i l -> (i < length es)%nat) by (intros; apply Hl; right; auto).
    destruct (xgt err (Fin (nll est e w))) eqn:X.
    + destruct (IH _ m1 (Z.of_nat c) (Fin (nll est e w)) Hl' eq_refl H1) as (m' & b' & r' & F & H' & S' & T & U & V).
      exists m', b', r'. split; [exact F|]. split; [exact H'|]. split; [congruence|].
      assert (TT : xgt err r' = true).
      { destruct T as [T|[_ ->]]; [|auto]. destruct err, r'; cbn in *; try discriminate; auto;
        repeat match goal with |- context [Rlt_dec ?a ?b] => destruct (Rlt_dec a b) end;
        repeat match goal with H : context [Rlt_dec ?a ?b] |- _ => destruct (Rlt_dec a b) end; auto; try lra; discriminate. }
      split; [auto|]. split.
      * right. destruct U as [[-> ->]|(i & e2 & w2 & I & U1 & U2 & U3 & U4)].
        -- exists c, e, w. repeat split; auto. left. auto.
        -- exists i, e2, w2. repeat split; auto. right. auto.
      * intros i e2 w2 [<-|I] E2 W2; [|eapply V; eauto].
        rewrite E in E2. rewrite W in W2. injection E2 as <-. injection W2 as <-.
        destruct T as [T|[_ ->]]; [|cbn; destruct (Rlt_dec _ _); [lra|auto]].
        destruct r'; cbn in *; try discriminate; auto.
        destruct (Rlt_dec r _); [|discriminate]. destruct (Rlt_dec _ r); [lra|auto].
    + destruct (IH _ m1 best err Hl' eq_refl H1) as (m' & b' & r' & F & H' & S' & T & U & V).
      exists m', b', r'. split; [exact F|]. split; [exact H'|]. split; [congruence|]. split; [auto|]. split.
      * destruct U as [[-> ->]|(i & e2 & w2 & I & U1 & U2 & U3 & U4)]; [left; auto|].
        right. exists i, e2, w2. repeat split; auto. right; auto.
      * intros i e2 w2 [<-|I] E2 W2; [|eapply V; eauto].
        rewrite E in E2. rewrite W in W2. injection E2 as <-. injection W2 as <-.
        destruct T as [T|[_ ->]]; [|auto].
        destruct err, r'; cbn in *; try discriminate; auto;
        repeat match goal with |- context [Rlt_dec ?a ?b] => destruct (Rlt_dec a b) end;
        repeat match goal with H : context [Rlt_dec ?a ?b] |- _ => destruct (Rlt_dec a b) end; auto; try lra; discriminate.
Qed.

Lemma compute_ok est es ws m : proper es ws -> held es ws m ->
  exists m' i e w, computeErrorMix est m = Ok m' /\ held es ws m' /\ nth_error es i = Some e /\
    nth_error ws i = Some w /\ shows m' i e /\ se_err (mx_self m') = residual est e /\
    forall j f v, nth_error es j = Some f -> nth_error ws j = Some v -> nll est e w <= nll est f v.
Proof.
  intros P H. pose proof H as (Hn & _). destruct P as (NE & LW & PW & PD).
  assert (P : proper es ws) by (repeat split; auto).
  destruct (best_loop est es ws P (seq 0 (mx_n m)) (m, (-1)%Z, PInf) m (-1)%Z PInf) as (m1 & b & r & F & H1 & S1 & T & U & V);
    [intros i I; apply in_seq in I; lia|reflexivity|exact H|].
  unfold computeErrorMix. rewrite F. cbn [bind].
  destruct U as [[-> ->]|(i & e & w & I & -> & E & W & ->)].
  { destruct es as [|e0 es]; [congruence|]. destruct ws as [|w0 ws]; [cbn in LW; lia|].
    specialize (V 0%nat e0 w0). cbn in V. exfalso.
    enough (true = false) by discriminate. apply V; auto. apply in_seq. rewrite Hn. cbn. lia. }
  unfold updateBelief. cbn [mx_edges].
  destruct (Z.ltb_spec (Z.of_nat i) 0); [lia|]. rewrite Nat2Z.id. unfold vget.
  destruct H1 as (G1 & G2 & G3 & G4 & G5). destruct (G5 i e E) as (e' & E' & K1 & K2 & K3 & K4).
  rewrite E'. cbn [bind].
  eexists _, i, e, w. split; [reflexivity|]. split; [|split; [exact E|split; [exact W|split; [|split]]]].
  - split; [|split; [|split; [|split]]]; cbn [mx_n mx_w mx_det mx_edges mx_self]; auto.
  - unfold shows. cbn. auto.
  - unfold residual. cbn. rewrite K1, K2, K3. reflexivity.
  - intros j f v E2 W2. assert (J : (j < length es)%nat) by (apply nth_error_Some; congruence).
    specialize (V j f v). cbn in V. rewrite in_seq in V. specialize (V ltac:(lia) E2 W2).
    destruct (Rlt_dec _ _); [discriminate|lra].
Qed.

Lemma foldM_mix ests : forall es ws m, proper es ws -> held es ws m ->
  exists m', foldM (fun m est => computeErrorMix est m) ests m = Ok m' /\ held es ws m'.
Proof.
  induction ests as [|est ests IH]; intros es ws m P H; [exists m; auto|].
  cbn. destruct (compute_ok est es ws m P H) as (m' & i & e & w & C & H' & _). rewrite C. cbn [bind].
  eapply IH; eauto.
Qed.

Lemma last_or {A} (l : list A) d : l = [] /\ last l d = d \/ exists l', l = l' ++ [last l d].
Proof.
  destruct l as [|a l]; [left; auto|]. right. exists (removelast (a :: l)). apply app_removelast_last. discriminate.
Qed.

Theorem mixture_best self es ws est0 ests : proper es ws ->
  exists m i e w, mixrun self es ws est0 ests = Ok m /\ nth_error es i = Some e /\ nth_error ws i = Some w /\
    shows m i e /\ se_err (mx_self m) = residual (last ests est0) e /\
    forall j f v, nth_error es j = Some f -> nth_error ws j = Some v ->
      nll (last ests est0) e w <= nll (last ests est0) f v.
Proof.
  intros P. unfold mixrun, initComponents.
  set (m0 := mkMix _ _ _ _ _ _).
  assert (H : held es ws m0).
  { subst m0. split; [|split; [|split; [|split]]]; cbn; auto.
    intros i e E. exists e. split; [auto|]. repeat split. }
  destruct (last_or ests est0) as [[-> ->]|[l E]].
  - cbn [foldM]. destruct (compute_ok est0 es ws m0 P H) as (m' & i & e & w & C & _ & A).
    rewrite C. cbn [bind]. exists m', i, e, w. split; [auto|exact A].
  - destruct (compute_ok est0 es ws m0 P H) as (m1 & _ & _ & _ & C & H1 & _). rewrite C. cbn [bind].
    remember (last ests est0) as x eqn:X. clear X. subst ests. rewrite foldM_app.
    destruct (foldM_mix l es ws m1 P H1) as (m2 & F & H2). rewrite F. cbn [bind foldM].
    destruct (compute_ok x es ws m2 P H2) as (m' & i & e & w & C' & _ & A).
    rewrite C'. cbn [bind]. exists m', i, e, w. split; [auto|exact A].
Qed.

Theorem mixture_empty self est0 : initComponents est0 (newMixture self) [] [] = UB.
Proof. reflexivity. Qed.

Lemma no_component est m : (forall c, (c < mx_n m)%nat -> exists w, nth_error (mx_w m) c = Some w /\ w <= 0) ->
  (forall c, (c < mx_n m)%nat -> exists d, nth_error (mx_det m) c = Some d) ->
  length (mx_edges m) = mx_n m -> computeErrorMix est m = UB.
Proof.
  intros W D L. unfold computeErrorMix.
  assert (Q : forall l m', (forall i, In i l -> (i < mx_n m)%nat) -> mx_w m' = mx_w m -> mx_det m' = mx_det m ->
    length (mx_edges m') = mx_n m ->
    exists m'', foldM (bestStep est) l (m', (-1)%Z, PInf) = Ok (m'', (-1)%Z, PInf)).
  { induction l as [|c l IH]; intros m' Hl Ew Ed El; [eexists; reflexivity|].
    assert (C : (c < mx_n m)%nat) by (apply Hl; left; auto).
    destruct (W c C) as (w & W1 & W2). destruct (D c C) as (d & D1).
    destruct (nth_len (mx_edges m') c) as [e E]; [lia|].
    cbn [foldM]. unfold bestStep at 1, getNegLogProb, vget, vset. rewrite E, Ew, W1, Ed, D1. cbn [bind].
    destruct (Nat.ltb_spec c (length (mx_edges m'))); [|lia]. cbn [bind].
    assert (X : xgt PInf (xadd (xadd (xopp (xlog w)) (xhalf (xlog d))) (Fin (1 / 2 * chi2 (seError est e)))) = false).
    { unfold xlog. destruct (Rlt_dec 0 w); [lra|].
      destruct (Rlt_dec 0 d), (Req_EM_T w 0), (Req_EM_T d 0); reflexivity. }
    rewrite X. apply IH; auto; [intros i I; apply Hl; right; auto|]. cbn. rewrite length_upd. auto. }
  destruct (Q (seq 0 (mx_n m)) m) as [m'' F]; auto.
  { intros i I. apply in_seq in I. lia. }
  rewrite F. reflexivity.
Qed.

(** Components whose weights are not positive: nothing is chosen and entry -1 is read. *)
Theorem mixture_zero_weights self est0 es ws : length es = length ws -> Forall (fun w => w <= 0) ws ->
  initComponents est0 (newMixture self) es ws = UB.
Proof.
  intros L W. unfold initComponents. apply no_component; cbn [mx_n mx_w mx_det mx_edges newMixture app]; auto; intros c C.
  - destruct (nth_error ws c) as [w|] eqn:E; [|apply nth_error_None in E; lia]. exists w. split; [reflexivity|].
    rewrite Forall_forall in W. apply W, (nth_error_In _ _ E).
  - destruct (nth_len (map (fun e => mdet (minv (se_info e))) es) c) as [d E]; [rewrite map_length; exact C|]. eauto.
Qed.

(** ** Switch *)
Lemma switch_same ops : sw_x (swrun ops) = sw_est (swrun ops).
Proof.
  unfold swrun. assert (H : sw_x newSwitch = sw_est newSwitch) by reflexivity.
  revert H. generalize newSwitch. induction ops as [|o ops IH]; intros s H; cbn; [auto|].
  apply IH. destruct o; reflexivity.
Qed.
Lemma switch_step s o : in01 (sw_x s) -> optimiser_op o -> in01 (sw_x (swstep s o)).
Proof.
  intros [r [E B]] O. destruct o as [|v|[u|]]; cbn in O; try tauto.
  - exists 0. cbn. split; [auto|lra].
  - cbn. rewrite E. cbn. destruct (Rlt_dec (r + u) 0); cbn.
    + destruct (Rlt_dec 1 0); [lra|]. exists 0. split; [auto|lra].
    + destruct (Rlt_dec 1 (r + u)); [exists 1|exists (r + u)]; (split; [auto|lra]).
Qed.
Theorem switch_range ops : (forall o, In o ops -> optimiser_op o) -> in01 (sw_est (swrun ops)) /\
  sw_x (swrun ops) = sw_est (swrun ops).
Proof.
  intros O. split; [|apply switch_same]. rewrite <- switch_same. unfold swrun.
  assert (H : in01 (sw_x newSwitch)) by (exists 0; cbn; split; [auto|lra]).
  revert H. generalize newSwitch. induction ops as [|o ops IH]; intros s H; cbn; [auto|].
  apply IH; [intros; apply O; right; auto|]. apply switch_step; [auto|]. apply O. left. auto.
Qed.
(** From any number at all, one update brings the value into the range. *)
Theorem switch_recovers ops v u : 
  in01 (sw_est (swrun (ops ++ [SwSet (Some v); SwOplus (Some u)]))).
Proof.
  unfold swrun. rewrite fold_left_app. cbn.
  destruct (Rlt_dec (v + u) 0); cbn.
  - destruct (Rlt_dec 1 0); [lra|]. exists 0. split; [auto|lra].
  - destruct (Rlt_dec 1 (v + u)); [exists 1|exists (v + u)]; (split; [auto|lra]).
Qed.
Theorem switch_set ops v : sw_est (swrun (ops ++ [SwSet (Some v)])) = Some v.
Proof. unfold swrun. rewrite fold_left_app. reflexivity. Qed.
Theorem switch_nan ops us : sw_est (swrun (ops ++ SwOplus None :: map SwOplus us)) = None.
Proof.
  rewrite <- switch_same. unfold swrun. rewrite fold_left_app. cbn [fold_left].
  assert (H : sw_x (swstep (fold_left swstep ops newSwitch) (SwOplus None)) = None).
  { cbn. destruct (sw_x _); reflexivity. }
  revert H. generalize (swstep (fold_left swstep ops newSwitch) (SwOplus None)).
  induction us as [|u us IH]; intros s H; [auto|]. cbn [map fold_left]. apply IH.
  cbn. rewrite H. reflexivity.
Qed.

(** ** Jacobians of the switchable constraint *)
Lemma iz_angle z : cos (pth (getPoseFromTransform (t2inv (getTransFromPose z)))) = cos (pth z) /\
  sin (pth (getPoseFromTransform (t2inv (getTransFromPose z)))) = - sin (pth z).
Proof.
  assert (R : rigid (t2inv (getTransFromPose z))) by apply rigid_inv, rigid_pose.
  cbn [getPoseFromTransform pth]. destruct (rigid_angle _ R) as [-> ->].
  unfold t2inv. rewrite (rigid_det _ (rigid_pose z)), Rinv_1. cbn. split; ring.
Qed.
Lemma switch_blocks vi vj z s :
  fst (fst (switchJacobians vi vj z s)) = mscale s (fst (calcJacobianBlocks vi vj z)) /\
  snd (fst (switchJacobians vi vj z s)) = mscale s (snd (calcJacobianBlocks vi vj z)).
Proof.
  destruct (iz_angle z) as [C S]. unfold switchJacobians. cbv zeta. rewrite C, S.
  unfold calcJacobianBlocks. cbn [fst snd]. rewrite cos_plus, sin_plus.
  split; f_equal; mcring.
Qed.
Lemma jac_scale f p j s : is_jacobian f p j ->
  is_jacobian (fun x => mkP (px (f x) * s) (py (f x) * s) (pth (f x) * s)) p (mscale s j).
Proof.
  intros (H1 & H2 & H3 & H4 & H5 & H6 & H7 & H8 & H9). unfold is_jacobian. cbn [px py pth].
  assert (G : forall g a l, derivable_pt_lim g a l -> derivable_pt_lim (fun x => g x * s) a (s * l)).
  { intros g a l D. apply (D_eq _ _ (l * s + g a * 0)); [ring|]. apply (D_mult g (fun _ => s) a l 0 D (D_const _ _)). }
  repeat split; cbn [m11 m12 m13 m21 m22 m23 m31 m32 m33 mscale]; apply (G (fun x => _)); assumption.
Qed.

Lemma jac_ext f g p j : (forall x, f x = g x) -> is_jacobian g p j -> is_jacobian f p j.
Proof.
  intros E (H1 & H2 & H3 & H4 & H5 & H6 & H7 & H8 & H9). unfold is_jacobian.
  repeat split; (eapply derivable_pt_lim_ext; [intro z; rewrite E; reflexivity|assumption]).
Qed.
Lemma switchError_eq vi vj z s : switchError vi vj z s =
  mkP (px (calcError vi vj z) * s) (py (calcError vi vj z) * s) (pth (calcError vi vj z) * s).
Proof.
  unfold switchError. cbv zeta. generalize (calcError vi vj z). intro d.
  apply pose_eq; cbn [px py pth]; ring.
Qed.

Theorem switch_jacobian vi vj z s : normalizeAngle (pth vj - pth vi - pth z) <> PI ->
  is_jacobian (fun x => switchError x vj z s) vi (fst (fst (switchJacobians vi vj z s))) /\
  is_jacobian (fun x => switchError vi x z s) vj (snd (fst (switchJacobians vi vj z s))) /\
  is_column (fun x => switchError vi vj z x) s (snd (switchJacobians vi vj z s)).
Proof.
  intros N. destruct (switch_blocks vi vj z s) as [-> ->]. split; [|split].
  - eapply jac_ext; [intro; apply switchError_eq|].
    apply (jac_scale (fun x => calcError x vj z)). apply jacobian_first. exact N.
  - eapply jac_ext; [intro; apply switchError_eq|].
    apply (jac_scale (fun x => calcError vi x z)). apply jacobian_second. exact N.
  - unfold is_column, switchError, switchJacobians, vecOf. cbn [px py pth fst snd vscale vx vy vz].
    generalize (calcError vi vj z). intro d.
    repeat split; (eapply D_eq; [|der]; cbn; ring).
Qed.
Theorem switch_off vi vj z : switchError vi vj z 0 = mkP 0 0 0 /\ switchError vi vj z 1 = calcError vi vj z.
Proof. unfold switchError. split; apply pose_eq; cbn; ring. Qed.
Theorem prior_jacobian meas x : derivable_pt_lim (priorError meas) x priorJacobian.
Proof. unfold priorError, priorJacobian. eapply D_eq; [|der]. ring. Qed.

(** ** Handing over components twice: the second hand-over appends its
    determinants behind the first ones, which stay in use. *)
Definition zeros : nat -> pose := fun _ => mkP 0 0 0.
Definition wide : sedge := mkSE 0 1 (mkP 0 0 0) mid (mkP 0 0 0).
Definition tight : sedge := mkSE 0 1 (mkP 0 0 0) (mscale 2 mid) (mkP 0 0 0).
Lemma error_zeros : calcError (mkP 0 0 0) (mkP 0 0 0) (mkP 0 0 0) = mkP 0 0 0.
Proof.
  apply error_zero. unfold same_pose, compose. cbn.
  split; [ring|]. split; [ring|]. exists 0%Z. cbn. ring.
Qed.
Lemma det_wide : cov_det wide = 1.
Proof. unfold cov_det, minv, mdet. cbn. field. Qed.
Lemma det_tight : cov_det tight = / 8.
Proof. unfold cov_det, minv, mdet. cbn. field. Qed.
Lemma ln_neg : ln (/ 8) < 0.
Proof. rewrite <- ln_1. apply ln_increasing; lra. Qed.
Lemma nll_wide : nll zeros wide 1 = 0.
Proof. unfold nll, residual. rewrite det_wide, ln_1. unfold zeros, wide, quad; cbn. rewrite error_zeros. cbn. unfold vdot; cbn. lra. Qed.
Lemma nll_tight : nll zeros tight 1 = 1 / 2 * ln (/ 8).
Proof. unfold nll, residual. rewrite det_tight, ln_1. unfold zeros, tight, quad; cbn. rewrite error_zeros. cbn. unfold vdot; cbn. lra. Qed.
Lemma proper_pair : proper [wide; tight] [1; 1] /\ proper [tight; wide] [1; 1].
Proof.
  pose proof det_wide as A. pose proof det_tight as B.
  split; (split; [discriminate|split; [reflexivity|split]]); cbn;
    intros x [<-|[<-|[]]]; try rewrite A; try rewrite B; lra.
Qed.

(** One step of the choice, for an edge without residual. *)
Lemma neg_zero m c e w d : nth_error (mx_edges m) c = Some e -> nth_error (mx_w m) c = Some w ->
  nth_error (mx_det m) c = Some d -> 0 < w -> 0 < d -> seError zeros e = e -> se_err e = mkP 0 0 0 ->
  getNegLogProb zeros m c = Ok (mkMix (mx_self m) (mx_n m) (mx_best m) (upd (mx_edges m) c e) (mx_w m) (mx_det m),
    Fin (- ln w + 1 / 2 * ln d)).
Proof.
  intros E W D PW PD S Z. unfold getNegLogProb, vget, vset. rewrite E, W, D. cbn [bind].
  assert ((c < length (mx_edges m))%nat) as L by (apply nth_error_Some; congruence).
  rewrite (proj2 (Nat.ltb_lt _ _) L). cbn [bind]. rewrite S. do 2 f_equal.
  unfold xlog. destruct (Rlt_dec 0 w); [|lra]. destruct (Rlt_dec 0 d); [|lra].
  cbn [xopp xhalf xadd]. f_equal. unfold chi2, quad, vdot. rewrite Z. cbn. ring.
Qed.

Theorem mixture_reinit self : exists m1 m2,
  initComponents zeros (newMixture self) [wide; tight] [1; 1] = Ok m1 /\
  initComponents zeros m1 [tight; wide] [1; 1] = Ok m2 /\
  mx_best m2 = Some 1%Z /\ nll zeros tight 1 < nll zeros wide 1.
Proof.
  pose proof ln_neg as LN. pose proof det_wide as DW. pose proof det_tight as DT.
  assert (SW : seError zeros wide = wide) by (unfold seError, wide, zeros; cbn; rewrite error_zeros; auto).
  assert (ST : seError zeros tight = tight) by (unfold seError, tight, zeros; cbn; rewrite error_zeros; auto).
  assert (G : forall m e0 e1 w n, mx_n m = 2%nat -> mx_edges m = [e0; e1] -> mx_w m = [1; 1] ->
    mx_det m = 1 :: / 8 :: w -> seError zeros e0 = e0 -> se_err e0 = mkP 0 0 0 ->
    seError zeros e1 = e1 -> se_err e1 = mkP 0 0 0 -> n = w ->
    exists m', computeErrorMix zeros m = Ok m' /\ mx_best m' = Some 1%Z /\ mx_det m' = 1 :: / 8 :: w).
  { intros m e0 e1 w n N E W D S0 Z0 S1 Z1 _. unfold computeErrorMix. rewrite N. cbn [seq foldM].
    unfold bestStep at 1. rewrite (neg_zero m 0 e0 1 1); try rewrite E; try rewrite W; try rewrite D; auto; try lra.
    cbn [bind]. rewrite ln_1. cbn [xgt].
    unfold bestStep at 1.
    erewrite (neg_zero _ 1 e1 1 (/ 8)); cbn [mx_edges mx_w mx_det mx_self mx_n mx_best]; try rewrite W; try rewrite D; try reflexivity; auto; try lra.
    cbn [bind xgt]. rewrite ln_1. destruct (Rlt_dec (- 0 + 1 / 2 * ln (/ 8)) (- 0 + 1 / 2 * 0)); [|lra].
    cbn [bind]. unfold updateBelief. cbn [mx_edges mx_best mx_self mx_n mx_w mx_det]. cbn [Z.ltb Z.compare Z.of_nat].
    unfold vget. cbn. eexists. split; [reflexivity|]. cbn. split; reflexivity. }
  unfold initComponents at 1.
  edestruct (G (mkMix (mx_self (newMixture self)) (length [wide; tight]) (mx_best (newMixture self)) [wide; tight] [1; 1]
    (mx_det (newMixture self) ++ map (fun e => mdet (minv (se_info e))) [wide; tight])) wide tight []) as (m1 & C1 & B1 & D1); auto.
  { cbn [mx_det newMixture app map]. fold (cov_det wide). fold (cov_det tight). rewrite DW, DT. reflexivity. }
  exists m1. unfold initComponents.
  edestruct (G (mkMix (mx_self m1) (length [tight; wide]) (mx_best m1) [tight; wide] [1; 1]
    (mx_det m1 ++ map (fun e => mdet (minv (se_info e))) [tight; wide])) tight wide (map (fun e => mdet (minv (se_info e))) [tight; wide])) as (m2 & C2 & B2 & D2); auto.
  { cbn [mx_det]. rewrite D1. reflexivity. }
  exists m2. split; [exact C1|]. split; [exact C2|]. split; [exact B2|].
  rewrite nll_wide, nll_tight. lra.
Qed.
