(** C94 - C97: the text of robust edges, the edge with a null hypothesis, the other
    mixture edges, and taking back a step. *)
From Coq Require Import Reals ZArith List Lra.
From Verif Require Import Base LinAlg3 GeoModel GeoSpec GeoProofs OptModel OptSpec OptProofs PlugModel PlugSpec PlugProofs.
Import ListNotations.
Open Scope R_scope.

(** C94: what a switch, a prior or a switchable constraint writes is read back as it
    was, and the rest of the text is left for the next reader. *)
Theorem C94_switch : forall v old rest, 
  swRead (Some (swWrite v ++ rest)) old = (mkSw (Some v) (Some v), Some rest).
Proof. exact switch_text. Qed.
Print Assumptions C94_switch.
Theorem C94_prior : forall e e' junk rest,
  priorRead (Some (priorWrite e ++ rest)) junk e' = (e, Some rest).
Proof. exact prior_text. Qed.
Print Assumptions C94_prior.
Theorem C94_switchable : forall e e' junk rest, symmetric (snd e) ->
  switchableRead (Some (switchableWrite e ++ rest)) junk e' = (e, Some rest).
Proof. exact switchable_text. Qed.
Print Assumptions C94_switchable.

(** C94, for a mixture edge with proper components after any evaluations, read into a
    new edge: it has the same components and weights, and shows the component that is
    most likely at the estimate it is read at. *)
Theorem C94_mixture_partial : forall self es ws est0 ests m, proper es ws ->
  mixrun self es ws est0 ests = Ok m ->
  forall fresh junk junkM verts self' est rest, storable verts es ->
  exists text m' i e w, mixWrite m = Ok text /\
    mixRead fresh junk junkM verts est (newMixture self') (Some (text ++ rest)) = Ok (m', Some rest) /\
    mx_n m' = length es /\ Forall2 same_component es (mx_edges m') /\ mx_w m' = ws /\
    nth_error es i = Some e /\ nth_error ws i = Some w /\ shows m' i e /\
    forall j f v, nth_error es j = Some f -> nth_error ws j = Some v -> nll est e w <= nll est f v.
Proof. exact mixture_text. Qed.
Print Assumptions C94_mixture_partial.

Example C94_case : storable [0; 1]%nat [wide; tight] /\
  exists m, mixrun wide [wide; tight] [1; 1] zeros [apart] = Ok m.
Proof.
  split.
  - intros e [<-|[<-|[]]]; cbn; unfold symmetric; cbn; auto 8.
  - destruct (mixture_best wide [wide; tight] [1; 1] zeros [apart] (proj1 proper_pair)) as (m & _ & _ & _ & R & _). eauto.
Qed.

(** C94 is false for a mixture edge that is in use already: it keeps its old weights
    and determinants, and chooses the wrong one of the components read. *)
Theorem C94_mixture_refuted : forall self self' junk junkM, exists m text m1 m2,
  mixrun self [tight; wide] [1; 1] zeros [] = Ok m /\ mixWrite m = Ok text /\
  mixrun self' [wide; tight] [1; 1] zeros [] = Ok m1 /\
  mixRead wide junk junkM [0; 1]%nat zeros m1 (Some text) = Ok (m2, Some []) /\
  mx_best m2 = Some 1%Z /\ length (mx_edges m2) = 4%nat /\ nll zeros tight 1 < nll zeros wide 1.
Proof. exact mixture_text_reuse. Qed.
Print Assumptions C94_mixture_refuted.

(** C94 is false for the edge with a null hypothesis: its text lacks the weight, so
    reading takes the first coordinate for the weight, shifts all other numbers and
    runs out of text; read() reports success nevertheless. *)
Theorem C94_null_refuted : forall h old junk h', exists n,
  snd (nhRead (Some (nhWrite h)) old junk h') = None /\
  nh_set (fst (nhRead (Some (nhWrite h)) old junk h')) = Some n /\
  ns_w n = px (se_meas (nh_edge h)) /\
  se_meas (nh_edge (fst (nhRead (Some (nhWrite h)) old junk h'))) =
    mkP (py (se_meas (nh_edge h))) (pth (se_meas (nh_edge h))) (m11 (se_info (nh_edge h))).
Proof. exact null_rewrite_loses. Qed.
Print Assumptions C94_null_refuted.

(** C95: an edge read from a text and then evaluated any number of times has the
    residual of the last estimate and the information of the hypothesis it reports;
    it reports the null hypothesis exactly if that would be more likely with
    information matrices twice as large. *)
Theorem C95_choice : forall e w old junk ests est, symmetric (se_info e) ->
  exists h, nhrun e w old junk ests est = Ok h /\ se_v0 (nh_edge h) = se_v0 e /\
    se_v1 (nh_edge h) = se_v1 e /\ se_meas (nh_edge h) = se_meas e /\
    se_err (nh_edge h) = residual est e /\
    se_info (nh_edge h) = (if nh_null h then mscale w (se_info e) else se_info e) /\
    (0 < w -> 0 < mdet (se_info e) ->
      (nh_null h = true <-> null_likelier w (mscale 2 (se_info e)) (vecOf (residual est e)))).
Proof.
  intros e w old junk ests est S.
  destruct (null_run e w old junk ests est S) as (h & A & B & C & D & E & F & _ & G).
  exists h. exact (conj A (conj B (conj C (conj D (conj E (conj F G)))))).
Qed.
Print Assumptions C95_choice.

(** So a more likely null hypothesis is always reported (weights of at most 1) ... *)
Theorem C95_null_partial : forall e w old junk ests est h, symmetric (se_info e) ->
  0 < mdet (se_info e) -> 0 < w <= 1 -> nhrun e w old junk ests est = Ok h ->
  null_likelier w (se_info e) (vecOf (residual est e)) -> nh_null h = true.
Proof.
  intros e w old junk ests est h S D W R L.
  destruct (null_run e w old junk ests est S) as (h' & A & _ & _ & _ & _ & _ & _ & G).
  rewrite R in A. injection A as <-. apply (G (proj1 W) D). apply null_double; assumption.
Qed.
Print Assumptions C95_null_partial.
(** ... but the constraint can be given up although it is the more likely one. *)
Theorem C95_null_refuted : forall old junk ests, exists h, nhrun wide (1 / 4) old junk ests apart = Ok h /\
  nh_null h = true /\ ~ null_likelier (1 / 4) (se_info wide) (vecOf (residual apart wide)).
Proof.
  intros old junk ests.
  destruct (null_run wide (1 / 4) old junk ests apart sym_wide) as (h & A & _ & _ & _ & _ & _ & _ & G).
  exists h. split; [exact A|]. split; [|exact (proj2 null_wrong)].
  apply G; [lra|cbn; rewrite mdet_id; lra|exact (proj1 null_wrong)].
Qed.
Print Assumptions C95_null_refuted.

(** C95: the Jacobian is the derivative of the error as long as the constraint is
    chosen and the residual angle is not a half turn; with the null hypothesis it is
    not (both the information and the Jacobian are scaled). *)
Theorem C95_jacobian_partial : forall e w old junk ests est, symmetric (se_info e) ->
  forall h, nhrun e w old junk ests est = Ok h ->
  let vi := est (se_v0 e) in let vj := est (se_v1 e) in
  normalizeAngle (pth vj - pth vi - pth (se_meas e)) <> PI ->
  exists a b, nhJacobians est h = Ok (a, b) /\
   (nh_null h = false -> is_jacobian (fun x => calcError x vj (se_meas e)) vi a /\
                         is_jacobian (fun x => calcError vi x (se_meas e)) vj b) /\
   (nh_null h = true -> w <> 1 -> ~ is_jacobian (fun x => calcError x vj (se_meas e)) vi a).
Proof. exact null_jacobian. Qed.
Print Assumptions C95_jacobian_partial.

Example C95_case : symmetric (se_info wide) /\ 0 < mdet (se_info wide) /\
  normalizeAngle (pth (apart 1) - pth (apart 0) - pth (se_meas wide)) <> PI.
Proof.
  split; [exact sym_wide|]. split; [cbn; rewrite mdet_id; lra|].
  cbn. pose proof PI_RGT_0. rewrite normalize_id; lra.
Qed.

(** C95: an edge that was not read from a text has no hypotheses; evaluating it uses
    matrices that were never set. *)
Theorem C95_unread_refuted : forall e est, nhError est (newNH e) = UB.
Proof. exact null_unread. Qed.
Print Assumptions C95_unread_refuted.
(** Until it is evaluated an edge does not report the null hypothesis, read from a text or not. *)
Theorem C95_at_first : forall e w old junk, nh_null (newNH e) = false /\
  nh_null (fst (nhRead (Some (nhText w (se_meas e) (se_info e))) old junk (newNH e))) = false.
Proof. intros. split; reflexivity. Qed.
Print Assumptions C95_at_first.

(** C96: a mixture over any kind of component shows, after any evaluations, one that
    is most likely at the last estimate. *)
Theorem C96_choice_partial : forall (C S : Type) (chi : S -> C -> R) (det : C -> R) cs ws s0 l, gproper det cs ws ->
  exists m i c, grun chi det cs ws s0 l = Ok m /\ gshows m i c /\ likeliest chi det (last l s0) cs ws i c.
Proof. exact @generic_best. Qed.
Print Assumptions C96_choice_partial.
(** The 3-D edge is linearised at a component that is most likely where it is
    linearised, wherever that is. *)
Theorem C96_linear3_partial : forall (C S : Type) (chi : S -> C -> R) (det : C -> R) cs ws s0 l s, gproper det cs ws ->
  exists m m' i c, grun chi det cs ws s0 l = Ok m /\
    gLinearize3 chi s m = Ok m' /\ gshows m' i c /\ likeliest chi det s cs ws i c.
Proof. exact @generic_linear3. Qed.
Print Assumptions C96_linear3_partial.
(** The landmark edge only if it was evaluated there before ... *)
Theorem C96_landmark_partial : forall (C S : Type) (chi : S -> C -> R) (det : C -> R) cs ws s0 l, gproper det cs ws ->
  exists m m' i c, grun chi det cs ws s0 l = Ok m /\
    gLinearizeXY (last l s0) m = Ok m' /\ gshows m' i c /\ likeliest chi det (last l s0) cs ws i c.
Proof. exact @generic_linearxy. Qed.
Print Assumptions C96_landmark_partial.
(** ... and not otherwise. *)
Theorem C96_landmark_refuted : exists m m', grun xyChi xyDet [mark 0; mark 2] [1; 1] (here 0) [] = Ok m /\
  gLinearizeXY (here 2) m = Ok m' /\ gshows m' 0 (mark 0) /\
  gnll xyChi xyDet (here 2) (mark 2) 1 < gnll xyChi xyDet (here 2) (mark 0) 1.
Proof. exact landmark_stale. Qed.
Print Assumptions C96_landmark_refuted.
(** The cost of a landmark edge: how far the landmark, seen from the robot, is from where it
    was measured, forwards and sideways, each with its own weight. *)
Theorem C96_landmark_cost : forall est marks v0 v1 mx my ix iy,
  let p := est v0 in let l := marks v1 in
  let forwards := cos (pth p) * (fst l - px p) + sin (pth p) * (snd l - py p) in
  let sideways := - sin (pth p) * (fst l - px p) + cos (pth p) * (snd l - py p) in
  xyChi (est, marks) (mkXY v0 v1 mx my ix iy) = ix * (forwards - mx) ^ 2 + iy * (sideways - my) ^ 2.
Proof.
  intros. unfold xyChi. cbn [fst snd xy_v0 xy_v1 xy_mx xy_my xy_ix xy_iy].
  assert (D : cos (pth p) * cos (pth p) - - sin (pth p) * sin (pth p) = 1) by (pose proof (sin2_cos2 (pth p)) as S; unfold Rsqr in S; lra).
  unfold t2apply, t2inv, t2det, getTransFromPose. cbn [ta tb tc td tx ty fst snd]. fold p. rewrite D, Rinv_1.
  unfold forwards, sideways. fold l. cbn [fst snd]. ring.
Qed.
Print Assumptions C96_landmark_cost.
Example C96_case : gproper xyDet [mark 0; mark 2] [1; 1] /\
  gnll xyChi xyDet (here 2) (mark 2) 1 < gnll xyChi xyDet (here 2) (mark 0) 1.
Proof. split; [exact marks_proper|]. rewrite !mark_nll. lra. Qed.

(** C97: taking back what was done since an estimate was kept restores the estimate
    and the estimates kept before; the value from which the next update starts stays
    the one reached. *)
Theorem C97_back_partial : forall l v, balanced l ->
  exists w v', vrun l v = Ok w /\ vrun (VPush :: l ++ [VPop]) v = Ok v' /\
    vEst v' = vEst v /\ st_stack v' = st_stack v /\ vX v' = vX w.
Proof. exact taken_back. Qed.
Print Assumptions C97_back_partial.
(** Deciding to stay changes nothing. *)
Theorem C97_stay : forall l v, balanced l ->
  exists w, vrun l v = Ok w /\ vrun (VPush :: l ++ [VDiscard]) v = Ok w.
Proof. exact kept. Qed.
Print Assumptions C97_stay.
(** C97 is false for the value: an update that was taken back is still in the next
    one, so that the estimate becomes [u + d] instead of [d]. *)
Theorem C97_back_refuted : forall u d, 0 < u -> 0 < d -> u + d <= 1 -> exists v v',
  vrun [VPush; VOp (SwOplus (Some u)); VPop] newStacked = Ok v /\ vEst v = Some 0 /\ vX v = Some u /\
  vrun [VOp (SwOplus (Some d))] v = Ok v' /\ vEst v' = Some (u + d).
Proof. exact back_remembers. Qed.
Print Assumptions C97_back_refuted.
Example C97_case : balanced [VOp (SwOplus (Some 1)); VPush; VOp SwOrigin; VPop; VOp (SwOplus (Some (1 / 2)))] /\
  0 < 1 / 2 /\ 0 < 1 / 4 /\ 1 / 2 + 1 / 4 <= 1.
Proof.
  split; [|lra]. apply b_op. apply (b_pop [VOp SwOrigin] [VOp (SwOplus (Some (1 / 2)))]); repeat constructor.
Qed.
