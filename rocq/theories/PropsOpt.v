(** C69, C70, C83, C84: mixture edges and switchable constraints. *)
From Coq Require Import Reals ZArith List Lra.
From Verif Require Import Base LinAlg3 GeoModel GeoSpec GeoProofs OptModel OptSpec OptProofs.
Import ListNotations.
Open Scope R_scope.

(** C69, for proper component lists: after any sequence of evaluations the edge
    shows a component whose negative log likelihood at the last estimate is the
    smallest, with that component's measurement, information, vertices and error. *)
Theorem C69_mixture_partial : forall self es ws est0 ests, proper es ws ->
  exists m i e w, mixrun self es ws est0 ests = Ok m /\
    nth_error es i = Some e /\ nth_error ws i = Some w /\ shows m i e /\
    se_err (mx_self m) = residual (last ests est0) e /\
    forall j f v, nth_error es j = Some f -> nth_error ws j = Some v ->
      nll (last ests est0) e w <= nll (last ests est0) f v.
Proof. exact mixture_best. Qed.
Print Assumptions C69_mixture_partial.

Example C69_case : proper [wide; tight] [1; 1] /\ nll zeros tight 1 < nll zeros wide 1.
Proof.
  split; [exact (proj1 proper_pair)|]. rewrite nll_wide, nll_tight. pose proof ln_neg. lra.
Qed.

(** C69 is false without components, and when no weight is positive: the code then
    reads component number -1. *)
Theorem C69_mixture_refuted :
  (forall self est0, initComponents est0 (newMixture self) [] [] = UB) /\
  (forall self est0 es ws, length es = length ws -> Forall (fun w => w <= 0) ws ->
     initComponents est0 (newMixture self) es ws = UB).
Proof. exact (conj mixture_empty mixture_zero_weights). Qed.
Print Assumptions C69_mixture_refuted.

(** edge_se2_mixture.cpp:124-127, getBestComponent: reading a number that was never set is
    undefined *)
Definition getBestComponent (m : mixture) : res Z := match mx_best m with Some z => Ok z | None => UB end.
(** Once errors were computed it names the component the edge shows, the most likely one ... *)
Theorem C69_best_component_partial : forall self es ws est0 ests m, proper es ws -> mixrun self es ws est0 ests = Ok m ->
  exists i e w, getBestComponent m = Ok (Z.of_nat i) /\ nth_error es i = Some e /\ nth_error ws i = Some w /\ shows m i e /\
    forall j f v, nth_error es j = Some f -> nth_error ws j = Some v ->
      nll (last ests est0) e w <= nll (last ests est0) f v.
Proof.
  intros self es ws est0 ests m P R. destruct (mixture_best self es ws est0 ests P) as (m' & i & e & w & R' & E & W & S & _ & B).
  rewrite R in R'. injection R' as <-. exists i, e, w. split; [|auto]. unfold getBestComponent. destruct S as (-> & _). reflexivity.
Qed.
Print Assumptions C69_best_component_partial.
(** ... but a new edge has no answer: its constructor sets a variable of its own instead. *)
Theorem C69_best_component_refuted : forall self, getBestComponent (newMixture self) = UB.
Proof. reflexivity. Qed.
Print Assumptions C69_best_component_refuted.

(** C70: the estimate of a switch vertex stays a number in [0,1] and equals its
    value, whatever the optimiser adds and however often it resets. *)
Theorem C70_switch_range_partial : forall ops, (forall o, In o ops -> optimiser_op o) ->
  in01 (sw_est (swrun ops)) /\ sw_x (swrun ops) = sw_est (swrun ops).
Proof. exact switch_range. Qed.
Print Assumptions C70_switch_range_partial.

(** Values set from outside are taken as they are, but the next update brings
    them into the range; the value and the estimate agree after every history. *)
Theorem C70_switch_set : forall ops v u,
  sw_est (swrun (ops ++ [SwSet (Some v)])) = Some v /\
  in01 (sw_est (swrun (ops ++ [SwSet (Some v); SwOplus (Some u)]))) /\
  sw_x (swrun ops) = sw_est (swrun ops).
Proof. intros ops v u. exact (conj (switch_set ops v) (conj (switch_recovers ops v u) (switch_same ops))). Qed.
Print Assumptions C70_switch_set.

(** The range is lost for good once an update is not a number. *)
Theorem C70_switch_nan_refuted : forall ops us,
  sw_est (swrun (ops ++ SwOplus None :: map SwOplus us)) = None.
Proof. exact switch_nan. Qed.
Print Assumptions C70_switch_nan_refuted.

Example C70_case :
  sw_est (swrun [SwOplus (Some (1 / 2)); SwOplus (Some (1 / 4))]) = Some (3 / 4) /\
  sw_est (swrun [SwOplus (Some 7); SwOplus (Some (- 1 / 4))]) = Some (3 / 4).
Proof.
  unfold swrun. cbn [fold_left newSwitch swstep sw_x]. split;
  repeat match goal with
  | |- context [sw_lt0 (Some ?x)] => unfold sw_lt0 at 1; destruct (Rlt_dec x 0); [lra|]
  | |- context [sw_gt1 (Some 7)] => idtac
  end.
  - unfold sw_lt0, sw_gt1, newSwitch; cbn.
    repeat (match goal with |- context [Rlt_dec ?x ?y] => destruct (Rlt_dec x y); [lra|] end; cbn).
    f_equal. lra.
  - unfold sw_lt0, sw_gt1, newSwitch; cbn.
    destruct (Rlt_dec (0 + 7) 0); [lra|]. cbn. destruct (Rlt_dec 1 (0 + 7)); [|lra]. cbn.
    destruct (Rlt_dec (1 + - 1 / 4) 0); [lra|]. cbn. destruct (Rlt_dec 1 (1 + - 1 / 4)); [lra|]. cbn.
    f_equal. lra.
Qed.

(** C83, the components handed over last are the ones that count: false.  After
    a second hand-over the determinants of the first one are still used, so a
    component that is not the most likely one is chosen. *)
Theorem C83_reinit_refuted : forall self, proper [wide; tight] [1; 1] /\ proper [tight; wide] [1; 1] /\
  exists m1 m2,
  initComponents zeros (newMixture self) [wide; tight] [1; 1] = Ok m1 /\
  initComponents zeros m1 [tight; wide] [1; 1] = Ok m2 /\
  mx_best m2 = Some 1%Z /\ nll zeros tight 1 < nll zeros wide 1.
Proof. intro self. exact (conj (proj1 proper_pair) (conj (proj2 proper_pair) (mixture_reinit self))). Qed.
Print Assumptions C83_reinit_refuted.

(** C84: the Jacobians of a switchable constraint are the partial derivatives of
    its error, except where the angle error sits on the half turn; switched off
    it has no error, switched on it has the error of the plain constraint. *)
Theorem C84_switch_jacobian_partial : forall vi vj z s, normalizeAngle (pth vj - pth vi - pth z) <> PI ->
  is_jacobian (fun x => switchError x vj z s) vi (fst (fst (switchJacobians vi vj z s))) /\
  is_jacobian (fun x => switchError vi x z s) vj (snd (fst (switchJacobians vi vj z s))) /\
  is_column (fun x => switchError vi vj z x) s (snd (switchJacobians vi vj z s)).
Proof. exact switch_jacobian. Qed.
Print Assumptions C84_switch_jacobian_partial.

Theorem C84_switch_off : forall vi vj z,
  switchError vi vj z 0 = mkP 0 0 0 /\ switchError vi vj z 1 = calcError vi vj z.
Proof. exact switch_off. Qed.
Print Assumptions C84_switch_off.

Theorem C84_prior_jacobian : forall meas x, derivable_pt_lim (priorError meas) x priorJacobian.
Proof. exact prior_jacobian. Qed.
Print Assumptions C84_prior_jacobian.

Example C84_case : normalizeAngle (pth (mkP 3 2 1) - pth (mkP 1 2 0) - pth (mkP 1 1 0)) <> PI.
Proof.
  cbn. replace (1 - 0 - 0) with 1 by ring. rewrite normalize_id; pose proof PI2_3_2; pose proof PI_RGT_0; unfold PI2 in *; lra.
Qed.
