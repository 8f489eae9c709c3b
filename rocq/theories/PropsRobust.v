(** C133, C134: mixtures and switchable constraints as loop closures. *)
From Coq Require Import Reals ZArith List Bool Arith Lia Lra.
From Verif Require Import Base LinAlg3 GeoModel GeoSpec GraphModel GraphSpec LoopModel
  SlamModel SlamSpec SlamProofs OptModel OptSpec OptProofs RobustModel RobustSpec RobustProofs RobustRun RobustCost.
Import ListNotations.
Open Scope R_scope.

Section Props.
Context {Obj Guess D : Type}.
Notation senv := (senv pose Obj M3 Guess D).
Notation rop := (rop Obj D).
Implicit Types (env : senv) (l : list rop).

(** C133: robust constraints are invisible to the caller.  A history with them
    answers every call exactly as the history without them, and leaves an object
    no caller can tell apart. *)
Theorem C133_invisible : forall env one l r log, rrun env one l = Ok (r, log) ->
  exists s, srun env (erase l) = Ok (s, log) /\ alike (r_slam r) s.
Proof.
  intros env one l r log H. exists (relabel (r_slam r)). split; [exact (ri_run _ _ _ _ _ (rrun_ok _ _ _ _ _ H))|].
  unfold alike, relabel. cbn [s_graph s_last s_prev s_first s_first_added s_verts s_gedges s_map].
  rewrite !map_imap. cbn [reV reE v_est v_fixed ge_from ge_to ge_meas ge_info]. rewrite !imap_map. auto 10.
Qed.

(** ... and for well-posed requests it fails only where the history without them
    fails. *)
Theorem C133_defined : forall env one l, wellposed 0 l ->
  (exists r log, rrun env one l = Ok (r, log)) <-> (exists s log, srun env (erase l) = Ok (s, log)).
Proof.
  intros env one l W. pose proof (rrun_total env one l W) as T. split.
  - intros (r & log & H). rewrite H in T. destruct (srun env (erase l)) as [[s lg]| |]; try discriminate T. eauto.
  - intros (s & log & H). rewrite H in T. destruct (rrun env one l) as [[r lg]| |]; try discriminate T. eauto.
Qed.

(** Vertices are numbered in the order in which poses and switches arrive, so no
    two have the same id; no two constraints have the same id either. *)
Theorem C133_ids : forall env one l r log, rrun env one l = Ok (r, log) ->
  map v_id (s_verts (r_slam r)) = places true 0 (arrivals l) /\
  map fst (r_sw r) = places false 0 (arrivals l) /\
  NoDup (vertex_ids r) /\ NoDup (edge_ids r).
Proof.
  intros env one l r log H. pose proof (rrun_ok _ _ _ _ _ H) as I.
  split; [exact (ri_pid _ _ _ _ _ I)|]. split; [exact (ri_sid _ _ _ _ _ I)|]. split; [|exact (ri_nd _ _ _ _ _ I)].
  unfold vertex_ids. rewrite (ri_pid _ _ _ _ _ I), (ri_sid _ _ _ _ _ I).
  rewrite <- (app_nil_r (places false _ _)). apply nodup_mid.
  - rewrite app_nil_r. apply places_nodup.
  - apply places_nodup.
  - intros x A B. rewrite app_nil_r in B. apply places_in in A, B. destruct A as [_ A], B as [_ B]. congruence.
Qed.

(** Each switchable constraint asked for is there, in order, with its motion, its
    information and its two poses, and hangs on its own switch, which its own
    prior pulls to 1; the switch stands between 0 and 1. *)
Theorem C133_switches : forall env one l r log, rrun env one l = Ok (r, log) ->
  let n := length (switch_requests 0 l) in
  length (r_sw r) = n /\ length (r_prior r) = n /\ length (r_swedges r) = n /\
  (forall k f g tr i, nth_error (switch_requests 0 l) k = Some (f, g, tr, i) ->
     exists e, nth_error (r_swedges r) k = Some e /\ sg_from e = f /\ sg_to e = g /\ sg_sw e = k /\
       sg_meas e = se2 env tr /\ sg_info e = i) /\
  (forall k p, nth_error (r_prior r) k = Some p -> pr_v p = k /\ pr_meas p = 1 /\ pr_info p = one) /\
  (forall k id w, nth_error (r_sw r) k = Some (id, w) -> in01 (sw_est w)).
Proof.
  intros env one l r log H n. pose proof (rrun_ok _ _ _ _ _ H) as I.
  pose proof (ri_pr _ _ _ _ _ I) as P. pose proof (ri_se _ _ _ _ _ I) as S.
  split; [exact (ri_sl _ _ _ _ _ I)|]. split; [|split; [|split; [|split]]].
  - apply (f_equal (@length _)) in P. rewrite !map_length, seq_length in P. rewrite P. exact (ri_sl _ _ _ _ _ I).
  - apply (f_equal (@length _)) in S. rewrite map_length, imap_length in S. exact S.
  - intros k f g tr i K. apply (f_equal (fun x => nth_error x k)) in S.
    rewrite nth_error_map, nth_error_imap, K in S. cbn [option_map swform Nat.add] in S.
    destruct (nth_error (r_swedges r) k) as [e|]; [|discriminate S]. cbn [option_map] in S.
    injection S as E1 E2 E3 E4 E5. exists e. auto 10.
  - intros k p K. apply (f_equal (fun x => nth_error x k)) in P.
    rewrite nth_error_map, K in P. cbn [option_map] in P. rewrite nth_error_map in P.
    destruct (nth_error (seq 0 (length (r_sw r))) k) as [j|] eqn:J; [|discriminate P].
    assert (j = k) as ->.
    { assert (L : (k < length (r_sw r))%nat) by (rewrite <- (seq_length (length (r_sw r)) 0); apply nth_error_Some; congruence).
      apply (nth_error_nth _ _ 0%nat) in J. rewrite seq_nth in J by exact L. cbn in J. congruence. }
    injection P as E1 E2 E3. auto.
  - intros k id w K. pose proof (proj1 (Forall_forall _ _) (ri_sw _ _ _ _ _ I) _ (nth_error_In _ _ K)) as [A B].
    cbn [snd] in *. rewrite <- A. exact B.
Qed.

(** A new switch stands at 1, and the others where they stood. *)
Theorem C133_starts : forall env one l f g tr i r log, rrun env one l = Ok (r, log) ->
  exists r', rrun env one (l ++ [RSwitch f g tr i]) = Ok (r', log) /\
    exists id w, r_sw r' = (r_sw r ++ [(id, w)])%list /\ sw_est w = Some 1.
Proof.
  intros env one l f g tr i r log H. rewrite rrun_snoc, H. cbn [bind]. unfold rstep_log. cbn [fst snd rstep app].
  eexists. split; [reflexivity|]. eexists _, _. split; [reflexivity|]. reflexivity.
Qed.

(** Without switches the vertex of a pose has the number of the pose, and
    successive poses have successive numbers, by which g2o recognises odometry;
    with switches that is false. *)
Theorem C133_consecutive_refuted : forall env one p o tr i, exists r log,
  rrun env one [RAddPose p o; RAddPose p o; RSwitch 0 1 tr i; RAddPose p o] = Ok (r, log) /\
  map v_id (s_verts (r_slam r)) = [0; 1; 3]%nat.
Proof.
  intros env one p o tr i.
  assert (W : wellposed (Obj := Obj) (D := D) 0 [RAddPose p o; RAddPose p o; RSwitch 0 1 tr i; RAddPose p o])
    by exact Logic.I.
  destruct (proj2 (C133_defined env one _ W)) as (r & log & E).
  - cbn [erase]. apply (srun_pose env [_; _]), (srun_pose env [_]), (srun_pose env []). eexists _, _. reflexivity.
  - exists r, log. split; [exact E|]. apply (C133_ids env one _ r log E).
Qed.

(** A mixture between poses that do not exist is undefined behaviour, where an
    ordinary constraint throws. *)
Theorem C133_unknown_refuted : forall env one f g tr i a,
  rrun env one [RMixture f g tr i] = UB /\ rrun env one [RAddConstr a f g tr i] = Ok (robust_init, [SvThrow]).
Proof. intros env one f g tr i a. split; [reflexivity|]. unfold rrun. cbn. destruct f; reflexivity. Qed.

(** C134: at every point of every history each mixture asked for is the
    constraint as asked for, or the null hypothesis, by one test on the squared
    error between the optimiser's estimates of its two poses. *)
Theorem C134_mixture : forall env one l r log, rrun env one l = Ok (r, log) -> wellposed 0 l ->
  length (r_mix r) = length (mixture_requests l) /\
  forall k f g tr i, nth_error (mixture_requests l) k = Some (f, g, tr, i) ->
  exists id m vf vg, nth_error (r_mix r) k = Some (id, m) /\
    nth_error (s_verts (r_slam r)) f = Some vf /\ nth_error (s_verts (r_slam r)) g = Some vg /\
    let z := se2 env tr in let p := v_est vf in let q := v_est vg in
    let excess := chi i z p q - chi information_invalid z p q in
    se_v0 (mx_self m) = f /\ se_v1 (mx_self m) = g /\ se_meas (mx_self m) = z /\
    se_err (mx_self m) = calcError p q z /\
    (excess < limit i -> mx_best m = Some 0%Z /\ se_info (mx_self m) = i) /\
    (limit i < excess -> mx_best m = Some 1%Z /\ se_info (mx_self m) = information_invalid).
Proof.
  intros env one l r log H W. pose proof (rrun_ok _ _ _ _ _ H) as I. pose proof (ri_mix _ _ _ _ _ I W) as F.
  split; [symmetry; exact (Forall2_length _ _ _ F)|]. clear I H W. revert F. generalize (mixture_requests l) (r_mix r).
  intros qs ms F. induction F as [|q [id m] qs ms S F IH]; intros k f g tr i K.
  - destruct k; discriminate K.
  - destruct k as [|k]; [|exact (IH k f g tr i K)]. injection K as ->. pose proof S as [[(Lf & Lg & _) _] _].
    destruct (nth_len _ _ Lf) as [vf Nf]. destruct (nth_len _ _ Lg) as [vg Ng].
    destruct (settled_split env (r_slam r) f g tr i id m S) as (A1 & A2 & A3 & A4 & A5).
    unfold estOf in A4, A5. rewrite Nf, Ng in A4, A5.
    exists id, m, vf, vg. split; [reflexivity|]. split; [exact Nf|]. split; [exact Ng|]. cbv zeta.
    split; [exact A1|]. split; [exact A2|]. split; [exact A3|]. split; [exact A4|].
    split; intro X; destruct A5 as [(B1 & B2 & B3)|(B1 & B2 & B3)]; auto; exfalso; lra.
Qed.

End Props.

(** The cost of a switchable constraint is smallest at one position of the switch
    strictly above 0 and at most 1, and is there below the information of the
    prior, however far the poses are from the measurement. *)
Theorem C134_switch_cost : forall one i z p q, 0 < one -> 0 <= chi i z p q ->
  let s := one / (one + chi i z p q) in
  0 < s <= 1 /\ switch_cost one i z p q s = one * chi i z p q / (one + chi i z p q) /\
  switch_cost one i z p q s < one /\
  forall t, switch_cost one i z p q s <= switch_cost one i z p q t.
Proof.
  intros one i z p q H1 H2 s. destruct (best_switch one _ H1 H2) as (A & B & C & E). fold s in A, B, E.
  rewrite !switch_cost_eq. split; [exact A|]. split; [exact B|]. split; [rewrite B; exact C|].
  intro t. rewrite switch_cost_eq. apply E.
Qed.

Section Cases.
Context {Obj Guess D : Type}.
Notation senv := (senv pose Obj M3 Guess D).
Notation rop := (rop Obj D).

(** A drive of two poses with one constraint of each kind, then an optimisation. *)
Definition robust_drive (p q : pose) (o : Obj) (it : iteration) : list rop :=
  [RAddPose p o; RAddPose q o; RSwitch 0 1 q mid; RMixture 1 0 p mid; ROptimize [it] it].
Example C133_case : forall (env : senv) p q o it,
  wellposed 0 (robust_drive p q o it) /\ (exists r log, rrun env 1 (robust_drive p q o it) = Ok (r, log)) /\
  length (switch_requests 0 (robust_drive p q o it)) = 1%nat /\
  length (mixture_requests (robust_drive p q o it)) = 1%nat.
Proof.
  intros env p q o it.
  assert (W : wellposed 0 (robust_drive p q o it)).
  { cbn. split; [lia|]. split; [lia|]. split; [|exact I]. unfold mdet, mid. cbn. lra. }
  split; [exact W|]. split; [|split; reflexivity].
  apply (C133_defined env 1 _ W). cbn [robust_drive erase].
  apply (srun_opt env [_; _]), (srun_pose env [_]), (srun_pose env []). eexists _, _. reflexivity.
Qed.
End Cases.

(** With the information the code gives its loop closures, diag(500, 500, 5000),
    the mixture puts up with a squared error of ln (5 * 10^42). *)
Example C134_case : limit (mdiag 500 500 5000) = ln (5 * 10 ^ 42).
Proof.
  unfold limit. rewrite mdet_diag. replace (2 * ln 10000) with (ln (10000 * 10000)) by (rewrite ln_mult by lra; ring).
  pose proof det_null as N. rewrite <- ln_mult.
  - f_equal. unfold mdet, information_invalid. cbn [m11 m12 m13 m21 m22 m23 m31 m32 m33]. field.
  - apply Rdiv_lt_0_compat; [lra|exact N].
  - lra.
Qed.

Print Assumptions C133_invisible.
Print Assumptions C133_defined.
Print Assumptions C133_ids.
Print Assumptions C133_switches.
Print Assumptions C133_starts.
Print Assumptions C133_consecutive_refuted.
Print Assumptions C133_unknown_refuted.
Print Assumptions C134_mixture.
Print Assumptions C134_switch_cost.
