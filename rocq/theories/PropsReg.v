(** C61 (score part), C63-C68, C85-C87: the NDT registrations. *)
From Coq Require Import Reals ZArith List Bool Lra Lia Psatz.
From Verif Require Import Base LinAlg3 Deriv MatDeriv GeoModel GeoSpec GeoProofs OptModel RegModel RegSpec
  RegStep RegNewton RegDeriv RegD2D RegPose RegFit RegP2D RegSmall RegMisc RegCases.
Import ListNotations.
Open Scope R_scope.

(** C61, D2D part: score, gradient and Hessian do not depend on the number of
    threads or on which thread works on which cell in which order, and no thread
    writes outside its storage. *)
Theorem C61_d2d_score_schedule : forall nearest p source pose h threads sched,
  schedule threads (length source) sched ->
  calcScoreSched nearest threads sched p source pose h = Ok (calcScore nearest p source pose h).
Proof. exact any_schedule. Qed.
Print Assumptions C61_d2d_score_schedule.
Example C61_d2d_case : schedule 2 3 [(1, 2); (0, 0); (1, 1)]%nat.
Proof.
  split.
  - cbn. apply (Permutation.perm_trans (l' := [0; 2; 1]%nat)); [apply Permutation.perm_swap|].
    apply Permutation.perm_skip. apply Permutation.perm_swap.
  - repeat constructor.
Qed.

(** C63: zero when the gradient is orthogonal to the direction, otherwise the
    Newton length moved into the interval, in the uphill direction. *)
Theorem C63_step_length : forall search x dir init smax smin score, 0 < smin ->
  (vdot (sd_grad score) dir = 0 ->
     computeStepLengthMT search x dir init smax smin score = (dir, Fin 0)) /\
  (vdot (sd_grad score) dir <> 0 ->
     exists dir' a, computeStepLengthMT search x dir init smax smin score = (dir', Fin a) /\
       clamped smin smax init a /\
       (dir' = dir \/ dir' = vscale (-1) dir) /\ 0 < vdot (sd_grad score) dir').
Proof. exact step_length_spec. Qed.
Print Assumptions C63_step_length.
Example C63_case : exists score dir, vdot (sd_grad score) dir < 0 /\
  snd (computeStepLengthMT (fun _ => score) vzero dir 3 1 (1 / 2) score) = Fin 1.
Proof.
  exists (mkSad mzero (mkV (-1) 0 0) 0), (mkV 1 0 0). split; [mcomp; cbn; mcomp; lra|].
  destruct (step_length (fun _ => mkSad mzero (mkV (-1) 0 0) 0) vzero (mkV 1 0 0) 3 1 (1 / 2)
              (mkSad mzero (mkV (-1) 0 0) 0) ltac:(lra)) as (_ & H).
  rewrite H by (cbn; mcomp; lra). cbn [snd]. f_equal.
  rewrite Rmin_right by lra. apply Rmax_left. lra.
Qed.

(** C64 *)
Theorem C64_fitting : forall ratio resolution, 0 < ratio < 1 -> 0 < resolution ->
  let p := calcParams ratio resolution in
  (forall d, 0 < fitted p d) /\
  (forall d, 0 <= d -> fitted p d <= fitted p 0) /\
  (forall d e, d < e -> fitted p e < fitted p d).
Proof. exact fit_score. Qed.
Print Assumptions C64_fitting.
Theorem C64_signs : forall ratio resolution, 0 < ratio < 1 -> 0 < resolution ->
  let p := calcParams ratio resolution in
  g_d1 p < 0 /\ 0 < g_d2 p < 1 /\ g_half p = g_d2 p / 2.
Proof. exact fit. Qed.
Print Assumptions C64_signs.
Example C64_case : 0 < 55 / 100 < 1 /\ 0 < 4.
Proof. lra. Qed.

(** C65: the value is the sum of the scores of the matched cells, gradient and
    Hessian are its first and second partial derivatives with respect to a
    further motion (x, y, angle) of the source. *)
Theorem C65_derivatives : forall nearest p source pose,
  let ms := matches nearest source pose in
  let sc := calcScore nearest p source pose true in
  Forall sym_pair ms ->
  sd_val sc = total_score p (usable ms) vzero /\
  is_gradient (total_score p (usable ms)) (sd_grad sc) vzero /\
  is_hessian (total_score p (usable ms)) (sd_hess sc) vzero.
Proof. exact d2d_derivs_all. Qed.
Print Assumptions C65_derivatives.
Theorem C65_without_hessian : forall nearest p source pose,
  let sc := calcScore nearest p source pose true in
  calcScore nearest p source pose false = mkSad mzero (sd_grad sc) (sd_val sc).
Proof. exact d2d_nohess. Qed.
Print Assumptions C65_without_hessian.
(** With respect to the pose vector, to which the Newton step is added, only the
    two translation components are the partial derivatives. *)
Theorem C65_pose_vector : forall nearest p source pose,
  Forall (fun m => regular_pair (fst m) (snd m)) (matches nearest source pose) ->
  let g := sd_grad (calcScore nearest p source pose true) in
  is_gradient (total_score p (matched nearest source pose))
    (mkV (vx g) (vy g) (vz g + vy pose * vx g - vx pose * vy g)) pose.
Proof. exact d2d_pose. Qed.
Print Assumptions C65_pose_vector.
Theorem C65_pose_vector_refuted : exists nearest p source pose,
  Forall (fun m => regular_pair (fst m) (snd m)) (matches nearest source pose) /\
  ~ is_gradient (total_score p (matched nearest source pose))
      (sd_grad (calcScore nearest p source pose true)) pose.
Proof. exists onlyD, dparams, oneS, oneQ. exact d2d_angle_wrong. Qed.
Print Assumptions C65_pose_vector_refuted.
Example C65_case : Forall (fun m => regular_pair (fst m) (snd m)) (matches onlyD oneS oneQ) /\
  usable (matches onlyD oneS oneQ) = [(cellAt 1 0, cellAt 0 1)].
Proof.
  split; [exact one_regular|]. unfold onlyD. rewrite only_matches. unfold oneS. cbn [map].
  rewrite one_moved. unfold usable. cbn [filter fst snd cellAt gc_cov].
  destruct (half_regular vzero vzero) as (_ & _ & H). cbn [gc_cov] in H.
  destruct (Rlt_dec _ _); [reflexivity|contradiction].
Qed.

(** C66: value and gradient are right for angles that are not replaced by zero;
    the Hessian is right up to the second derivative of the turned point, which
    the code adds to every entry except the one it belongs to. *)
Theorem C66_derivatives_partial : forall near ratio res source pose, 0 < ratio < 1 -> 0 < res ->
  let p := calcParams ratio res in
  let ms := pmatches near source pose in
  let sc := calcScoreP near source pose p in
  Forall (fun m => proper (snd m)) ms -> exact_angle (vz pose) ->
  sd_val sc = total_points p ms pose /\
  is_gradient (total_points p ms) (sd_grad sc) pose /\
  is_hessian (total_points p ms)
    (msub (sd_hess sc) (mscale (Rsum (map (fun m => bend p (snd m) (fst m) pose) ms)) all_but_angle)) pose.
Proof. exact p2d_derivs. Qed.
Print Assumptions C66_derivatives_partial.
(** At every pose, also with an angle that is replaced by zero: the value is right, so are
    the slopes in x and y, and the slope in the angle is off by at most a ten-thousandth of
    the levers of the points. *)
Theorem C66_any_angle : forall near ratio res source pose, 0 < ratio < 1 -> 0 < res ->
  let p := calcParams ratio res in
  let ms := pmatches near source pose in
  let sc := calcScoreP near source pose p in
  Forall (fun m => proper (snd m)) ms ->
  sd_val sc = total_points p ms pose /\
  exists s, is_gradient (total_points p ms) (mkV (vx (sd_grad sc)) (vy (sd_grad sc)) (vz (sd_grad sc) + s)) pose /\
    Rabs s <= / 10000 * Rsum (map (fun m => lever p (snd m) (fst m) pose) ms).
Proof. exact p2d_any_angle. Qed.
Print Assumptions C66_any_angle.
Theorem C66_gradient_refuted : exists near source pose,
  let ms := pmatches near source pose in
  Forall (fun m => proper (snd m)) ms /\
  ~ is_gradient (total_points pparams ms) (sd_grad (calcScoreP near source pose pparams)) pose.
Proof. exists (only (idcell (-1) 0)), [(1, 0)], tinyQ. exact p2d_small_angle_wrong. Qed.
Print Assumptions C66_gradient_refuted.
Theorem C66_hessian_refuted : exists near source pose,
  let ms := pmatches near source pose in
  Forall (fun m => proper (snd m)) ms /\ exact_angle (vz pose) /\
  ~ is_hessian (total_points pparams ms) (sd_hess (calcScoreP near source pose pparams)) pose.
Proof. exists (only (idcell 0 0)), [(1, 0)], vzero. exact p2d_hessian_wrong. Qed.
Print Assumptions C66_hessian_refuted.
Example C66_case : exact_angle (1 / 2) /\ proper (idcell 3 4).
Proof. split; [right; rewrite Rabs_right; lra|apply id_proper]. Qed.

(** C67 for limits up to 0.6 (0.4 is the default, 0.6 what the scan matcher
    sets): an accepted transform has a verification score that reaches the limit,
    it is the one reported, and it is the result of the first or of the second
    registration; nothing acceptable means failure. *)
Theorem C67_accept_partial : forall d2d corr proof limit guess r, limit <= 6 / 10 ->
  robustAlign d2d corr proof limit guess = Ok r -> rb_conv r = true ->
  limit <= rb_quality r /\ rb_quality r = proof (rb_final r) /\
  (rb_final r = snd (d2d guess) \/
   (fst (corr guess) = true /\ fst (d2d (snd (corr guess))) = true /\
    rb_final r = snd (d2d (snd (corr guess))))).
Proof. exact robust_accept. Qed.
Print Assumptions C67_accept_partial.
Theorem C67_reject_partial : forall d2d corr proof limit guess, limit <= 6 / 10 ->
  proof (snd (d2d guess)) < limit ->
  (fst (corr guess) = true -> fst (d2d (snd (corr guess))) = true ->
   proof (snd (d2d (snd (corr guess)))) < limit) ->
  exists r, robustAlign d2d corr proof limit guess = Ok r /\ rb_conv r = false.
Proof. exact robust_reject. Qed.
Print Assumptions C67_reject_partial.
Theorem C67_defined_partial : forall d2d corr proof limit guess, limit <= 7 / 10 ->
  exists r, robustAlign d2d corr proof limit guess = Ok r.
Proof. exact robust_defined. Qed.
Print Assumptions C67_defined_partial.
Theorem C67_first : forall d2d corr proof limit guess, limit <= 7 / 10 ->
  fst (d2d guess) = true -> 7 / 10 < proof (snd (d2d guess)) ->
  robustAlign d2d corr proof limit guess = Ok (mkRob true (snd (d2d guess)) (proof (snd (d2d guess)))).
Proof. exact robust_first. Qed.
Print Assumptions C67_first.
Theorem C67_second : forall d2d corr proof limit guess,
  ~ (fst (d2d guess) = true /\ 7 / 10 < proof (snd (d2d guess))) ->
  fst (corr guess) = true -> fst (d2d (snd (corr guess))) = true ->
  limit <= proof (snd (d2d (snd (corr guess)))) ->
  robustAlign d2d corr proof limit guess =
  Ok (mkRob true (snd (d2d (snd (corr guess)))) (proof (snd (d2d (snd (corr guess)))))).
Proof. exact robust_second. Qed.
Print Assumptions C67_second.
Theorem C67_limit_setter : forall l, (0 < l < 1 -> setRejectionLimit l = Ok l) /\
  (~ 0 < l < 1 -> setRejectionLimit l = Throw).
Proof. exact limit_setter. Qed.
Print Assumptions C67_limit_setter.
(** Larger limits can be set, and then a transform below the limit is accepted or
    an uninitialised one is used; and a transform is accepted whose registration
    reported failure. *)
Theorem C67_limit_refuted : forall guess,
  setRejectionLimit (8 / 10) = Ok (8 / 10) /\
  robustAlign (fun _ => (true, tA)) (fun _ => (true, tA)) (fun _ => 75 / 100) (8 / 10) guess = UB /\
  robustAlign (fun _ => (true, tA)) (fun _ => (true, tA)) (fun _ => 62 / 100) (65 / 100) guess =
    Ok (mkRob true tA (62 / 100)).
Proof.
  intro guess. split; [apply (robust_undefined guess)|]. split; [apply (robust_undefined guess)|].
  apply robust_below_limit.
Qed.
Print Assumptions C67_limit_refuted.
Theorem C67_unconverged_refuted :
  robustAlign failsFirst (fun _ => (true, tB)) (proofAB (65 / 100) (3 / 10)) (4 / 10) tA =
  Ok (mkRob true tA (65 / 100)) /\ fst (failsFirst tA) = false.
Proof. exact robust_unconverged. Qed.
Print Assumptions C67_unconverged_refuted.

(** C68 *)
Theorem C68_pyramid_partial : forall ratio ops,
  Forall (fun o => match o with SetLayers m => (1 <= m)%nat | _ => True end) ops ->
  exists c, (do c <- newReg ratio; foldM cfgstep ops c) = Ok c /\
    cf_layers c = asked_layers ops /\
    pyramid (asked_layers ops) (asked_cell ops) (cf_sizes c) /\
    getCellSize c = Ok (asked_cell ops) /\
    cf_params c = map (fun s => calcParams (asked_ratio ratio ops) (1 / s)) (cf_sizes c).
Proof. exact settings. Qed.
Print Assumptions C68_pyramid_partial.
Theorem C68_zero_layers_refuted : forall r,
  (do c <- newReg r; foldM cfgstep [SetLayers 0; AskCell] c) = UB /\
  (do c <- newReg r; foldM cfgstep [SetLayers 0; SetLayers 4] c) = UB.
Proof. exact zero_layers. Qed.
Print Assumptions C68_zero_layers_refuted.
Example C68_case : asked_layers [SetLayers 2; SetCell 1] = 2%nat /\ pyramid 2 1 [2; 1].
Proof.
  split; [reflexivity|]. split; [reflexivity|].
  intros [|[|i]] H; cbn; [f_equal; ring|f_equal; ring|lia].
Qed.

(** C85: every run ends, within the given number of rounds per layer; the result
    is a planar motion no further from the guess than the steps allow; a run
    fails only where the linear equations give no direction. *)
Theorem C85_d2d_run : forall solve eps step max_iter fuel ls g s, 0 < eps ->
  (d2d_rounds max_iter <= fuel)%nat ->
  exists r, d2dAlign solve eps step max_iter fuel true ls (vecToMat g) s = Some (Some r) /\
    run_result solve eps step (d2d_rounds max_iter) ls g r.
Proof. intros. apply d2d_align; assumption. Qed.
Print Assumptions C85_d2d_run.
Theorem C85_p2d_run : forall solve eps step max_iter fuel ls g s, 0 < eps ->
  (p2d_rounds max_iter <= fuel)%nat ->
  exists r, p2dAlign solve eps step max_iter fuel true ls (vecToMat g) s = Some (Some r) /\
    run_result solve eps step (p2d_rounds max_iter) ls g r.
Proof. intros. apply p2d_align; assumption. Qed.
Print Assumptions C85_p2d_run.
Example C85_case : (d2d_rounds 15 = 15 /\ d2d_rounds 0 = 1 /\ p2d_rounds 15 = 17)%nat.
Proof. repeat split. Qed.

(** C86: what is reported as covariance after a successful run is the Hessian of
    the score ([C85_d2d_run]), which has a negative variance here, for every
    solver of linear equations. *)
Theorem C86_covariance_refuted : forall solve eps step s, solves solve -> 0 < eps ->
  exists r, d2dAlign solve eps step 1 1 true [covLayer] t2id s = Some (Some r) /\
    rs_conv r = true /\ m11 (rs_cov r) < 0.
Proof. exact covariance_wrong. Qed.
Print Assumptions C86_covariance_refuted.
Definition cramer (h : M3) (b : V3) : option V3 := Some (mvmul (minv h) b).
Example C86_case : solves cramer /\ solves_zero cramer.
Proof.
  split.
  - intros h b N. eexists. split; [reflexivity|]. rewrite <- mvmul_mmul, minv_r by exact N. apply mvmul_1.
  - intro h. unfold cramer. f_equal. apply V3_eq; mcomp; ring.
Qed.

(** C87 is false: a grid with one cell registered against itself from the right
    guess fails. *)
Theorem C87_self_refuted : forall solve eps step max_iter fuel s, solves_zero solve ->
  d2dAlign solve eps step max_iter (S fuel) true [selfLayer] t2id s =
    Some (Some (mkRS false t2id 0 mid mid)).
Proof. exact self_fails. Qed.
Print Assumptions C87_self_refuted.
