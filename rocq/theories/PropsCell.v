(** NDT cell properties C16-C24.  Only statements, non-vacuity examples and
    [Print Assumptions]; the proofs live in CellProofs.v and CellCases.v.

    Every theorem is about any [eig] that keeps Eigen's contract for symmetric
    matrices ([eigen_solver], LinAlg3.v); one such function is shown to exist
    there.  [reach eig B c]: the cell c is the result of some sequence of public
    calls in which all beams satisfy B. *)
From Coq Require Import Reals Lra List ZArith Bool Lia.
From Verif Require Import Base LinAlg3 CellModel CellSpec CellProofs CellCases.
Import ListNotations.
Open Scope R_scope.

Example ex_solver : eigen_solver eig3.
Proof. exact eigen_solver_exists. Qed.
(** two reachable gaussian cells in different places *)
Example ex_cells : reach eig3 properBeam (many eig3 vzero 6) /\ reach eig3 properBeam (many eig3 (mkV 20 0 0) 6) /\
  c_gauss (many eig3 vzero 6) = true /\ c_gauss (many eig3 (mkV 20 0 0) 6) = true /\
  c_points (many eig3 vzero 6) = 6%Z /\ c_mean (many eig3 (mkV 20 0 0) 6) = mkV 20 0 0.
Proof.
  split; [apply reach_six|]. split; [apply reach_six|].
  rewrite !(many_six eig3 eigen_solver_exists). cbn. auto.
Qed.

(** ** C16 *)
(** Without beams of length zero the occupancy is a number in [-1,1]. *)
Theorem C16_occupancy_range_partial eig c : eigen_solver eig ->
  reach eig properBeam c -> exists x, c_occ c = Some x /\ -1 <= x <= 1.
Proof. exact (fun E => cell_occ_proper eig E c). Qed.
Print Assumptions C16_occupancy_range_partial.
(** With any beams it is that or not a number. *)
Theorem C16_occupancy_range_any eig c : eigen_solver eig ->
  reach eig anyBeam c -> c_occ c = None \/ exists x, c_occ c = Some x /\ -1 <= x <= 1.
Proof. exact (fun E => cell_occ_any eig E c). Qed.
Print Assumptions C16_occupancy_range_any.
(** What getOccupancy() reports for such a value. *)
Theorem C16_percentage x : -1 <= x <= 1 ->
  (-100 <= getOccupancy x <= 100)%Z /\ (0 <= x -> (0 <= getOccupancy x)%Z).
Proof. exact (getOccupancy_range x). Qed.
Print Assumptions C16_percentage.
(** The full claim fails twice: a beam that starts where it ends ... *)
Theorem C16_occupancy_nan_refuted eig : eigen_solver eig -> exists c s e j,
  reach eig anyBeam c /\ reach eig anyBeam (updateOccupancy c s e j 1) /\
  c_occ c = Some 1 /\ c_occ (updateOccupancy c s e j 1) = None.
Proof.
  exact (fun E => ex_intro _ (many eig vzero 6) (ex_intro _ (mkV 5 5 0) (ex_intro _ (mkV 5 5 0) (ex_intro _ vzero
    (conj (reach_six eig anyBeam vzero) (conj (reach_beam eig anyBeam _ _ _ _ 1 (reach_six eig anyBeam vzero) (Z.le_0_1) I)
      (conj (f_equal c_occ (many_six eig E vzero)) (nan_occupancy eig E vzero)))))))).
Qed.
Print Assumptions C16_occupancy_nan_refuted.
(** ... and percentages below -1. *)
Theorem C16_percentage_refuted eig : forall s e j, exists x,
  reach eig anyBeam (updateOccupancy cell_new s e j 1) /\
  c_occ (updateOccupancy cell_new s e j 1) = Some x /\ getOccupancy x = (-20)%Z.
Proof.
  exact (fun s e j => match negative_percentage s e j with
    ex_intro _ x H => ex_intro _ x (conj (reach_beam eig anyBeam _ _ _ _ 1 (reach_new eig anyBeam) Z.le_0_1 I) H) end).
Qed.
Print Assumptions C16_percentage_refuted.

(** ** C17 *)
(** The statistics of a union follow from those of the parts. *)
Theorem C17_pooling_is_exact A B : (2 <= length A)%nat -> (2 <= length B)%nat ->
  pool_mean (INR (length A)) (mean_of A) (INR (length B)) (mean_of B) = mean_of (A ++ B) /\
  pool_cov (INR (length A)) (mean_of A) (sample_cov A) (INR (length B)) (mean_of B) (sample_cov B) =
    sample_cov (A ++ B).
Proof. exact (pooling_exact A B). Qed.
Print Assumptions C17_pooling_is_exact.
(** Merging two gaussian cells pools them and conditions the covariance. *)
Theorem C17_merge_pools eig B a b : eigen_solver eig ->
  reach eig B a -> reach eig B b -> c_gauss a = true -> c_gauss b = true ->
  let c := merge eig a b in
  c_gauss c = true /\
  c_mean c = pool_mean (IZR (c_points a)) (c_mean a) (IZR (c_points b)) (c_mean b) /\
  conditioned (pool_cov (IZR (c_points a)) (c_mean a) (c_cov a) (IZR (c_points b)) (c_mean b) (c_cov b)) (c_cov c) /\
  c_points c = Z.min MAX_POINTS (c_points a + c_points b).
Proof. exact (fun E => cell_merge_pools eig E B a b). Qed.
Print Assumptions C17_merge_pools.
(** So a cell that carries mean and sample covariance of A, merged with one that
    carries those of L, carries those of the union (the covariance conditioned). *)
Theorem C17_merge_union eig B a b A L : eigen_solver eig ->
  reach eig B a -> reach eig B b -> c_gauss a = true -> c_gauss b = true ->
  c_points a = Z.of_nat (length A) -> c_mean a = mean_of A -> c_cov a = sample_cov A ->
  c_points b = Z.of_nat (length L) -> c_mean b = mean_of L -> c_cov b = sample_cov L ->
  (Z.of_nat (length (A ++ L)) <= MAX_POINTS)%Z ->
  let c := merge eig a b in
  c_points c = Z.of_nat (length (A ++ L)) /\ c_mean c = mean_of (A ++ L) /\
  conditioned (sample_cov (A ++ L)) (c_cov c).
Proof. exact (fun E => cell_merge_union eig E B a b A L). Qed.
Print Assumptions C17_merge_union.
Example C17_union_example : let a := many eig3 vzero 6 in exists A,
  reach eig3 properBeam a /\ c_gauss a = true /\ c_points a = Z.of_nat (length A) /\ c_mean a = mean_of A /\
  c_cov a = sample_cov A.
Proof.
  exists (star vzero (5 / 6 * sqrt (1/2))). split; [apply reach_six|].
  split; [rewrite (many_six eig3 eigen_solver_exists); reflexivity|exact (six_is_star eig3 eigen_solver_exists vzero)].
Qed.
(** The mean alone needs nothing about the covariances. *)
Theorem C17_merge_mean eig B a b A L : eigen_solver eig ->
  reach eig B a -> reach eig B b -> c_gauss a = true -> c_gauss b = true ->
  c_points a = Z.of_nat (length A) -> c_mean a = mean_of A ->
  c_points b = Z.of_nat (length L) -> c_mean b = mean_of L ->
  (Z.of_nat (length (A ++ L)) <= MAX_POINTS)%Z ->
  c_points (merge eig a b) = Z.of_nat (length (A ++ L)) /\ c_mean (merge eig a b) = mean_of (A ++ L).
Proof. exact (fun E => cell_merge_mean eig E B a b A L). Qed.
Print Assumptions C17_merge_mean.
Example C17_example : c_points (merge eig3 (many eig3 vzero 6) (many eig3 (mkV 20 0 0) 6)) = 12%Z /\
  c_mean (merge eig3 (many eig3 vzero 6) (many eig3 (mkV 20 0 0) 6)) = mkV 10 0 0.
Proof.
  change vzero with (mkV 0 0 0). rewrite (merge_six_x eig3 eigen_solver_exists). cbn [rescaleCovar c_points c_mean].
  split; [reflexivity|]. f_equal. lra.
Qed.
(** A cell without gaussian takes over the other one; a cell without gaussian
    brings nothing. *)
Theorem C17_merge_missing eig B a b : eigen_solver eig -> reach eig B a -> reach eig B b ->
  (c_gauss b = false -> merge eig a b = a) /\
  (c_gauss a = false -> c_gauss b = true -> merge eig a b = b).
Proof. exact (fun E => cell_merge_missing eig E B a b). Qed.
Print Assumptions C17_merge_missing.

(** In any case the merged mean is one of the two means or lies between them (the
    contract [blends] in SysSpec.v). *)
Theorem C17_merge_between eig B a b : eigen_solver eig -> reach eig B a -> reach eig B b ->
  c_gauss (merge eig a b) = true ->
  (c_gauss a = true /\ c_mean (merge eig a b) = c_mean a) \/
  (c_gauss b = true /\ c_mean (merge eig a b) = c_mean b) \/
  (c_gauss a = true /\ c_gauss b = true /\
   exists s, 0 <= s <= 1 /\ c_mean (merge eig a b) = vadd (vscale s (c_mean a)) (vscale (1 - s) (c_mean b))).
Proof. exact (fun E => cell_merge_between eig E B a b). Qed.
Print Assumptions C17_merge_between.

(** ** C18 *)
Theorem C18_merge_commutes eig B a b : eigen_solver eig ->
  reach eig B a -> reach eig B b -> c_gauss a = true -> c_gauss b = true ->
  c_mean (merge eig a b) = c_mean (merge eig b a) /\ c_cov (merge eig a b) = c_cov (merge eig b a) /\
  c_icov (merge eig a b) = c_icov (merge eig b a) /\ c_points (merge eig a b) = c_points (merge eig b a).
Proof. exact (fun E => cell_merge_comm eig E B a b). Qed.
Print Assumptions C18_merge_commutes.
(** Grouping: count and mean always, the covariance if no conditioning takes
    place in between. *)
Theorem C18_merge_groups_partial eig B a b c : eigen_solver eig ->
  reach eig B a -> reach eig B b -> reach eig B c ->
  c_gauss a = true -> c_gauss b = true -> c_gauss c = true ->
  (c_points a + c_points b + c_points c <= MAX_POINTS)%Z ->
  let l := merge eig (merge eig a b) c in
  let r := merge eig a (merge eig b c) in
  c_points l = c_points r /\ c_mean l = c_mean r /\
  (wellcond (pool_cov (IZR (c_points a)) (c_mean a) (c_cov a) (IZR (c_points b)) (c_mean b) (c_cov b)) ->
   wellcond (pool_cov (IZR (c_points b)) (c_mean b) (c_cov b) (IZR (c_points c)) (c_mean c) (c_cov c)) ->
   c_cov l = c_cov r /\ c_icov l = c_icov r).
Proof. exact (fun E => cell_merge_assoc eig E B a b c). Qed.
Print Assumptions C18_merge_groups_partial.
(** In general the covariance depends on the grouping. *)
Theorem C18_grouping_refuted eig : eigen_solver eig -> exists a b c,
  reach eig properBeam a /\ reach eig properBeam b /\ reach eig properBeam c /\
  (c_points a + c_points b + c_points c <= MAX_POINTS)%Z /\
  c_cov (merge eig (merge eig a b) c) <> c_cov (merge eig a (merge eig b c)).
Proof. exact (grouping_witness eig). Qed.
Print Assumptions C18_grouping_refuted.

(** ** C19 *)
Theorem C19_points_capped eig B c : eigen_solver eig -> reach eig B c -> (0 <= c_points c <= MAX_POINTS)%Z.
Proof. exact (fun E => cell_points_capped eig E B c). Qed.
Print Assumptions C19_points_capped.
Theorem C19_points_grow_partial eig B a b : eigen_solver eig ->
  reach eig B a -> reach eig B b -> c_gauss a = true ->
  c_points (merge eig a b) =
    if c_gauss b then Z.min MAX_POINTS (c_points a + c_points b) else c_points a.
Proof. exact (fun E => cell_points_merge eig E B a b). Qed.
Print Assumptions C19_points_grow_partial.
(** Missing: a cell that a beam has deprived of its gaussian keeps its counter,
    and a merge then replaces it by a smaller one. *)
Theorem C19_points_grow_refuted eig : eigen_solver eig -> exists a b,
  reach eig properBeam a /\ reach eig properBeam b /\
  c_points a = 7%Z /\ c_points (merge eig a b) = 6%Z.
Proof. exact (counter_falls eig). Qed.
Print Assumptions C19_points_grow_refuted.

(** ** C20 *)
(** The mean is that of the points; the covariance is that of the points with
    the identity added to the scatter, on the scale (n-1)/n^2, conditioned. *)
Theorem C20_fresh_gaussian_partial eig l : eigen_solver eig -> (6 <= length l)%nat ->
  let c := computeGaussian eig (addPoints cell_new l) in
  c_gauss c = true /\ c_mean c = mean_of l /\ c_points c = Z.of_nat (length l) /\ c_occ c = Some 1 /\
  c_pts c = [] /\
  conditioned (mscale ((INR (length l) - 1) / (INR (length l) * INR (length l))) (madd mid (scatter l))) (c_cov c).
Proof. exact (fun E => cell_fresh eig E l). Qed.
Print Assumptions C20_fresh_gaussian_partial.
(** More points for a cell that is a gaussian already are pooled with it. *)
Theorem C20_more_points eig B c : eigen_solver eig -> reach eig B c -> c_gauss c = true ->
  (6 <= length (c_pts c))%nat -> (Z.of_nat (length (c_pts c)) <= MAX_POINTS)%Z ->
  let k := INR (length (c_pts c)) in
  let own := mscale ((k - 1) / (k * k)) (madd mid (scatter (c_pts c))) in
  let c' := computeGaussian eig c in
  c_gauss c' = true /\ c_pts c' = [] /\
  c_points c' = Z.min MAX_POINTS (c_points c + Z.of_nat (length (c_pts c))) /\
  c_mean c' = pool_mean (IZR (c_points c)) (c_mean c) k (mean_of (c_pts c)) /\
  conditioned (pool_cov (IZR (c_points c)) (c_mean c) (c_cov c) k (mean_of (c_pts c)) own) (c_cov c').
Proof. exact (fun E => cell_more eig E B c). Qed.
Print Assumptions C20_more_points.
(** It is not the sample covariance, not even of well conditioned points. *)
Theorem C20_sample_covariance_refuted eig : eigen_solver eig -> exists l,
  (6 <= length l)%nat /\ wellcond (sample_cov l) /\ posdef (sample_cov l) /\
  c_cov (computeGaussian eig (addPoints cell_new l)) <> sample_cov l.
Proof. exact (scale_witness eig). Qed.
Print Assumptions C20_sample_covariance_refuted.

(** ** C21 *)
Theorem C21_few_points eig c : (length (c_pts c) < 6)%nat -> c_gauss (computeGaussian eig c) = false.
Proof. exact (cell_few eig c). Qed.
Print Assumptions C21_few_points.
(** Several rounds are like one as long as no round before the last reaches six
    points in total. *)
Theorem C21_rounds_partial eig ls : ls <> [] -> (6 <= length (concat ls))%nat ->
  (forall pre post, ls = pre ++ post -> post <> [] -> (length (concat pre) < 6)%nat) ->
  collect eig cell_new ls = computeGaussian eig (addPoints cell_new (concat ls)).
Proof. exact (cell_split eig ls). Qed.
Print Assumptions C21_rounds_partial.
Example C21_example : let ls := [[vzero; vzero]; [mkV 1 0 0; mkV 2 0 0; mkV 3 0 0]; [mkV 0 1 0]] in
  ls <> [] /\ (6 <= length (concat ls))%nat /\
  (forall pre post, ls = pre ++ post -> post <> [] -> (length (concat pre) < 6)%nat).
Proof.
  cbv zeta. split; [discriminate|]. split; [cbn; lia|]. intros pre post E N.
  destruct pre as [|a [|b [|c [|d pre]]]]; cbn in E; [cbn; lia|injection E as <- _; cbn; lia|
    injection E as <- <- _; cbn; lia|injection E as _ _ _ <-; congruence|discriminate].
Qed.
(** Beyond that the claim fails: three more points undo a gaussian. *)
Theorem C21_rounds_refuted eig p q : eigen_solver eig ->
  c_gauss (collect eig cell_new [repeat p 6; repeat q 3]) = false /\
  c_gauss (computeGaussian eig (addPoints cell_new (repeat p 6 ++ repeat q 3))) = true.
Proof. exact (fun E => three_more_lost eig E p q). Qed.
Print Assumptions C21_rounds_refuted.

(** ** C22 *)
Theorem C22_passing_beam_partial eig B c s e j n x : eigen_solver eig -> reach eig B c -> (0 <= n)%Z -> s <> e ->
  1/100 <= l1 (vsub (c_mean c) e) -> c_occ c = Some x ->
  let c' := updateOccupancy c s e j n in
  exists y, c_occ c' = Some y /\ y <= x /\ (c_gauss c' = true -> 0 < y) /\
    c_mean c' = c_mean c /\ c_cov c' = c_cov c /\ c_points c' = c_points c.
Proof. exact (fun E => cell_beam eig E B c s e j n x). Qed.
Print Assumptions C22_passing_beam_partial.
(** Missing: s = e, see C16_occupancy_nan_refuted.  A beam can end a gaussian: *)
Example C22_example : exists c s e k, reach eig3 properBeam c /\ s <> e /\ 1/100 <= l1 (vsub (c_mean c) e) /\
  (0 <= k)%Z /\ c_occ c = Some 1 /\ c_gauss c = true /\ c_gauss (updateOccupancy c s e vzero k) = false.
Proof. exact (beam_ends_gaussian eig3 eigen_solver_exists). Qed.
(** Whatever the beam, it moves no distribution and makes none (the contract of cells that
    the grid properties rely on, [occ_only] in GridSpec.v). *)
Theorem C22_beam_only c s e j n :
  c_mean (updateOccupancy c s e j n) = c_mean c /\
  (c_gauss (updateOccupancy c s e j n) = true -> c_gauss c = true).
Proof.
  unfold updateOccupancy. destruct (c_gauss c) eqn:G; cbn [negb].
  - split; [|reflexivity].
    destruct (at_end c e); [reflexivity|]. destruct (occ_le0 _); reflexivity.
  - destruct (occ_le0 _); cbn; split; try reflexivity; congruence.
Qed.
Print Assumptions C22_beam_only.
(** A beam that ends within a centimetre of the mean makes the cell certain. *)
Theorem C22_hit eig B c s e j n x : eigen_solver eig -> reach eig B c -> c_gauss c = true ->
  l1 (vsub (c_mean c) e) < 1/100 -> c_occ c = Some x ->
  let c' := updateOccupancy c s e j n in
  c_gauss c' = true /\ exists y, c_occ c' = Some y /\ x <= y /\ (0 <= x -> y = 1).
Proof. exact (fun E => cell_hit eig E B c s e j n x). Qed.
Print Assumptions C22_hit.

(** ** C23 *)
Theorem C23_conditioning eig B c : eigen_solver eig -> reach eig B c -> c_gauss c = true ->
  posdef (c_cov c) /\ wellcond (c_cov c) /\
  exists i, c_icov c = Some i /\ mmul i (c_cov c) = mid /\ mmul (c_cov c) i = mid.
Proof. exact (fun E => cell_conditioned eig E B c). Qed.
Print Assumptions C23_conditioning.
(** Rejection does not happen: rescaleCovar makes a gaussian with an infinite
    inverse out of the zero matrix (no public call gets there, by the theorem). *)
Theorem C23_rejection_refuted eig c : eigen_solver eig -> c_cov c = mzero ->
  c_gauss (rescaleCovar eig c) = true /\ c_icov (rescaleCovar eig c) = None.
Proof. exact (fun E => cell_zero_not_rejected eig E c). Qed.
Print Assumptions C23_rejection_refuted.

(** ** C24 *)
Theorem C24_transform eig B c t : eigen_solver eig -> reach eig B c -> rotation (t_rot t) ->
  (c_gauss c = false -> ctransform eig t c = c) /\
  (c_gauss c = true ->
    c_mean (ctransform eig t c) = tapply t (c_mean c) /\
    c_cov (ctransform eig t c) = mmul (mmul (t_rot t) (c_cov c)) (mtr (t_rot t)) /\
    c_gauss (ctransform eig t c) = true /\ c_occ (ctransform eig t c) = c_occ c /\
    c_points (ctransform eig t c) = c_points c).
Proof. exact (fun E => cell_transform eig E B c t). Qed.
Print Assumptions C24_transform.
Theorem C24_transform_composes eig B c s t : eigen_solver eig ->
  reach eig B c -> rotation (t_rot s) -> rotation (t_rot t) ->
  ctransform eig s (ctransform eig t c) = ctransform eig (tcomp s t) c.
Proof. exact (fun E => cell_transform_comp eig E B c s t). Qed.
Print Assumptions C24_transform_composes.
Theorem C24_transform_inverse eig B c t : eigen_solver eig -> reach eig B c -> rotation (t_rot t) ->
  ctransform eig (tinv t) (ctransform eig t c) = c.
Proof. exact (fun E => cell_transform_inv eig E B c t). Qed.
Print Assumptions C24_transform_inverse.
(** [tcomp] and [tinv] are composition and inverse as maps of points. *)
Theorem C24_vocabulary s t v : rotation (t_rot t) ->
  tapply (tcomp s t) v = tapply s (tapply t v) /\ tapply (tinv t) (tapply t v) = v.
Proof. exact (fun R => conj (tapply_comp s t v) (tapply_inv t v (proj1 R))). Qed.
Print Assumptions C24_vocabulary.
Example C24_example : rotation (mkM 0 (-1) 0 1 0 0 0 0 1).
Proof. split; [unfold orth; mring|mring]. Qed.
