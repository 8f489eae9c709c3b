(** C142: obstacles that go away and come back.  Statements, examples and
    [Print Assumptions]; proofs in CellMotion.v, vocabulary in EvidenceSpec.v. *)
From Coq Require Import Reals Lra List ZArith Bool Lia.
From Verif Require Import Base LinAlg3 CellModel CellSpec EvidenceSpec CellProofs CellCases CellBeam CellMotion.
Import ListNotations.
Open Scope R_scope.

(** The same beam again and again: after k of them (k >= 1) the distribution is still there
    if and only if all their evidence together is less than the occupancy at the beginning. *)
Theorem C142_goes_away eig B c s e j n x i p k : eigen_solver eig -> reach eig B c -> B s e ->
  c_gauss c = true -> (0 <= n)%Z -> s <> e -> 1/100 <= l1 (vsub (c_mean c) e) -> c_occ c = Some x ->
  mmul i (c_cov c) = mid -> most_likely i (c_mean c) s e p ->
  let f := free_evidence (exp (- mahalanobis2 i (c_mean c) p / 2)) (vnorm (vsub p e)) in
  c_gauss (Nat.iter (S k) (fun c => updateOccupancy c s e j n) c) = true <-> INR (S k) * (IZR n * f) < x.
Proof. exact (fun E R BS G N NE F O => beams_count eig E B s e j n i p BS N NE k c x R G F O). Qed.
Print Assumptions C142_goes_away.

(** So every distribution goes away at some time under a beam with a reading that does not
    end at its most likely point. *)
Theorem C142_some_time eig B c s e j n x i p : eigen_solver eig -> reach eig B c -> B s e ->
  c_gauss c = true -> (1 <= n)%Z -> s <> e -> 1/100 <= l1 (vsub (c_mean c) e) -> c_occ c = Some x ->
  mmul i (c_cov c) = mid -> most_likely i (c_mean c) s e p -> p <> e ->
  exists k0, forall k, (k0 <= k)%nat -> c_gauss (Nat.iter (S k) (fun c => updateOccupancy c s e j n) c) = false.
Proof.
  intros E R BS G N NE F O II ML PE.
  set (f := free_evidence (exp (- mahalanobis2 i (c_mean c) p / 2)) (vnorm (vsub p e))).
  pose proof (reach_CI eig E _ c R) as I. destruct (ci_gauss _ _ I G) as (PD & _).
  assert (D : mdet (c_cov c) <> 0) by (apply pd_det, PD).
  assert (IE : i = minv (c_cov c)) by (rewrite <- (mmul_1_r i), <- (minv_r (c_cov c)), <- mmul_assoc, II, mmul_1_l by exact D; reflexivity).
  assert (Q : 0 <= mahalanobis2 i (c_mean c) p) by (rewrite IE; apply pd_quad, PD).
  assert (FP : 0 < f).
  { apply free_evidence_bounds; [|apply exp_pos|].
    - split; [left; apply exp_pos|]. apply Rle_trans with (exp 0); [|rewrite exp_0; lra].
      destruct (Req_dec (- mahalanobis2 i (c_mean c) p / 2) 0) as [->|]; [lra|]. left. apply exp_increasing. lra.
    - intro Z. apply PE. apply vsub_zero, vnorm_zero, Z. }
  apply IZR_le in N. assert (W : 0 < IZR n * f) by (apply Rmult_lt_0_compat; lra).
  assert (AR : exists k0, x / (IZR n * f) < INR k0).
  { exists (Z.to_nat (up (x / (IZR n * f)))). rewrite INR_IZR_INZ. destruct (archimed (x / (IZR n * f))) as (A1 & _).
    eapply Rlt_le_trans; [exact A1|]. apply IZR_le. lia. }
  destruct AR as (k0 & K0). exists k0. intros k K.
  destruct (c_gauss (Nat.iter (S k) (fun c => updateOccupancy c s e j n) c)) eqn:GK; [|reflexivity]. exfalso.
  apply (C142_goes_away eig B c s e j n x i p k E R BS G ltac:(apply le_IZR; lra) NE F O II ML) in GK. fold f in GK.
  assert (INR k0 <= INR (S k)) by (apply le_INR; lia).
  assert (X : x = x / (IZR n * f) * (IZR n * f)) by (field; split; lra).
  assert (x / (IZR n * f) * (IZR n * f) < INR (S k) * (IZR n * f)) by (apply Rmult_lt_compat_r; lra). lra.
Qed.
Print Assumptions C142_some_time.

(** One beam of three readings through the mean that ends at least three centimetres away is
    enough, whatever the cell has gathered before. *)
Theorem C142_at_once eig B c s e j n x t : eigen_solver eig -> reach eig B c -> c_gauss c = true ->
  (3 <= n)%Z -> s <> e -> c_occ c = Some x ->
  c_mean c = vadd e (vscale t (vsub e s)) -> 3/100 <= vnorm (vsub (c_mean c) e) -> 1/100 <= l1 (vsub (c_mean c) e) ->
  c_gauss (updateOccupancy c s e j n) = false /\ exists y, c_occ (updateOccupancy c s e j n) = Some y /\ y <= 0.
Proof. exact (fun E => beam_removes eig E B c s e j n x t). Qed.
Print Assumptions C142_at_once.

(** Six new points are enough for a new distribution with full occupancy, however much
    speaks against it; it is that of the new points alone. *)
Theorem C142_comes_back eig B c x : eigen_solver eig -> reach eig B c -> c_gauss c = false -> c_occ c = Some x ->
  (6 <= length (c_pts c))%nat ->
  let k := INR (length (c_pts c)) in let c' := computeGaussian eig c in
  c_gauss c' = true /\ c_mean c' = mean_of (c_pts c) /\ c_points c' = Z.of_nat (length (c_pts c)) /\ c_occ c' = Some 1 /\
  c_pts c' = [] /\ conditioned (mscale ((k - 1) / (k * k)) (madd mid (scatter (c_pts c)))) (c_cov c').
Proof. exact (fun E => comes_back eig E B c x). Qed.
Print Assumptions C142_comes_back.

(** Six points at the origin, a beam from ten metres to one metre behind them, six points again. *)
Example C142_case :
  let c := many eig3 vzero 6 in let s := mkV 10 0 0 in let e := mkV (-1) 0 0 in
  let gone := updateOccupancy c s e vzero 3 in
  reach eig3 properBeam c /\ properBeam s e /\ c_gauss c = true /\ c_occ c = Some 1 /\ 1/100 <= l1 (vsub (c_mean c) e) /\
  3/100 <= vnorm (vsub (c_mean c) e) /\ c_mean c = vadd e (vscale (-1/11) (vsub e s)) /\
  (exists i, mmul i (c_cov c) = mid /\ most_likely i (c_mean c) s e (c_mean c)) /\ c_mean c <> e /\
  reach eig3 properBeam (addPoints gone (repeat vzero 6)) /\ c_gauss (addPoints gone (repeat vzero 6)) = false /\
  (exists x, c_occ (addPoints gone (repeat vzero 6)) = Some x) /\ length (c_pts (addPoints gone (repeat vzero 6))) = 6%nat.
Proof.
  cbv zeta. set (c := many eig3 vzero 6). set (s := mkV 10 0 0). set (e := mkV (-1) 0 0).
  assert (R : reach eig3 properBeam c) by apply reach_six.
  assert (NE : properBeam s e) by (unfold properBeam, s, e; intro H; injection H; lra).
  assert (G : c_gauss c = true /\ c_occ c = Some 1 /\ c_mean c = vzero /\ c_pts c = []).
  { unfold c. rewrite (many_six eig3 eigen_solver_exists). cbn. auto. }
  destruct G as (G & O & M & PT).
  assert (N1 : vnorm (vsub (c_mean c) e) = 1).
  { rewrite M. unfold vnorm, e. replace (vdot _ _) with (1 * 1) by (munfold; ring). apply sqrt_square. lra. }
  assert (L1 : 1/100 <= l1 (vsub (c_mean c) e)).
  { rewrite M. unfold l1, e, vsub, vzero. cbn [vx vy vz]. replace (0 - -1) with 1 by ring. rewrite Rminus_0_r, Rabs_R0, Rabs_R1. lra. }
  assert (LINE : c_mean c = vadd e (vscale (-1/11) (vsub e s))).
  { rewrite M. unfold s, e, vzero. munfold. f_equal; field. }
  destruct (C142_at_once eig3 properBeam c s e vzero 3 1 (-1/11) eigen_solver_exists R G ltac:(lia) NE O LINE ltac:(lra) L1) as (GO & y & OY & _).
  set (gone := updateOccupancy c s e vzero 3) in *.
  assert (RG : reach eig3 properBeam gone) by (apply reach_beam; [exact R|lia|exact NE]).
  assert (AP : forall l d, reach eig3 properBeam d -> reach eig3 properBeam (addPoints d l) /\
     c_gauss (addPoints d l) = c_gauss d /\ c_occ (addPoints d l) = c_occ d /\ c_pts (addPoints d l) = c_pts d ++ l).
  { induction l as [|q l IH]; intros d Rd; [cbn; rewrite app_nil_r; auto|].
    cbn [addPoints fold_left]. fold (addPoints (addPoint d q) l). destruct (IH (addPoint d q) (reach_add _ _ d q Rd)) as (A1 & A2 & A3 & A4).
    rewrite A2, A3, A4. cbn. rewrite <- app_assoc. auto. }
  destruct (AP (repeat vzero 6) gone RG) as (A1 & A2 & A3 & A4).
  assert (PG : c_pts gone = []).
  { unfold gone, updateOccupancy. rewrite G. cbn [negb]. destruct (at_end c e); [exact PT|]. destruct (occ_le0 _); exact PT. }
  assert (IP : exists i, mmul i (c_cov c) = mid /\ most_likely i (c_mean c) s e (c_mean c)).
  { pose proof (reach_CI eig3 eigen_solver_exists _ c R) as I. destruct (ci_gauss _ _ I G) as (PD & _).
    exists (minv (c_cov c)). split; [apply minv_l, pd_det, PD|]. split; [exists (-1/11); exact LINE|]. intros q _.
    replace (mahalanobis2 (minv (c_cov c)) (c_mean c) (c_mean c)) with 0; [apply pd_quad, PD|].
    unfold mahalanobis2, quad. destruct (minv (c_cov c)), (c_mean c). munfold. ring. }
  assert (ME : c_mean c <> e) by (rewrite M; unfold vzero, e; intro H; injection H; lra).
  rewrite A2, A3, A4, GO, OY, PG, N1. repeat split; auto; try lra; eauto.
Qed.
