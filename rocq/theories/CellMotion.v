(** Proofs for C142: obstacles that go away and come back. *)
From Coq Require Import Reals Lra Psatz List ZArith Bool Lia.
From Verif Require Import Base LinAlg3 CellModel CellSpec EvidenceSpec CellProofs CellCases CellBeam.
Import ListNotations.
Open Scope R_scope.

Lemma iter_swap {A} (g : A -> A) m c : Nat.iter (S m) g c = Nat.iter m g (g c).
Proof. induction m as [|m IH]; [reflexivity|]. change (g (Nat.iter (S m) g c) = g (Nat.iter m g (g c))). rewrite IH. reflexivity. Qed.

Section Motion.
Variable eig : M3 -> M3 * V3.
Hypothesis EIG : eigen_solver eig.

Lemma beam_keeps c s e j n : c_mean (updateOccupancy c s e j n) = c_mean c /\
  c_cov (updateOccupancy c s e j n) = c_cov c /\
  (c_gauss c = false -> c_gauss (updateOccupancy c s e j n) = false).
Proof.
  clear. unfold updateOccupancy. destruct (c_gauss c) eqn:G; cbn [negb].
  - split; [|split; [|discriminate]]; destruct (at_end c e); try reflexivity; destruct (occ_le0 _); reflexivity.
  - split; [|split]; try (intros _); destruct (occ_le0 _); cbn; auto.
Qed.

Lemma beams_count (B : V3 -> V3 -> Prop) s e j n i p : B s e -> (0 <= n)%Z -> s <> e -> forall k c x,
  reach eig B c -> c_gauss c = true -> 1/100 <= l1 (vsub (c_mean c) e) -> c_occ c = Some x ->
  mmul i (c_cov c) = mid -> most_likely i (c_mean c) s e p ->
  let f := free_evidence (exp (- mahalanobis2 i (c_mean c) p / 2)) (vnorm (vsub p e)) in
  c_gauss (Nat.iter (S k) (fun c => updateOccupancy c s e j n) c) = true <-> INR (S k) * (IZR n * f) < x.
Proof using EIG.
  intros BS HN NE. induction k as [|k IH]; intros c x R G FAR OX II ML f.
  - cbn [Nat.iter nat_rect INR]. rewrite Rmult_1_l.
    destruct (beam_exact eig EIG B c s e j n x R G HN NE FAR OX) as (i' & p' & II' & MP & U & Y).
    assert (i = i').
    { pose proof (reach_CI eig EIG _ c R) as I. destruct (ci_gauss _ _ I G) as (PD & _).
      assert (D : mdet (c_cov c) <> 0) by (apply pd_det, PD).
      rewrite <- (mmul_1_r i), <- (mmul_1_r i'), <- (minv_r (c_cov c) D), <- !mmul_assoc, II, II'. reflexivity. }
    subst i'. rewrite <- (U p ML) in Y. destruct Y as [_ GY]. cbv zeta in GY. fold f in GY. rewrite GY.
    unfold Rmax. destruct (Rle_dec _ _); lra.
  - set (c1 := updateOccupancy c s e j n).
    assert (E : Nat.iter (S (S k)) (fun c => updateOccupancy c s e j n) c = Nat.iter (S k) (fun c => updateOccupancy c s e j n) c1).
    { unfold c1. exact (iter_swap _ (S k) c). }
    rewrite E. destruct (beam_keeps c s e j n) as (KM & KC & KG). fold c1 in KM, KC, KG.
    assert (R1 : reach eig B c1) by (apply reach_beam; auto).
    destruct (beam_exact eig EIG B c s e j n x R G HN NE FAR OX) as (i' & p' & II' & MP & U & Y).
    assert (i = i').
    { pose proof (reach_CI eig EIG _ c R) as I. destruct (ci_gauss _ _ I G) as (PD & _).
      assert (D : mdet (c_cov c) <> 0) by (apply pd_det, PD).
      rewrite <- (mmul_1_r i), <- (mmul_1_r i'), <- (minv_r (c_cov c) D), <- !mmul_assoc, II, II'. reflexivity. }
    subst i'. rewrite <- (U p ML) in Y. cbv zeta in Y. fold f c1 in Y. destruct Y as [OY GY].
    assert (F0 : 0 <= IZR n * f).
    { apply Rmult_le_pos; [apply IZR_le in HN; exact HN|]. apply free_evidence_bounds.
      split; [left; apply exp_pos|]. pose proof (reach_CI eig EIG _ c R) as I. destruct (ci_gauss _ _ I G) as (PD & _ ).
      assert (D : mdet (c_cov c) <> 0) by (apply pd_det, PD).
      assert (IE : i = minv (c_cov c)) by (rewrite <- (mmul_1_r i), <- (minv_r (c_cov c)), <- mmul_assoc, II, mmul_1_l by exact D; reflexivity).
      assert (Q : 0 <= mahalanobis2 i (c_mean c) p) by (rewrite IE; apply pd_quad, PD).
      apply Rle_trans with (exp 0); [|rewrite exp_0; lra].
      destruct (Req_dec (- mahalanobis2 i (c_mean c) p / 2) 0) as [->|]; [lra|]. left. apply exp_increasing. lra. }
    set (w := IZR n * f) in *. assert (K1 : INR (S (S k)) = INR (S k) + 1) by apply S_INR.
    assert (KP : 0 < INR (S k)) by (apply lt_0_INR; lia).
    destruct (c_gauss c1) eqn:G1.
    + assert (PY : 0 < Rmax (-1) (x - w)) by (apply GY; reflexivity).
      assert (YE : Rmax (-1) (x - w) = x - w) by (unfold Rmax in *; destruct (Rle_dec _ _); lra).
      rewrite YE in OY. specialize (IH c1 (x - w) R1 G1). rewrite KM, KC in IH. specialize (IH FAR OY II ML). cbv zeta in IH. fold f w in IH.
      rewrite IH, K1. split; nra.
    + assert (NG : forall m, c_gauss (Nat.iter m (fun c => updateOccupancy c s e j n) c1) = false).
      { induction m as [|m IHm]; [exact G1|]. cbn [Nat.iter nat_rect]. apply beam_keeps. exact IHm. }
      rewrite NG. split; [discriminate|]. intro H. exfalso.
      assert (NP : ~ 0 < Rmax (-1) (x - w)) by (intro P; apply GY in P; discriminate).
      assert (x - w <= 0) by (unfold Rmax in NP; destruct (Rle_dec _ _); lra). rewrite K1 in H. nra.
Qed.

Lemma exp_small : exp (- (9/2)) <= 1/16.
Proof.
  clear. rewrite exp_Ropp. assert (E1 : 2 <= exp 1) by (pose proof (exp_ineq1 1 ltac:(lra)); lra).
  assert (E4 : 16 <= exp (9/2)).
  { apply Rle_trans with (exp (1 + 1 + 1 + 1)).
    - rewrite !exp_plus. assert (4 <= exp 1 * exp 1) by nra. assert (0 < exp 1) by apply exp_pos. nra.
    - left. apply exp_increasing. lra. }
  replace (1/16) with (/16) by field. apply Rinv_le_contravar; lra.
Qed.
Lemma sure_evidence d : 3/100 <= d -> 1/3 <= free_evidence 1 d.
Proof.
  clear. intro D. unfold free_evidence. set (th := exp _).
  assert (TH : th <= 1/16).
  { apply Rle_trans with (exp (- (9/2))); [|apply exp_small]. unfold th.
    assert (DD : (3/100) ^ 2 <= d ^ 2) by (apply pow_incr; lra).
    replace (- (1/2) * (d / (1/100)) ^ 2) with (- (5000 * d ^ 2)) by field.
    destruct (Req_dec (- (5000 * d ^ 2)) (- (9/2))) as [->|]; [lra|]. left. apply exp_increasing. lra. }
  assert (T0 : 0 < th) by apply exp_pos.
  set (p := 1/2 + _). assert (P : 95/160 <= p < 3/5) by (unfold p; lra).
  set (q := p / (1 - p)). assert (Q : 19/13 <= q).
  { unfold q. apply Rmult_le_reg_r with (1 - p); [lra|]. unfold Rdiv. rewrite (Rmult_assoc p), Rinv_l by lra. lra. }
  assert (E3 : exp (1/3) * exp (1/3) * exp (1/3) = exp 1) by (rewrite <- !exp_plus; f_equal; lra).
  pose proof exp_le_3 as E1.
  assert (X : exp (1/3) <= q).
  { destruct (Rle_dec (exp (1/3)) q) as [|N]; [assumption|]. exfalso. apply Rnot_le_lt in N.
    set (z := exp (1/3)) in *. assert (Z : 19/13 < z) by lra.
    assert ((19/13) * (19/13) < z * z) by nra. assert ((19/13) * (19/13) * (19/13) < z * z * z) by nra. lra. }
  rewrite <- (ln_exp (1/3)). destruct (Req_dec (exp (1/3)) q) as [->|]; [lra|]. left. apply ln_increasing; [apply exp_pos|lra].
Qed.

Lemma beam_removes B c s e j n x t : reach eig B c -> c_gauss c = true -> (3 <= n)%Z -> s <> e -> c_occ c = Some x ->
  c_mean c = vadd e (vscale t (vsub e s)) -> 3/100 <= vnorm (vsub (c_mean c) e) -> 1/100 <= l1 (vsub (c_mean c) e) ->
  c_gauss (updateOccupancy c s e j n) = false /\ exists y, c_occ (updateOccupancy c s e j n) = Some y /\ y <= 0.
Proof using EIG.
  intros R G HN NE OX M D FAR.
  pose proof (beam_through eig EIG B c s e j n x t R G ltac:(lia) NE FAR OX M) as Y.
  pose proof (ci_occ _ _ (reach_CI eig EIG _ c R)) as OR. rewrite OX in OR. cbn in OR.
  pose proof (sure_evidence _ D) as F. set (f := free_evidence _ _) in *. apply IZR_le in HN.
  assert (NP : Rmax (-1) (x - IZR n * f) <= 0) by (unfold Rmax; destruct (Rle_dec _ _); nra).
  destruct (beam_exact eig EIG B c s e j n x R G ltac:(apply le_IZR; lra) NE FAR OX) as (i & p & _ & _ & _ & Y2 & GY).
  rewrite Y in Y2. injection Y2 as Y2. rewrite <- Y2 in GY. split; [|eauto].
  destruct (c_gauss (updateOccupancy c s e j n)); [|reflexivity]. assert (0 < Rmax (-1) (x - IZR n * f)) by (apply GY; reflexivity). lra.
Qed.

Lemma comes_back B c x : reach eig B c -> c_gauss c = false -> c_occ c = Some x -> (6 <= length (c_pts c))%nat ->
  let k := INR (length (c_pts c)) in let c' := computeGaussian eig c in
  c_gauss c' = true /\ c_mean c' = mean_of (c_pts c) /\ c_points c' = Z.of_nat (length (c_pts c)) /\ c_occ c' = Some 1 /\ c_pts c' = [] /\
  conditioned (mscale ((k - 1) / (k * k)) (madd mid (scatter (c_pts c)))) (c_cov c').
Proof using EIG.
  intros R G OX L k c'. pose proof (ci_occ _ _ (reach_CI eig EIG _ c R)) as OR. rewrite OX in OR. cbn in OR.
  unfold c'. rewrite (compute_first eig); [|rewrite OX; exact OR|exact L|exact G].
  rewrite OX. cbn [c_mean c_cov c_icov c_occ c_points c_gauss c_cent c_pts option_map].
  split; [reflexivity|]. split; [reflexivity|]. split; [reflexivity|]. split; [reflexivity|]. split; [reflexivity|].
  unfold k. rewrite <- batch_cov_spec; [|destruct (c_pts c); cbn in L; [lia|congruence]].
  apply floor_conditioned; [exact EIG|]. apply batch_cov_pd. lia.
Qed.
End Motion.
