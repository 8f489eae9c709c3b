(** C140: how much one beam tells about a distribution.  Statements, examples and
    [Print Assumptions]; proofs in CellBeam.v, vocabulary ([most_likely],
    [mahalanobis2], [free_evidence]) in EvidenceSpec.v. *)
From Coq Require Import Reals Lra List ZArith Bool Lia.
From Verif Require Import Base LinAlg3 CellModel CellSpec EvidenceSpec CellProofs CellCases CellBeam.
Import ListNotations.
Open Scope R_scope.

(** A beam that does not end at the mean lowers the occupancy by n times the evidence of
    the point of its line that the cell's distribution finds most likely (there is exactly
    one), down to -1; the distribution goes when nothing above 0 remains. *)
Theorem C140_evidence eig B c s e j n x : eigen_solver eig -> reach eig B c -> c_gauss c = true ->
  (0 <= n)%Z -> s <> e -> 1/100 <= l1 (vsub (c_mean c) e) -> c_occ c = Some x ->
  exists i p, mmul i (c_cov c) = mid /\ most_likely i (c_mean c) s e p /\
    (forall q, most_likely i (c_mean c) s e q -> q = p) /\
    let y := Rmax (-1) (x - IZR n * free_evidence (exp (- mahalanobis2 i (c_mean c) p / 2)) (vnorm (vsub p e))) in
    c_occ (updateOccupancy c s e j n) = Some y /\
    (c_gauss (updateOccupancy c s e j n) = true <-> 0 < y).
Proof. exact (fun E => beam_exact eig E B c s e j n x). Qed.
Print Assumptions C140_evidence.

(** One reading weighs less than ln(3/2); it weighs something unless it ends at the most
    likely point. *)
Theorem C140_weight lik d : 0 <= lik <= 1 ->
  0 <= free_evidence lik d < ln (3/2) /\
  (0 < lik -> d <> 0 -> 0 < free_evidence lik d) /\ free_evidence lik 0 = 0.
Proof. exact (free_evidence_bounds lik d). Qed.
Print Assumptions C140_weight.

(** A cell without a distribution loses a fixed amount per reading, wherever the beam went. *)
Theorem C140_no_distribution c s e j n x : c_gauss c = false -> (0 <= n)%Z -> -1 <= x <= 1 -> c_occ c = Some x ->
  c_occ (updateOccupancy c s e j n) = Some (Rmax (-1) (x - 1/5 * IZR n)) /\
  c_gauss (updateOccupancy c s e j n) = false.
Proof.
  intros G HN OR OX. apply IZR_le in HN. unfold updateOccupancy. rewrite G. cbn [negb]. rewrite OX.
  cbn [addOcc option_map set_occ c_occ].
  assert (Y : clampOcc (x + NO_GAUSS_OCC * IZR n) = Rmax (-1) (x - 1/5 * IZR n)).
  { unfold NO_GAUSS_OCC. replace (- (2 / 10) * IZR n) with (- (1/5 * IZR n)) by field.
    assert (W : 0 <= 1/5 * IZR n) by lra. set (w := 1/5 * IZR n) in *. unfold clampOcc, MAX_OCC, MIN_OCC, Rmax.
    destruct (Rlt_dec 1 (x + - w)); [lra|]. destruct (Rlt_dec (x + - w) (-1)), (Rle_dec (-1) (x - w)); lra. }
  rewrite Y. destruct (occ_le0 _); split; auto.
Qed.
Print Assumptions C140_no_distribution.

(** Only what the beam passed should count: a beam that stops in front of the mean says
    nothing about the mean.  This fails.  The whole line through start and end is searched,
    so a mean behind the end weighs as if the beam had gone through it. *)
Theorem C140_stops_short_refuted eig B c s e j n x t : eigen_solver eig -> reach eig B c -> c_gauss c = true ->
  (1 <= n)%Z -> s <> e -> 1/100 <= l1 (vsub (c_mean c) e) -> c_occ c = Some x -> -1 < x ->
  0 < t -> c_mean c = vadd e (vscale t (vsub e s)) ->
  exists y, c_occ (updateOccupancy c s e j n) = Some y /\ y < x /\
    y = Rmax (-1) (x - IZR n * free_evidence 1 (vnorm (vsub (c_mean c) e))).
Proof.
  intros E R G HN NE FAR OX LX _ M. eexists. split; [|split; [|reflexivity]].
  - eapply beam_through; eauto. lia.
  - assert (D : vnorm (vsub (c_mean c) e) <> 0).
    { intro Z. apply vnorm_zero in Z. rewrite Z in FAR. unfold l1 in FAR. cbn in FAR. rewrite Rabs_R0 in FAR. lra. }
    destruct (free_evidence_bounds 1 (vnorm (vsub (c_mean c) e))) as (_ & P & _); [lra|].
    specialize (P ltac:(lra) D). apply IZR_le in HN. set (f := free_evidence _ _) in *.
    assert (0 < IZR n * f) by (apply Rmult_lt_0_compat; lra). unfold Rmax. destruct (Rle_dec _ _); lra.
Qed.
Print Assumptions C140_stops_short_refuted.

(** Six points at the origin; a beam from ten metres away ending five centimetres in front. *)
Example C140_case :
  let c := many eig3 vzero 6 in let s := mkV 10 0 0 in let e := mkV (1/20) 0 0 in
  reach eig3 properBeam c /\ c_gauss c = true /\ s <> e /\ 1/100 <= l1 (vsub (c_mean c) e) /\ c_occ c = Some 1 /\
  exists t, 0 < t /\ c_mean c = vadd e (vscale t (vsub e s)).
Proof.
  cbv zeta. split; [apply reach_six|]. rewrite (many_six eig3 eigen_solver_exists). cbn [c_gauss c_mean c_occ].
  split; [reflexivity|]. split; [intro H; injection H; lra|]. split.
  - unfold l1, vsub, vzero. cbn [vx vy vz]. replace (0 - 1/20) with (- (1/20)) by ring. rewrite Rabs_Ropp, Rminus_0_r, Rabs_R0, Rabs_right; lra.
  - split; [reflexivity|]. exists (1/199). split; [lra|]. unfold vzero. munfold. f_equal; field.
Qed.

(** The setters of mean and centroid change just that. *)
Theorem C140_setters c p :
  c_mean (setMean c p) = p /\ c_cent (setMean c p) = c_cent c /\
  c_cent (setCentroid c p) = p /\ c_mean (setCentroid c p) = c_mean c /\
  forall c', (c' = setMean c p \/ c' = setCentroid c p) ->
    c_cov c' = c_cov c /\ c_icov c' = c_icov c /\ c_occ c' = c_occ c /\ c_points c' = c_points c /\
    c_gauss c' = c_gauss c /\ c_pts c' = c_pts c.
Proof. repeat split; destruct H as [-> | ->]; reflexivity. Qed.
Print Assumptions C140_setters.
