(** Proofs: the point to distribution score at angles whose sine and cosine are replaced. *)
From Coq Require Import Reals ZArith List Bool Lra Lia Psatz.
From Verif Require Import Base LinAlg3 Deriv MatDeriv GeoModel GeoSpec GeoProofs OptModel RegModel RegSpec RegDeriv RegD2D RegFit RegP2D.
Import ListNotations.
Open Scope R_scope.

Lemma sin_small a : Rabs (sin a) <= Rabs a.
Proof.
  assert (P : forall a, 0 <= a -> Rabs (sin a) <= a).
  { clear a. intros a A. destruct (Rle_or_lt a 1) as [L|L].
    - pose proof PI2_1. rewrite Rabs_right; [|apply Rle_ge, sin_ge_0; lra].
      destruct (Req_dec a 0) as [->|N]; [rewrite sin_0; lra|]. apply Rlt_le, sin_lt_x. lra.
    - destruct (SIN_bound a). apply Rabs_le. lra. }
  destruct (Rle_or_lt 0 a) as [L|L].
  - rewrite (Rabs_right a) by lra. apply P, L.
  - rewrite (Rabs_left a), <- (Rabs_Ropp (sin a)), <- sin_neg by lra. apply P. lra.
Qed.
Lemma cos_small a : Rabs a < / 10000 -> Rabs (1 - cos a) <= / 10000.
Proof.
  intro A. pose proof (sin_small (a / 2)) as S. pose proof (cos_2a_sin (a / 2)) as C. replace (2 * (a / 2)) with a in C by field.
  rewrite C. replace (1 - (1 - 2 * sin (a / 2) * sin (a / 2))) with (2 * (sin (a / 2) * sin (a / 2))) by ring.
  assert (H : Rabs (a / 2) <= / 20000). { unfold Rdiv. rewrite Rabs_mult, (Rabs_right (/ 2)) by lra. lra. }
  rewrite Rabs_mult, (Rabs_right 2), Rabs_mult by lra. pose proof (Rabs_pos (sin (a / 2))). nra.
Qed.
Lemma sincos_near a : Rabs (cos a - cosOf a) <= / 10000 /\ Rabs (sin a - sinOf a) <= / 10000.
Proof.
  unfold cosOf, sinOf, smallAngle. destruct (Rlt_dec (Rabs a) (/ 10000)) as [L|L].
  - split; [rewrite Rabs_minus_sym; apply cos_small, L|]. rewrite Rminus_0_r. pose proof (sin_small a). lra.
  - unfold Rminus. rewrite !Rplus_opp_r, Rabs_R0. lra.
Qed.

(** what the slope in the angle is off by *)
Definition slip (p : fparams) (c : icell) (pt : P2) (q : V3) : R :=
  f1 p c pt q * (ax c pt q * (- fst pt * (sin (vz q) - sinOf (vz q)) - snd pt * (cos (vz q) - cosOf (vz q))) +
                 ay c pt q * (fst pt * (cos (vz q) - cosOf (vz q)) - snd pt * (sin (vz q) - sinOf (vz q)))).
Lemma slip_small p c pt q : Rabs (slip p c pt q) <= / 10000 * lever p c pt q.
Proof.
  destruct (sincos_near (vz q)) as [C S]. unfold slip, lever, extent. cbv zeta.
  set (w := t2apply (getTransFromPose (mkP (vx q) (vy q) (vz q))) pt).
  assert (WX : fst w - fst (ic_mean c) = wx c pt q).
  { unfold w, wx, t2apply, getTransFromPose. cbn [fst snd ta tb tc td tx ty px py pth]. ring. }
  assert (WY : snd w - snd (ic_mean c) = wy c pt q).
  { unfold w, wy, t2apply, getTransFromPose. cbn [fst snd ta tb tc td tx ty px py pth]. ring. }
  cbn [fst snd]. rewrite WX, WY. fold (ax c pt q) (ay c pt q).
  change (exp (- g_half p * quad2 (ic_icov c) (wx c pt q, wy c pt q))) with (E p c pt q).
  unfold f1. rewrite Rabs_mult. replace (g_d1 p * (g_d2 p * E p c pt q)) with (g_d1 p * g_d2 p * E p c pt q) by ring.
  assert (EP : 0 < E p c pt q) by (unfold E; apply exp_pos).
  rewrite (Rabs_mult _ (E p c pt q)), (Rabs_right (E p c pt q)) by lra.
  set (K := Rabs (g_d1 p * g_d2 p) * E p c pt q).
  assert (KP : 0 <= K) by (unfold K; apply Rmult_le_pos; [apply Rabs_pos|lra]).
  replace (/ 10000 * (K * ((Rabs (ax c pt q) + Rabs (ay c pt q)) * (Rabs (fst pt) + Rabs (snd pt)))))
    with (K * ((Rabs (ax c pt q) + Rabs (ay c pt q)) * ((Rabs (fst pt) + Rabs (snd pt)) * / 10000))) by ring.
  apply Rmult_le_compat_l; [exact KP|].
  set (t := / 10000) in *. set (dc := cos (vz q) - cosOf (vz q)) in *. set (ds := sin (vz q) - sinOf (vz q)) in *.
  assert (B : forall a b, Rabs a <= t -> Rabs b <= t -> Rabs (- fst pt * a - snd pt * b) <= (Rabs (fst pt) + Rabs (snd pt)) * t).
  { intros a b A D. replace (- fst pt * a - snd pt * b) with (- (fst pt * a) + - (snd pt * b)) by ring.
    eapply Rle_trans; [apply Rabs_triang|]. rewrite !Rabs_Ropp, !Rabs_mult, Rmult_plus_distr_r.
    apply Rplus_le_compat; apply Rmult_le_compat_l; try apply Rabs_pos; assumption. }
  assert (X := B ds dc S C). assert (Y : Rabs (fst pt * dc - snd pt * ds) <= (Rabs (fst pt) + Rabs (snd pt)) * t).
  { replace (fst pt * dc - snd pt * ds) with (- fst pt * (- dc) - snd pt * ds) by ring. apply B; [rewrite Rabs_Ropp; exact C|exact S]. }
  eapply Rle_trans; [apply Rabs_triang|]. rewrite !Rabs_mult, Rmult_plus_distr_r.
  apply Rplus_le_compat; apply Rmult_le_compat_l; try apply Rabs_pos; assumption.
Qed.
Lemma point_any p c pt q : g_half p = g_d2 p / 2 -> 0 < g_d2 p < 1 -> proper c ->
  let r := calcPointScore pt (ic_icov c) (ic_mean c) (t2apply (vecToMat q) pt) (cosOf (vz q)) (sinOf (vz q)) p in
  sd_val r = point_score p c pt q /\ vadd (sd_grad r) (mkV 0 0 (slip p c pt q)) = G p c pt q.
Proof.
  intros HH HD (SY & PD). cbv zeta. unfold calcPointScore. cbv zeta.
  set (w := t2apply (vecToMat q) pt).
  assert (WX : fst w - fst (ic_mean c) = wx c pt q).
  { unfold w, wx, t2apply, vecToMat, getTransFromPose, poseOf. cbn [fst snd ta tb tc td tx ty px py pth]. ring. }
  assert (WY : snd w - snd (ic_mean c) = wy c pt q).
  { unfold w, wy, t2apply, vecToMat, getTransFromPose, poseOf. cbn [fst snd ta tb tc td tx ty px py pth]. ring. }
  cbn [fst snd]. rewrite WX, WY.
  assert (QE : (wx c pt q * m11 (ic_icov c) + wy c pt q * m21 (ic_icov c)) * wx c pt q +
               (wx c pt q * m12 (ic_icov c) + wy c pt q * m22 (ic_icov c)) * wy c pt q =
               quad2 (ic_icov c) (wx c pt q, wy c pt q)).
  { unfold quad2. cbn [fst snd]. ring. }
  rewrite QE.
  pose proof (guard_ok p _ HD HH (PD (wx c pt q, wy c pt q))) as (GL & GH).
  destruct (Rlt_dec 1 _) as [B|_]; [lra|]. destruct (Rlt_dec _ 0) as [B|_]; [lra|].
  cbn [sd_val sd_grad]. rewrite point_eq.
  change (exp (- g_half p * quad2 (ic_icov c) (wx c pt q, wy c pt q))) with (E p c pt q).
  split; [reflexivity|]. unfold G, f1, gz, slip, f1, jx, jy, ax, ay. cbn [fst snd].
  apply V3_eq; unfold vadd; cbn [vx vy vz]; ring.
Qed.
Lemma points_any p ms q : g_half p = g_d2 p / 2 -> 0 < g_d2 p < 1 -> Forall (fun m => proper (snd m)) ms ->
  let sc := sdsum (map (ptSad p q) ms) in
  sd_val sc = total_points p ms q /\
  exists s, is_gradient (total_points p ms) (vadd (sd_grad sc) (mkV 0 0 s)) q /\
    Rabs s <= / 10000 * Rsum (map (fun m => lever p (snd m) (fst m) q) ms).
Proof.
  intros HH HD HF. cbv zeta. induction ms as [|[pt c] ms IH].
  - cbn [map]. rewrite sdsum_nil. split; [reflexivity|]. exists 0. split.
    + replace (vadd (sd_grad sdzero) (mkV 0 0 0)) with vzero by (unfold sdzero, vadd, vzero; cbn [sd_grad vx vy vz]; apply V3_eq; cbn [vx vy vz]; ring).
      apply (gradient_const 0).
    + rewrite Rabs_R0. cbn. lra.
  - inversion HF as [|? ? H1 H2]; subst. cbn [snd] in H1. destruct (IH H2) as (V & s & GR & BS).
    cbn [map]. rewrite sdsum_cons. destruct (point_any p c pt q HH HD H1) as [PV PG].
    unfold ptSad at 1 3. cbn [fst snd] in *. cbn [sdadd sd_val sd_grad]. rewrite V, PV. split; [reflexivity|].
    exists (slip p c pt q + s). split.
    + match goal with |- is_gradient _ ?v _ => replace v with (vadd (G p c pt q) (vadd (sd_grad (sdsum (map (ptSad p q) ms))) (mkV 0 0 s))) end.
      * apply (gradient_plus (point_score p c pt) (total_points p ms)); [|exact GR]. apply point_grad; [exact HH|apply H1].
      * rewrite <- PG. apply V3_eq; unfold vadd; cbn [vx vy vz]; ring.
    + cbn [Rsum fold_right]. fold (Rsum (map (fun m => lever p (snd m) (fst m) q) ms)).
      pose proof (slip_small p c pt q). eapply Rle_trans; [apply Rabs_triang|]. lra.
Qed.
Theorem p2d_any_angle near r res source q : 0 < r < 1 -> 0 < res ->
  let p := calcParams r res in
  let ms := pmatches near source q in
  let sc := calcScoreP near source q p in
  Forall (fun m => proper (snd m)) ms ->
  sd_val sc = total_points p ms q /\
  exists s, is_gradient (total_points p ms) (mkV (vx (sd_grad sc)) (vy (sd_grad sc)) (vz (sd_grad sc) + s)) q /\
    Rabs s <= / 10000 * Rsum (map (fun m => lever p (snd m) (fst m) q) ms).
Proof.
  intros Hr Hs p ms sc HF. destruct (fit r res Hr Hs) as (_ & D & H).
  unfold sc. rewrite calcScoreP_sum. destruct (points_any p ms q) as (V & s & GR & BS); try assumption.
  split; [exact V|]. exists s. split; [|exact BS]. revert GR. unfold ms. generalize (sd_grad (sdsum (map (ptSad p q) (pmatches near source q)))).
  intros v GR. replace (mkV (vx v) (vy v) (vz v + s)) with (vadd v (mkV 0 0 s)); [exact GR|]. apply V3_eq; unfold vadd; cbn [vx vy vz]; ring.
Qed.
