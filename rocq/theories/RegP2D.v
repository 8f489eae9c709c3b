(** Proofs: the point to distribution score, its gradient and its Hessian. *)
From Coq Require Import Reals ZArith List Bool Lra Lia Psatz.
From Verif Require Import Base LinAlg3 Deriv MatDeriv GeoModel GeoSpec GeoProofs OptModel RegModel RegSpec RegDeriv RegD2D RegFit.
Import ListNotations.
Open Scope R_scope.

Section Point.
  Variables (p : fparams) (c : icell) (pt : P2).
  Hypothesis HH : g_half p = g_d2 p / 2.
  Let i := ic_icov c.
  Hypothesis S : sym2 i.

  Definition wx (q : V3) : R := cos (vz q) * fst pt - sin (vz q) * snd pt + vx q - fst (ic_mean c).
  Definition wy (q : V3) : R := sin (vz q) * fst pt + cos (vz q) * snd pt + vy q - snd (ic_mean c).
  Definition E (q : V3) : R :=
    exp (- g_half p * (m11 i * wx q * wx q + (m12 i + m21 i) * wx q * wy q + m22 i * wy q * wy q)).
  (** diff^T icov *)
  Definition ax (q : V3) : R := wx q * m11 i + wy q * m21 i.
  Definition ay (q : V3) : R := wx q * m12 i + wy q * m22 i.
  Definition jx (q : V3) : R := - fst pt * sin (vz q) - snd pt * cos (vz q).
  Definition jy (q : V3) : R := fst pt * cos (vz q) - snd pt * sin (vz q).
  Definition gz (q : V3) : R := ax q * jx q + ay q * jy q.
  Definition f1 (q : V3) : R := g_d1 p * (g_d2 p * E q).
  Definition G (q : V3) : V3 := mkV (ax q * f1 q) (ay q * f1 q) (gz q * f1 q).

  Lemma point_eq q : point_score p c pt q = - g_d1 p * E q.
  Proof.
    unfold point_score, fitted, E, quad2, t2apply, getTransFromPose. cbn [fst snd ta tb tc td tx ty px py pth].
    fold i. do 2 f_equal.
    assert (X : cos (vz q) * fst pt + - sin (vz q) * snd pt + vx q - fst (ic_mean c) = wx q) by (unfold wx; ring).
    rewrite X. reflexivity.
  Qed.

  Ltac comp := unfold is_gradient; cbn [vx vy vz]; split; [|split].
  Ltac dd := unfold f1, gz, E, ax, ay, jx, jy, wx, wy; cbn [vx vy vz];
    (eapply D_eq; [|der]); cbv beta; cbn [vx vy vz].

  Lemma point_grad q : is_gradient (point_score p c pt) (G q) q.
  Proof.
    assert (X : is_gradient (fun q => - g_d1 p * E q) (G q) q).
    { unfold G. comp.
      - dd. rewrite HH, S. field.
      - dd. rewrite HH, S. field.
      - dd. rewrite HH, S. field. }
    destruct X as (X1 & X2 & X3). comp; (eapply derivable_pt_lim_ext; [|eassumption]); intro k; symmetry; apply point_eq.
  Qed.
  Definition hz (q : V3) : R := - jy q.
  Definition kz (q : V3) : R := jx q.
  Definition T (q : V3) : M3 :=
    let bx := jx q * m11 i + jy q * m21 i in
    let by_ := jx q * m12 i + jy q * m22 i in
    let h a b r := f1 q * (- g_d2 p * a * b + r) in
    mkM (h (ax q) (ax q) (m11 i)) (h (ax q) (ay q) (m12 i)) (h (ax q) (gz q) bx)
        (h (ay q) (ax q) (m12 i)) (h (ay q) (ay q) (m22 i)) (h (ay q) (gz q) by_)
        (h (gz q) (ax q) bx) (h (gz q) (ay q) by_)
        (h (gz q) (gz q) (bx * jx q + by_ * jy q - ax q * jy q + ay q * jx q)).

  Lemma point_hess q : is_hessian (point_score p c pt) (T q) q.
  Proof.
    exists G, 1. split; [lra|]. split; [intros; apply point_grad|].
    unfold G, T. cbn [vx vy vz m11 m12 m13 m21 m22 m23 m31 m32 m33].
    pose proof S as S'. unfold sym2 in S'.
    split; [|split]; comp; dd; rewrite HH, S'; field.
  Qed.
End Point.

Lemma sincos_exact a : exact_angle a -> cosOf a = cos a /\ sinOf a = sin a.
Proof.
  intro H. unfold cosOf, sinOf, smallAngle. destruct (Rlt_dec (Rabs a) (/ 10000)) as [L|L]; [|auto].
  destruct H as [-> |H]; [|lra]. rewrite cos_0, sin_0. auto.
Qed.

Lemma point_code p c pt q : g_half p = g_d2 p / 2 -> 0 < g_d2 p < 1 -> proper c -> exact_angle (vz q) ->
  calcPointScore pt (ic_icov c) (ic_mean c) (t2apply (vecToMat q) pt) (cosOf (vz q)) (sinOf (vz q)) p =
  mkSad (madd (T p c pt q) (mscale (bend p c pt q) all_but_angle)) (G p c pt q) (point_score p c pt q).
Proof.
  intros HH HD (SY & PD) HA. destruct (sincos_exact _ HA) as (-> & ->).
  unfold calcPointScore. cbv zeta.
  set (w := t2apply (vecToMat q) pt).
  assert (WX : fst w - fst (ic_mean c) = wx c pt q).
  { unfold w, wx, t2apply, vecToMat, getTransFromPose, poseOf. cbn [fst snd ta tb tc td tx ty px py pth]. ring. }
  assert (WY : snd w - snd (ic_mean c) = wy c pt q).
  { unfold w, wy, t2apply, vecToMat, getTransFromPose, poseOf. cbn [fst snd ta tb tc td tx ty px py pth]. ring. }
  cbn [fst snd]. rewrite WX, WY.
  assert (QE : (wx c pt q * m11 (ic_icov c) + wy c pt q * m21 (ic_icov c)) * wx c pt q +
               (wx c pt q * m12 (ic_icov c) + wy c pt q * m22 (ic_icov c)) * wy c pt q =
               quad2 (ic_icov c) (wx c pt q, wy c pt q)).
  { unfold quad2. cbn [fst snd]. ring. }
  rewrite QE.
  pose proof (guard_ok p _ HD HH (PD (wx c pt q, wy c pt q))) as (GL & GH).
  destruct (Rlt_dec 1 _) as [B|_]; [lra|]. destruct (Rlt_dec _ 0) as [B|_]; [lra|].
  rewrite point_eq.
  assert (BE : bend p c pt q = - g_d1 p * g_d2 p * E p c pt q * (ax c pt q * jy pt q - ay c pt q * jx pt q)).
  { unfold bend. cbv zeta. fold (poseOf q). fold (vecToMat q). fold w. cbn [fst snd]. rewrite WX, WY.
    replace (fst w - vx q) with (jy pt q).
    2:{ unfold w, jy, t2apply, vecToMat, getTransFromPose, poseOf. cbn [fst snd ta tb tc td tx ty px py pth]. ring. }
    replace (snd w - vy q) with (- jx pt q).
    2:{ unfold w, jx, t2apply, vecToMat, getTransFromPose, poseOf. cbn [fst snd ta tb tc td tx ty px py pth]. ring. }
    unfold E, quad2, ax, ay. cbn [fst snd]. ring. }
  rewrite BE. unfold T, G, f1, gz.
  replace (exp (- g_half p * quad2 (ic_icov c) (wx c pt q, wy c pt q))) with (E p c pt q) by reflexivity.
  change (wx c pt q * m11 (ic_icov c) + wy c pt q * m21 (ic_icov c)) with (ax c pt q).
  change (wx c pt q * m12 (ic_icov c) + wy c pt q * m22 (ic_icov c)) with (ay c pt q).
  change (- fst pt * sin (vz q) - snd pt * cos (vz q)) with (jx pt q).
  change (fst pt * cos (vz q) - snd pt * sin (vz q)) with (jy pt q).
  assert (H1 : - fst pt * cos (vz q) + snd pt * sin (vz q) = - jy pt q) by (unfold jy; ring).
  rewrite H1. clear H1. unfold sym2 in SY.
  cbn [Nat.eqb andb fst snd].
  generalize (ax c pt q) (ay c pt q) (jx pt q) (jy pt q) (E p c pt q). intros a b x y e.
  f_equal; [apply M3_eq|apply V3_eq]; unfold all_but_angle; mcomp; rewrite ?SY; ring.
Qed.

Section Cloud.
  Variable near : P2 -> nat -> list icell.
  Definition ptSad (p : fparams) (q : V3) (m : P2 * icell) : sad :=
    calcPointScore (fst m) (ic_icov (snd m)) (ic_mean (snd m)) (t2apply (vecToMat q) (fst m))
      (cosOf (vz q)) (sinOf (vz q)) p.
  Lemma calcScoreP_sum p source q :
    calcScoreP near source q p = sdsum (map (ptSad p q) (pmatches near source q)).
  Proof.
    unfold calcScoreP.
    assert (X : forall source z, fold_left (fun res pt =>
       let tp := t2apply (vecToMat q) pt in
       fold_left (fun r nb => sdadd r (calcPointScore pt (ic_icov nb) (ic_mean nb) tp
                                         (cosOf (vz q)) (sinOf (vz q)) p)) (near tp 4%nat) res) source z
       = sdadd z (sdsum (map (ptSad p q) (pmatches near source q)))).
    { clear source. induction source as [|pt l IH]; intro z.
      - cbn [fold_left pmatches flat_map map]. rewrite sdsum_nil, sdadd_0_r. reflexivity.
      - cbn [fold_left]. cbv zeta. rewrite IH. unfold pmatches. cbn [flat_map].
        rewrite map_app, sdsum_app, <- sdadd_assoc. f_equal.
        rewrite fold_sdadd, map_map. reflexivity. }
    rewrite X. apply sdadd_0.
  Qed.
  Lemma msub_add a b : msub (madd a b) b = a.
  Proof. apply M3_eq; mcomp; ring. Qed.
  Lemma hessian_eq f a b q : a = b -> is_hessian f a q -> is_hessian f b q.
  Proof. intros <-. auto. Qed.

  Lemma points_derivs p ms q : g_half p = g_d2 p / 2 -> 0 < g_d2 p < 1 ->
    Forall (fun m => proper (snd m)) ms -> exact_angle (vz q) ->
    let sc := sdsum (map (ptSad p q) ms) in
    sd_val sc = total_points p ms q /\
    is_gradient (total_points p ms) (sd_grad sc) q /\
    is_hessian (total_points p ms)
      (msub (sd_hess sc) (mscale (Rsum (map (fun m => bend p (snd m) (fst m) q) ms)) all_but_angle)) q.
  Proof.
    intros HH HD HF HA. cbv zeta. induction ms as [|[pt c] ms IH].
    - cbn [map]. rewrite sdsum_nil. split; [reflexivity|]. split; [apply (gradient_const 0)|].
      eapply hessian_eq; [|apply (hessian_const 0)].
      cbn [sdzero sd_hess Rsum map fold_right]. apply M3_eq; unfold all_but_angle; mcomp; ring.
    - inversion HF as [|? ? H1 H2]; subst. cbn [snd] in H1. destruct (IH H2) as (V & GR & HS).
      cbn [map]. rewrite sdsum_cons. unfold ptSad at 1 3 5. cbn [fst snd].
      rewrite (point_code p c pt q HH HD H1 HA). cbn [sdadd sd_val sd_grad sd_hess]. rewrite V.
      split; [reflexivity|]. split.
      + apply (gradient_plus (point_score p c pt) (total_points p ms)); [|exact GR].
        apply point_grad; [exact HH|apply H1].
      + eapply hessian_eq; [|apply (hessian_plus (point_score p c pt) (total_points p ms) _ _ q
           (point_hess p c pt HH (proj1 H1) q) HS)].
        cbn [Rsum fold_right].
        generalize (T p c pt q) (bend p c pt q) (sd_hess (sdsum (map (ptSad p q) ms))).
        fold (Rsum (map (fun m => bend p (snd m) (fst m) q) ms)).
        generalize (Rsum (map (fun m => bend p (snd m) (fst m) q) ms)).
        intros. apply M3_eq; unfold all_but_angle; mcomp; ring.
  Qed.
  Theorem p2d_derivs r res source q : 0 < r < 1 -> 0 < res ->
    let p := calcParams r res in
    let ms := pmatches near source q in
    let sc := calcScoreP near source q p in
    Forall (fun m => proper (snd m)) ms -> exact_angle (vz q) ->
    sd_val sc = total_points p ms q /\
    is_gradient (total_points p ms) (sd_grad sc) q /\
    is_hessian (total_points p ms)
      (msub (sd_hess sc) (mscale (Rsum (map (fun m => bend p (snd m) (fst m) q) ms)) all_but_angle)) q.
  Proof.
    intros Hr Hs p ms sc HF HA. destruct (fit r res Hr Hs) as (_ & D & H).
    unfold sc. rewrite calcScoreP_sum. apply points_derivs; assumption.
  Qed.
End Cloud.
