(** Proofs: the gradient D2D returns against the gradient in the pose vector it is
    used with. *)
From Coq Require Import Reals ZArith List Bool Lra Lia Psatz.
From Verif Require Import Base LinAlg3 Deriv MatDeriv GeoModel GeoSpec GeoProofs OptModel RegModel RegSpec RegDeriv RegD2D.
Import ListNotations.
Open Scope R_scope.

Lemma turn_add a b : mmul (turn b) (turn a) = turn (a + b).
Proof. unfold turn. rewrite cos_plus, sin_plus. apply M3_eq; mcomp; ring. Qed.

(** the motion after which a pose [p] has the angle changed by [s] *)
Definition spin (p : V3) (s : R) : V3 :=
  mkV (vx p - (cos s * vx p - sin s * vy p)) (vy p - (sin s * vx p + cos s * vy p)) s.
Lemma moved_x p c k : moved (mkV (vx p + k) (vy p) (vz p)) c = moved (mkV k 0 0) (moved p c).
Proof.
  unfold moved at 1 2. cbn [vx vy vz gc_mean gc_cov]. rewrite turn_0. unfold moved. cbn [gc_mean gc_cov].
  f_equal; [apply V3_eq|apply M3_eq]; mcomp; ring.
Qed.
Lemma moved_y p c k : moved (mkV (vx p) (vy p + k) (vz p)) c = moved (mkV 0 k 0) (moved p c).
Proof.
  unfold moved at 1 2. cbn [vx vy vz gc_mean gc_cov]. rewrite turn_0. unfold moved. cbn [gc_mean gc_cov].
  f_equal; [apply V3_eq|apply M3_eq]; mcomp; ring.
Qed.
Lemma moved_z p c k : moved (mkV (vx p) (vy p) (vz p + k)) c = moved (spin p k) (moved p c).
Proof.
  unfold moved at 1 2. cbn [vx vy vz gc_mean gc_cov spin]. rewrite <- turn_add.
  unfold moved. cbn [gc_mean gc_cov].
  f_equal.
  - generalize (turn (vz p)). intro A. unfold turn. apply V3_eq; mcomp; ring.
  - rewrite mtr_mmul, !mmul_assoc. reflexivity.
Qed.

Lemma D_shift g a l : derivable_pt_lim g 0 l -> derivable_pt_lim (fun k => g (k - a)) a l.
Proof.
  intro H. eapply D_eq; [|apply (derivable_pt_lim_comp (fun k => k - a) g a 1 l)].
  - ring.
  - eapply D_eq; [|der]. ring.
  - replace (a - a) with 0 by ring. exact H.
Qed.
Lemma D_at f a l : derivable_pt_lim (fun k => f (a + k)) 0 l -> derivable_pt_lim f a l.
Proof.
  intro H. apply (derivable_pt_lim_ext (fun k => f (a + (k - a)))).
  - intro z. f_equal. ring.
  - apply (D_shift (fun k => f (a + k))). exact H.
Qed.


Lemma pair_pose p c t q : regular_pair (moved q c) t ->
  let g := sd_grad (pairSad p true (moved q c, t)) in
  is_gradient (fun u => pair_score p (moved u c) t)
    (mkV (vx g) (vy g) (vz g + vy q * vx g - vx q * vy g)) q.
Proof.
  intro H. cbv zeta. rewrite (pair_code p _ _ H). cbn [sd_grad].
  assert (N : mdet (MM (moved q c) t 0) <> 0).
  { rewrite MM_0. apply inverseExists_det. apply H. }
  destruct H as (S1 & S2 & _).
  destruct (grad_F p (moved q c) t S1 S2 vzero N) as (GX & GY & _).
  cbn [vx vy vz vzero] in GX, GY.
  unfold is_gradient. cbn [vx vy vz]. split; [|split].
  - apply D_at. eapply derivable_pt_lim_ext; [|exact GX]. intro k. cbv beta. rewrite moved_x. reflexivity.
  - apply D_at. eapply derivable_pt_lim_ext; [|exact GY]. intro k. cbv beta. rewrite moved_y. reflexivity.
  - apply D_at.
    apply (derivable_pt_lim_ext (fun k => F p (moved q c) t (spin q k))).
    { intro k. unfold F. rewrite moved_z. reflexivity. }
    set (s := moved q c) in *. clearbody s.
    assert (E0 : spin q 0 = vzero).
    { unfold spin. rewrite cos_0, sin_0. apply V3_eq; mcomp; ring. }
    assert (DX : DV (fun k => X s t (spin q k)) 0 (vadd (W s 0) (mkV (vy q) (- vx q) 0))).
    { unfold X, moved. cbn [gc_mean].
      eapply DV_eq; [|apply (DV_sub (fun k => vadd (mvmul (turn k) (gc_mean s)) (mkV (vx (spin q k)) (vy (spin q k)) 0)) (fun _ => gc_mean t) 0
        (vadd (W s 0) (mkV (vy q) (- vx q) 0)) vzero)];
        [apply V3_eq; mcomp; ring| |apply DV_const].
      apply (DV_add (fun k => mvmul (turn k) (gc_mean s)) (fun k => mkV (vx (spin q k)) (vy (spin q k)) 0)).
      - eapply DV_eq; [|apply (DV_mul turn (fun _ => gc_mean s) _ _ _ (D_turn _) (DV_const _ _))].
        unfold W. apply V3_eq; mcomp; ring.
      - unfold DV, spin. cbn [vx vy vz]. 
        repeat split; (eapply D_eq; [|der]); rewrite ?cos_0, ?sin_0; ring. }
    pose proof (D_mahal (fun k => X s t (spin q k)) (fun k => MM s t k) 0 _ _ DX (D_MM s t 0)
                  (sym_MM s t S1 S2 0) N) as DD.
    cbv beta in DD. rewrite E0 in DD.
    eapply D_eq; [|eapply (D_F p s t vzero); [exact N|exact E0|exact DD]].
    cbn [vscale vx vy vz]. unfold Gd, G3. cbn [vx vy vz].
    replace (vz vzero) with 0 by reflexivity.
    unfold Y. replace (vz vzero) with 0 by reflexivity.
    generalize (mvmul (minv (MM s t 0)) (X s t vzero)) (F p s t vzero) (W s 0) (ZZ s 0). intros y f w Z.
    mcomp. ring.
Qed.

Section Grids.
  Variable nearest : P2 -> nat -> list gcell.

  Lemma matches_matched source q :
    matches nearest source q = map (fun m => (moved q (fst m), snd m)) (matched nearest source q).
  Proof.
    unfold matches, matched. induction source as [|c l IH]; [reflexivity|].
    cbn [flat_map]. rewrite map_app, <- IH, map_map. reflexivity.
  Qed.
  Theorem d2d_pose p source q :
    Forall (fun m => regular_pair (fst m) (snd m)) (matches nearest source q) ->
    let g := sd_grad (calcScore nearest p source q true) in
    is_gradient (total_score p (matched nearest source q))
      (mkV (vx g) (vy g) (vz g + vy q * vx g - vx q * vy g)) q.
  Proof.
    cbv zeta. rewrite calcScore_sum, matches_matched.
    induction (matched nearest source q) as [|m ms IH]; intro H.
    - cbn [map]. rewrite sdsum_nil. eapply gradient_eq; [|apply (gradient_const 0)].
      apply V3_eq; mcomp; cbn; ring.
    - cbn [map] in *. inversion H as [|? ? H1 H2]; subst. cbn [fst snd] in H1.
      rewrite sdsum_cons. eapply gradient_eq.
      2:{ apply (gradient_plus (fun u => pair_score p (moved u (fst m)) (snd m)) (total_score p ms)).
          - apply (pair_pose p _ _ q H1).
          - apply IH. exact H2. }
      cbn [sdadd sd_grad].
      generalize (sd_grad (pairSad p true (moved q (fst m), snd m))).
      generalize (sd_grad (sdsum (map (pairSad p true) (map (fun m0 => (moved q (fst m0), snd m0)) ms)))).
      intros a b. apply V3_eq; mcomp; ring.
  Qed.
End Grids.
