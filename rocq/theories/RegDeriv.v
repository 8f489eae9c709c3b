(** Proofs about gradient and Hessian of the two registration scores. *)
From Coq Require Import Reals ZArith List Bool Lra Lia Psatz.
From Verif Require Import Base LinAlg3 Deriv MatDeriv GeoModel GeoSpec GeoProofs OptModel RegModel RegSpec.
Import ListNotations.
Open Scope R_scope.

Lemma sym_minv a : sym a -> sym (minv a).
Proof.
  unfold sym. intro H. destruct a as [a11 a12 a13 a21 a22 a23 a31 a32 a33].
  pose proof (f_equal m12 H) as E1. pose proof (f_equal m13 H) as E2. pose proof (f_equal m23 H) as E3.
  cbn in E1, E2, E3. subst.
  unfold minv. match goal with |- context [/ ?d] => generalize (/ d) end. intro k.
  unfold madj, mtr, mscale. cbn. f_equal; ring.
Qed.
Lemma sym_dot a v w : sym a -> vdot (mvmul a v) w = vdot v (mvmul a w).
Proof. intro H. rewrite vdot_mtr, H. reflexivity. Qed.

Lemma mtr_add a b : mtr (madd a b) = madd (mtr a) (mtr b).
Proof. apply M3_eq; mcomp; ring. Qed.

(** ** Along a path *)
Section Path.
  Variables (x w : R -> V3) (M Z : R -> M3) (a : R) (x1 w1 : V3) (M1 Z1 : M3).
  Hypothesis Hx : DV x a x1.
  Hypothesis Hw : DV w a w1.
  Hypothesis HM : DM M a M1.
  Hypothesis HZ : DM Z a Z1.
  Hypothesis S : sym (M a).
  Hypothesis S1 : sym (Z a).
  Hypothesis N : mdet (M a) <> 0.
  Let B := minv (M a).
  Let y := mvmul B (x a).
  Let y1 := vsub (mvmul B x1) (mvmul B (mvmul M1 y)).

  Lemma D_y : DV (fun s => mvmul (minv (M s)) (x s)) a y1.
  Proof.
    eapply DV_eq; [|apply (DV_mul _ _ _ _ _ (DM_inv M a M1 N HM) Hx)].
    unfold y1, y. fold B. apply V3_eq; mcomp; ring.
  Qed.
  Lemma D_mahal : derivable_pt_lim (fun s => mahal (M s) (x s)) a
    (2 * vdot y x1 - vdot y (mvmul M1 y)).
  Proof.
    eapply D_eq; [|apply (D_dot _ _ _ _ _ Hx D_y)]. cbv beta. fold B. fold y.
    assert (SB : sym B) by (apply sym_minv; exact S).
    assert (E1 : vdot (x a) (mvmul B x1) = vdot y x1).
    { unfold y. rewrite sym_dot by exact SB. reflexivity. }
    assert (E2 : vdot (x a) (mvmul B (mvmul M1 y)) = vdot y (mvmul M1 y)).
    { unfold y at 2. rewrite sym_dot by exact SB. reflexivity. }
    unfold y1. rewrite <- E2.
    replace (vdot (x a) (vsub (mvmul B x1) (mvmul B (mvmul M1 y))))
      with (vdot (x a) (mvmul B x1) - vdot (x a) (mvmul B (mvmul M1 y))) by (unfold vdot; cbn; ring).
    rewrite E1, (vdot_comm x1 y). ring.
  Qed.
  Lemma D_g3 : derivable_pt_lim (fun s => let y := mvmul (minv (M s)) (x s) in
      2 * vdot y (w s) - vdot y (mvmul (Z s) y)) a
    (2 * vdot y1 (w a) + 2 * vdot y w1 - 2 * vdot y1 (mvmul (Z a) y) - vdot y (mvmul Z1 y)).
  Proof.
    cbv zeta. pose proof D_y as HY.
    eapply D_eq; [|apply (D_minus (fun s => 2 * vdot (mvmul (minv (M s)) (x s)) (w s))
      (fun s => vdot (mvmul (minv (M s)) (x s)) (mvmul (Z s) (mvmul (minv (M s)) (x s)))) a);
      [apply D_scal; apply (D_dot _ _ _ _ _ HY Hw)
      |apply (D_dot _ _ _ _ _ HY (DV_mul _ _ _ _ _ HZ HY))]].
    cbv beta. fold B. fold y.
    assert (E : vdot y (vadd (mvmul Z1 y) (mvmul (Z a) y1)) = vdot y (mvmul Z1 y) + vdot y1 (mvmul (Z a) y)).
    { rewrite <- (sym_dot (Z a) y1 y S1), (vdot_comm (mvmul (Z a) y1) y). mcomp. ring. }
    rewrite E. ring.
  Qed.
End Path.

(** ** D2D *)
Definition turn1 (c : R) : M3 := mkM (- sin c) (- cos c) 0 (cos c) (- sin c) 0 0 0 0.
Definition turn2 (c : R) : M3 := mkM (- cos c) (sin c) 0 (- sin c) (- cos c) 0 0 0 0.
Lemma D_turn c : DM turn c (turn1 c).
Proof.
  unfold DM, turn, turn1. cbn [m11 m12 m13 m21 m22 m23 m31 m32 m33].
  repeat split; (eapply D_eq; [|der]; ring).
Qed.
Lemma D_turn1 c : DM turn1 c (turn2 c).
Proof.
  unfold DM, turn1, turn2. cbn [m11 m12 m13 m21 m22 m23 m31 m32 m33].
  repeat split; (eapply D_eq; [|der]; ring).
Qed.

Section Pair.
  Variables (p : fparams) (s t : gcell).
  Hypothesis SC : sym (gc_cov s).
  Hypothesis ST : sym (gc_cov t).
  Let m := gc_mean s.
  Let C := gc_cov s.

  Definition X (u : V3) : V3 := vsub (gc_mean (moved u s)) (gc_mean t).
  Definition MM (c : R) : M3 := madd (gc_cov t) (mmul (mmul (turn c) C) (mtr (turn c))).
  Definition W (c : R) : V3 := mvmul (turn1 c) m.
  Definition W1 (c : R) : V3 := mvmul (turn2 c) m.
  Definition ZZ (c : R) : M3 :=
    madd (mmul (mmul (turn1 c) C) (mtr (turn c))) (mmul (mmul (turn c) C) (mtr (turn1 c))).
  Definition ZZ1 (c : R) : M3 :=
    madd (madd (mmul (mmul (turn2 c) C) (mtr (turn c))) (mmul (mmul (turn1 c) C) (mtr (turn1 c))))
         (madd (mmul (mmul (turn1 c) C) (mtr (turn1 c))) (mmul (mmul (turn c) C) (mtr (turn2 c)))).
  Lemma pair_eq u : pair_score p (moved u s) t = fitted p (mahal (MM (vz u)) (X u)).
  Proof. reflexivity. Qed.

  Lemma sym_MM c : sym (MM c).
  Proof.
    pose proof SC as SC'. pose proof ST as ST'. unfold sym in *. fold C in SC'. unfold MM.
    rewrite mtr_add, ST', !mtr_mmul, mtr_mtr, SC', mmul_assoc. reflexivity.
  Qed.
  Lemma sym_ZZ c : sym (ZZ c).
  Proof.
    pose proof SC as SC'. unfold sym in *. fold C in SC'. unfold ZZ.
    rewrite mtr_add, !mtr_mmul, !mtr_mtr, SC', <- !mmul_assoc.
    generalize (mmul (mmul (turn1 c) C) (mtr (turn c))) (mmul (mmul (turn c) C) (mtr (turn1 c))).
    intros; apply M3_eq; mcomp; ring.
  Qed.
  Lemma D_cov (F G : R -> M3) c F1 G1 : DM F c F1 -> DM G c G1 ->
    DM (fun c => mmul (mmul (F c) C) (mtr (G c))) c
       (madd (mmul (mmul F1 C) (mtr (G c))) (mmul (mmul (F c) C) (mtr G1))).
  Proof.
    intros HF HG.
    eapply DM_eq; [|apply (DM_mul (fun c => mmul (F c) C) (fun c => mtr (G c)) c _ _
       (DM_mul F (fun _ => C) c F1 mzero HF (DM_const C c)) (DM_tr G c G1 HG))].
    generalize (F c) (G c). intros A D. f_equal. f_equal. apply M3_eq; mcomp; ring.
  Qed.
  Lemma D_MM c : DM MM c (ZZ c).
  Proof.
    eapply DM_eq; [|apply (DM_add (fun _ => gc_cov t) _ c _ _ (DM_const _ _) (D_cov _ _ c _ _ (D_turn c) (D_turn c)))].
    unfold ZZ. generalize (mmul (mmul (turn1 c) C) (mtr (turn c))) (mmul (mmul (turn c) C) (mtr (turn1 c))).
    intros; apply M3_eq; mcomp; ring.
  Qed.
  Lemma D_ZZ c : DM ZZ c (ZZ1 c).
  Proof.
    apply (DM_add _ _ c _ _ (D_cov _ _ c _ _ (D_turn1 c) (D_turn c)) (D_cov _ _ c _ _ (D_turn c) (D_turn1 c))).
  Qed.
  Lemma D_W c : DV W c (W1 c).
  Proof.
    eapply DV_eq; [|apply (DV_mul turn1 (fun _ => m) c _ _ (D_turn1 c) (DV_const _ _))].
    unfold W1. apply V3_eq; mcomp; ring.
  Qed.
  Lemma D_Xx u : DV (fun k => X (mkV k (vy u) (vz u))) (vx u) (mkV 1 0 0).
  Proof.
    unfold DV, X, moved. cbn [gc_mean vx vy vz vsub vadd].
    repeat split; (eapply D_eq; [|der]; ring).
  Qed.
  Lemma D_Xy u : DV (fun k => X (mkV (vx u) k (vz u))) (vy u) (mkV 0 1 0).
  Proof.
    unfold DV, X, moved. cbn [gc_mean vx vy vz vsub vadd].
    repeat split; (eapply D_eq; [|der]; ring).
  Qed.
  Lemma D_Xz u : DV (fun k => X (mkV (vx u) (vy u) k)) (vz u) (W (vz u)).
  Proof.
    unfold X, moved. cbn [gc_mean vx vy vz].
    eapply DV_eq; [|apply (DV_sub (fun k => vadd (mvmul (turn k) m) (mkV (vx u) (vy u) 0)) (fun _ => gc_mean t));
      [apply (DV_add (fun k => mvmul (turn k) m) (fun _ => mkV (vx u) (vy u) 0));
         [apply (DV_mul turn (fun _ => m) _ _ _ (D_turn _) (DV_const _ _))|apply DV_const]
      |apply DV_const]].
    unfold W. apply V3_eq; mcomp; ring.
  Qed.

  Definition Y (u : V3) : V3 := mvmul (minv (MM (vz u))) (X u).
  Definition G3 (u : V3) : R := 2 * vdot (Y u) (W (vz u)) - vdot (Y u) (mvmul (ZZ (vz u)) (Y u)).
  Definition Gd (u : V3) : V3 := mkV (2 * vx (Y u)) (2 * vy (Y u)) (G3 u).
  Definition F (u : V3) : R := pair_score p (moved u s) t.

  (** the gradient wherever the sum of covariances is invertible *)
  Lemma D_F u l : mdet (MM (vz u)) <> 0 ->
    forall path : R -> V3, forall a, path a = u ->
    derivable_pt_lim (fun k => mahal (MM (vz (path k))) (X (path k))) a l ->
    derivable_pt_lim (fun k => F (path k)) a (- g_half p * F u * l).
  Proof.
    intros _ path a E H. unfold F.
    apply (derivable_pt_lim_ext (fun k => - g_d1 p * exp (- g_half p * mahal (MM (vz (path k))) (X (path k))))).
    { intro k. reflexivity. }
    eapply D_eq; [|apply D_scal; apply D_exp; apply D_scal; exact H].
    cbv beta. rewrite E, pair_eq. unfold fitted. ring.
  Qed.
  Lemma grad_dist u : mdet (MM (vz u)) <> 0 ->
    is_gradient (fun u => mahal (MM (vz u)) (X u)) (Gd u) u.
  Proof.
    intro N. unfold is_gradient, Gd. cbn [vx vy vz]. split; [|split].
    - eapply D_eq; [|apply (D_mahal (fun k => X (mkV k (vy u) (vz u))) (fun _ => MM (vz u)) (vx u) _ _
        (D_Xx u) (DM_const _ _) (sym_MM _) N)].
      replace (mkV (vx u) (vy u) (vz u)) with u by (destruct u; reflexivity). fold (Y u).
      destruct (Y u). mcomp. ring.
    - eapply D_eq; [|apply (D_mahal (fun k => X (mkV (vx u) k (vz u))) (fun _ => MM (vz u)) (vy u) _ _
        (D_Xy u) (DM_const _ _) (sym_MM _) N)].
      replace (mkV (vx u) (vy u) (vz u)) with u by (destruct u; reflexivity). fold (Y u).
      destruct (Y u). mcomp. ring.
    - eapply D_eq; [|apply (D_mahal (fun k => X (mkV (vx u) (vy u) k)) MM (vz u) _ _
        (D_Xz u) (D_MM _) (sym_MM _) N)].
      replace (mkV (vx u) (vy u) (vz u)) with u by (destruct u; reflexivity). reflexivity.
  Qed.
  Lemma grad_F u : mdet (MM (vz u)) <> 0 -> is_gradient F (vscale (- g_half p * F u) (Gd u)) u.
  Proof.
    intro N. destruct (grad_dist u N) as (H1 & H2 & H3).
    assert (Eu : mkV (vx u) (vy u) (vz u) = u) by (destruct u; reflexivity).
    unfold is_gradient. cbn [vscale vx vy vz].
    split; [|split].
    - apply (D_F u _ N (fun k => mkV k (vy u) (vz u))); auto.
    - apply (D_F u _ N (fun k => mkV (vx u) k (vz u))); auto.
    - apply (D_F u _ N (fun k => mkV (vx u) (vy u) k)); auto.
  Qed.

  (** second derivatives of the distance *)
  Definition Y1 (u x1 : V3) (M1 : M3) : V3 :=
    vsub (mvmul (minv (MM (vz u))) x1) (mvmul (minv (MM (vz u))) (mvmul M1 (Y u))).
  Definition hrow3 (u x1 w1 : V3) (M1 Z1 : M3) : R :=
    2 * vdot (Y1 u x1 M1) (W (vz u)) + 2 * vdot (Y u) w1
    - 2 * vdot (Y1 u x1 M1) (mvmul (ZZ (vz u)) (Y u)) - vdot (Y u) (mvmul Z1 (Y u)).
  Definition Hd (u : V3) : M3 :=
    let a := Y1 u (mkV 1 0 0) mzero in
    let b := Y1 u (mkV 0 1 0) mzero in
    let c := Y1 u (W (vz u)) (ZZ (vz u)) in
    mkM (2 * vx a) (2 * vx b) (2 * vx c) (2 * vy a) (2 * vy b) (2 * vy c)
        (hrow3 u (mkV 1 0 0) vzero mzero mzero) (hrow3 u (mkV 0 1 0) vzero mzero mzero)
        (hrow3 u (W (vz u)) (W1 (vz u)) (ZZ (vz u)) (ZZ1 (vz u))).

  Lemma hess_dist u : mdet (MM (vz u)) <> 0 ->
    is_gradient (fun u => vx (Gd u)) (mkV (m11 (Hd u)) (m12 (Hd u)) (m13 (Hd u))) u /\
    is_gradient (fun u => vy (Gd u)) (mkV (m21 (Hd u)) (m22 (Hd u)) (m23 (Hd u))) u /\
    is_gradient (fun u => vz (Gd u)) (mkV (m31 (Hd u)) (m32 (Hd u)) (m33 (Hd u))) u.
  Proof.
    intro N.
    assert (Eu : mkV (vx u) (vy u) (vz u) = u) by (destruct u; reflexivity).
    pose proof (D_y (fun k => X (mkV k (vy u) (vz u))) (fun _ => MM (vz u)) (vx u) _ _
        (D_Xx u) (DM_const _ _) N) as (A1 & A2 & A3).
    pose proof (D_y (fun k => X (mkV (vx u) k (vz u))) (fun _ => MM (vz u)) (vy u) _ _
        (D_Xy u) (DM_const _ _) N) as (B1 & B2 & B3).
    pose proof (D_y (fun k => X (mkV (vx u) (vy u) k)) MM (vz u) _ _
        (D_Xz u) (D_MM _) N) as (C1 & C2 & C3).
    pose proof (D_g3 (fun k => X (mkV k (vy u) (vz u))) (fun _ => W (vz u)) (fun _ => MM (vz u)) (fun _ => ZZ (vz u))
        (vx u) _ _ _ _ (D_Xx u) (DV_const _ _) (DM_const _ _) (DM_const _ _) (sym_ZZ _) N) as A4.
    pose proof (D_g3 (fun k => X (mkV (vx u) k (vz u))) (fun _ => W (vz u)) (fun _ => MM (vz u)) (fun _ => ZZ (vz u))
        (vy u) _ _ _ _ (D_Xy u) (DV_const _ _) (DM_const _ _) (DM_const _ _) (sym_ZZ _) N) as B4.
    pose proof (D_g3 (fun k => X (mkV (vx u) (vy u) k)) W MM ZZ
        (vz u) _ _ _ _ (D_Xz u) (D_W _) (D_MM _) (D_ZZ _) (sym_ZZ _) N) as C4.
    cbv beta in *. rewrite Eu in *. fold (Y u) in *.
    unfold is_gradient, Gd, Hd. cbn [vx vy vz m11 m12 m13 m21 m22 m23 m31 m32 m33].
    repeat split.
    - apply (D_scal 2). exact A1.
    - apply (D_scal 2). exact B1.
    - apply (D_scal 2). exact C1.
    - apply (D_scal 2). exact A2.
    - apply (D_scal 2). exact B2.
    - apply (D_scal 2). exact C2.
    - exact A4.
    - exact B4.
    - exact C4.
  Qed.

  Lemma near_det : mdet (MM 0) <> 0 -> exists r, 0 < r /\ forall c, Rabs (c - 0) < r -> mdet (MM c) <> 0.
  Proof.
    intro N. destruct (D_det MM 0 _ (D_MM 0)) as [d D].
    assert (CT : continuity_pt (fun c => mdet (MM c)) 0).
    { apply derivable_continuous_pt. exists d. exact D. }
    assert (P : Rabs (mdet (MM 0)) > 0) by (apply Rabs_pos_lt; exact N).
    destruct (CT _ P) as (r & R0 & H). exists r. split; [exact R0|]. intros c Hc E.
    destruct (Req_dec c 0) as [->|NE]; [contradiction|].
    specialize (H c). cbn in H. unfold R_dist in H.
    assert (A : Rabs (mdet (MM c) - mdet (MM 0)) < Rabs (mdet (MM 0))).
    { apply H. split; [split; [exact I|auto]|exact Hc]. }
    rewrite E in A. replace (0 - mdet (MM 0)) with (- mdet (MM 0)) in A by ring.
    rewrite Rabs_Ropp in A. lra.
  Qed.

  Lemma prod_gradient (f g : V3 -> R) a b u : is_gradient f a u -> is_gradient g b u ->
    is_gradient (fun q => f q * g q) (vadd (vscale (g u) a) (vscale (f u) b)) u.
  Proof.
    intros (A1 & A2 & A3) (B1 & B2 & B3).
    assert (Eu : mkV (vx u) (vy u) (vz u) = u) by (destruct u; reflexivity).
    unfold is_gradient. cbn [vadd vscale vx vy vz]. split; [|split].
    - eapply D_eq; [|apply (D_mult (fun k => f (mkV k (vy u) (vz u))) (fun k => g (mkV k (vy u) (vz u))) _ _ _ A1 B1)].
      cbv beta. rewrite Eu. ring.
    - eapply D_eq; [|apply (D_mult (fun k => f (mkV (vx u) k (vz u))) (fun k => g (mkV (vx u) k (vz u))) _ _ _ A2 B2)].
      cbv beta. rewrite Eu. ring.
    - eapply D_eq; [|apply (D_mult (fun k => f (mkV (vx u) (vy u) k)) (fun k => g (mkV (vx u) (vy u) k)) _ _ _ A3 B3)].
      cbv beta. rewrite Eu. ring.
  Qed.
  Lemma scal_gradient k (f : V3 -> R) a u : is_gradient f a u -> is_gradient (fun q => k * f q) (vscale k a) u.
  Proof.
    intros (A1 & A2 & A3). unfold is_gradient. cbn [vscale vx vy vz].
    split; [|split]; apply D_scal; assumption.
  Qed.
  Lemma gradient_eq (f : V3 -> R) a b u : a = b -> is_gradient f a u -> is_gradient f b u.
  Proof. intros <-. auto. Qed.

  Lemma hess_F : mdet (MM 0) <> 0 ->
    is_hessian F (mscale (- g_half p * F vzero)
       (msub (Hd vzero) (mscale (g_half p) (outer (Gd vzero) (Gd vzero))))) vzero.
  Proof.
    intro N. destruct (near_det N) as (r & R0 & HR).
    exists (fun u => vscale (- g_half p * F u) (Gd u)), r. split; [exact R0|]. split.
    { intros q (_ & _ & Q). apply grad_F. apply HR. exact Q. }
    pose proof (grad_F vzero N) as GF. destruct (hess_dist vzero N) as (H1 & H2 & H3).
    pose proof (scal_gradient (- g_half p) _ _ _ GF) as GF'.
    cbn [vscale vx vy vz].
    split; [|split].
    - eapply gradient_eq; [|apply (prod_gradient (fun u => - g_half p * F u) (fun u => vx (Gd u)) _ _ _ GF' H1)].
      generalize (Gd vzero) (Hd vzero) (F vzero). intros g h f. apply V3_eq; mcomp; ring.
    - eapply gradient_eq; [|apply (prod_gradient (fun u => - g_half p * F u) (fun u => vy (Gd u)) _ _ _ GF' H2)].
      generalize (Gd vzero) (Hd vzero) (F vzero). intros g h f. apply V3_eq; mcomp; ring.
    - eapply gradient_eq; [|apply (prod_gradient (fun u => - g_half p * F u) (fun u => vz (Gd u)) _ _ _ GF' H3)].
      generalize (Gd vzero) (Hd vzero) (F vzero). intros g h f. apply V3_eq; mcomp; ring.
  Qed.
End Pair.
