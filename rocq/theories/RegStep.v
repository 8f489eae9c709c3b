(** Proofs about the step length and the Newton iteration. *)
From Coq Require Import Reals ZArith List Bool Lra Lia Psatz.
From Verif Require Import Base LinAlg3 GeoModel GeoSpec GeoProofs OptModel RegModel RegSpec.
Import ListNotations.
Open Scope R_scope.

Lemma xgt_F a b : xgt (Fin a) (Fin b) = true <-> b < a.
Proof. cbn. destruct (Rlt_dec b a); split; intros; auto; try discriminate; contradiction. Qed.
Lemma xgt_F_false a b : xgt (Fin a) (Fin b) = false <-> a <= b.
Proof. cbn. destruct (Rlt_dec b a); split; intros; auto; try discriminate; lra. Qed.
Lemma xle_F a b : xle (Fin a) (Fin b) = true <-> a <= b.
Proof. cbn. destruct (Rlt_dec b a); cbn; split; intros; auto; try discriminate; lra. Qed.
Lemma xle_F_false a b : xle (Fin a) (Fin b) = false <-> b < a.
Proof. cbn. destruct (Rlt_dec b a); cbn; split; intros; auto; try discriminate; lra. Qed.
Lemma xdiv_F a b : b <> 0 -> xdiv (Fin a) (Fin b) = Fin (a / b).
Proof. intro H. cbn. destruct (Req_EM_T b 0); [contradiction|reflexivity]. Qed.
Lemma xdiv_00 a b : a = 0 -> b = 0 -> xdiv (Fin a) (Fin b) = NaN.
Proof.
  intros -> ->. cbn. destruct (Req_EM_T 0 0); [|contradiction]. unfold xinf.
  destruct (Rlt_dec 0 0); [lra|]. destruct (Rlt_dec 0 0); [lra|reflexivity].
Qed.
Lemma xsqrt_F a : 0 <= a -> xsqrt (Fin a) = Fin (sqrt a).
Proof. intro H. cbn. destruct (Rlt_dec a 0); [lra|reflexivity]. Qed.

Lemma xclamp v hi lo : xmax (xmin (Fin v) (Fin hi)) (Fin lo) = Fin (Rmax (Rmin v hi) lo).
Proof.
  unfold xmax, xmin, xlt. unfold xgt.
  destruct (Rlt_dec hi v).
  - rewrite Rmin_right by lra. destruct (Rlt_dec hi lo).
    + rewrite Rmax_right by lra. reflexivity.
    + rewrite Rmax_left by lra. reflexivity.
  - rewrite Rmin_left by lra. destruct (Rlt_dec v lo).
    + rewrite Rmax_right by lra. reflexivity.
    + rewrite Rmax_left by lra. reflexivity.
Qed.
Lemma xclamp_pinned v hi lo : hi <= lo -> xmax (xmin (Fin v) (Fin hi)) (Fin lo) = Fin lo.
Proof.
  intro H. rewrite xclamp. f_equal. apply Rmax_right. pose proof (Rmin_r v hi). lra.
Qed.
Lemma clamp_spec v hi lo : clamped lo hi v (Rmax (Rmin v hi) lo).
Proof.
  unfold clamped. unfold Rmax, Rmin. destruct (Rle_dec v hi); destruct (Rle_dec _ lo); try lra.
Qed.

(** the cubic's minimizer is a number when the left end is at 0 with value 0 and
    a negative slope, and the trial point lies right of it, higher or rising *)
Lemma cubic_fin gl t psi dpsi :
  gl < 0 -> 0 < t -> (0 < psi \/ 0 <= dpsi) ->
  exists c, cubicMin (mkE (Fin 0) (Fin 0) (Fin gl)) (mkE (Fin t) (Fin psi) (Fin dpsi)) = Fin c.
Proof.
  intros G T H. unfold cubicMin. cbn [e_a e_f e_g]. cbn [xsub xadd xopp xmul].
  rewrite (xdiv_F _ (t + - 0)) by lra. cbn [xsub xadd xopp xmul].
  set (z := 3 * (psi + - 0) / (t + - 0) + - dpsi + - gl).
  assert (N : 0 <= z * z + - (dpsi * gl) /\ 0 < dpsi + - gl + 2 * sqrt (z * z + - (dpsi * gl))).
  { destruct (Rle_lt_dec 0 dpsi) as [P|P].
    - assert (0 <= z * z + - (dpsi * gl)) by nra. split; [auto|].
      pose proof (sqrt_pos (z * z + - (dpsi * gl))). lra.
    - destruct H as [H|H]; [|lra].
      assert (Z : - dpsi + - gl < z).
      { unfold z. assert (0 < 3 * (psi + - 0) / (t + - 0)) by (apply Rdiv_lt_0_compat; lra). lra. }
      assert (W : (- dpsi) * (- dpsi) < z * z + - (dpsi * gl)) by nra.
      split; [nra|].
      assert (- dpsi < sqrt (z * z + - (dpsi * gl))).
      { rewrite <- (sqrt_square (- dpsi)) by lra. apply sqrt_lt_1; nra. }
      lra. }
  destruct N as [N1 N2]. rewrite xsqrt_F by exact N1. cbn [xsub xadd xopp xmul].
  rewrite xdiv_F by lra. cbn [xsub xadd xopp xmul]. eexists. reflexivity.
Qed.
Lemma quad_fin gl t psi dpsi : gl < 0 -> 0 < t -> 0 < psi ->
  exists c, quadMin (mkE (Fin 0) (Fin 0) (Fin gl)) (mkE (Fin t) (Fin psi) (Fin dpsi)) = Fin c.
Proof.
  intros G T H. unfold quadMin. cbn [e_a e_f e_g]. cbn [xsub xadd xopp xmul].
  rewrite (xdiv_F _ (0 + - t)) by lra. cbn [xsub xadd xopp xmul].
  rewrite xdiv_F.
  2:{ assert (0 < (0 + - psi) / (0 + - t)); [|lra].
      replace ((0 + - psi) / (0 + - t)) with (psi / t) by (field; lra). apply Rdiv_lt_0_compat; lra. }
  cbn [xsub xadd xopp xmul]. eexists. reflexivity.
Qed.
Lemma secant_fin gl t psi dpsi : dpsi <> gl ->
  exists c, secantMin (mkE (Fin 0) (Fin 0) (Fin gl)) (mkE (Fin t) (Fin psi) (Fin dpsi)) = Fin c.
Proof.
  intros H. unfold secantMin. cbn [e_a e_f e_g]. cbn [xsub xadd xopp xmul].
  rewrite xdiv_F by lra. cbn [xsub xadd xopp xmul]. eexists. reflexivity.
Qed.

Section Pinned.
  Variable sc : V3 -> sad.
  Variables x dir : V3.
  Variables smax t phi0 d : R.
  Hypothesis T : 0 < t.
  Hypothesis M : smax <= t.
  Hypothesis Dn : d < 0.
  Let s := sc (vadd x (vscale t dir)).
  Let phi := - sd_val s.
  Let dphi := - vdot (sd_grad s) dir.
  Let psi := phi + - phi0 + - (/ 10000 * d * t).
  Let dpsi := dphi + - (/ 10000 * d).
  Let gl := d + - (/ 10000 * d).

  Definition at_t (m : mtst) : Prop := mt_a m = Fin t /\ mt_phi m = Fin phi /\ mt_dphi m = Fin dphi /\
    mt_psi m = Fin psi /\ mt_dpsi m = Fin dpsi.
  Definition invA (m : mtst) : Prop := at_t m /\ mt_open m = true /\ mt_l m = mkE (Fin 0) (Fin 0) (Fin gl).
  Definition invB (m : mtst) : Prop := at_t m /\ mt_open m = false /\ 0 < dphi /\
    mt_l m = mkE (Fin t) (Fin phi) (Fin dphi) /\ mt_u m = mkE (Fin 0) (Fin phi0) (Fin d).
  Definition invC (m : mtst) : Prop := at_t m /\ mt_conv m = true.

  Lemma round_eq m a0 :
    (if mt_open m
     then trialValueSelectionMT (mt_l m) (mt_u m) (mkE (mt_a m) (mt_psi m) (mt_dpsi m))
     else trialValueSelectionMT (mt_l m) (mt_u m) (mkE (mt_a m) (mt_phi m) (mt_dphi m))) = Fin a0 ->
    mtRound sc x dir (Fin smax) (Fin t) (Fin phi0) (Fin d) m =
    (let close := mt_open m && (xle (Fin psi) (Fin 0) && xle (Fin 0) (Fin dpsi)) in
     let toPhi (e : endpt) := mkE (e_a e) (xsub (xadd (e_f e) (Fin phi0)) (xmul (xmul mtMu (Fin d)) (e_a e)))
                               (xadd (e_g e) (xmul mtMu (Fin d))) in
     let l := if close then toPhi (mt_l m) else mt_l m in
     let u := if close then toPhi (mt_u m) else mt_u m in
     let open := mt_open m && negb close in
     let '(l', u', conv) :=
       if open then updateIntervalMT l u (mkE (Fin t) (Fin psi) (Fin dpsi))
       else updateIntervalMT l u (mkE (Fin t) (Fin phi) (Fin dphi)) in
     mkMT l' u' (Fin t) (Fin phi) (Fin dphi) (Fin psi) (Fin dpsi) conv open).
  Proof.
    intro E. unfold mtRound. rewrite E. rewrite xclamp_pinned by exact M. reflexivity.
  Qed.

  Lemma psi_phi : psi <= 0 -> phi < phi0.
  Proof. unfold psi. intro H. nra. Qed.

  Lemma stepA m : invA m -> mtGoOn (Fin d) m = true ->
    let m' := mtRound sc x dir (Fin smax) (Fin t) (Fin phi0) (Fin d) m in invA m' \/ invB m'.
  Proof.
    intros ((Ha & Hphi & Hdphi & Hpsi & Hdpsi) & Ho & Hl) G.
    assert (GL : gl < 0) by (unfold gl; lra).
    unfold mtGoOn in G. rewrite Hpsi, Hdphi in G. apply andb_true_iff in G. destruct G as [_ G].
    apply negb_true_iff in G.
    destruct (Rlt_dec 0 psi) as [P|P].
    - left.
      destruct (cubic_fin gl t psi dpsi GL T (or_introl P)) as (c & C).
      destruct (quad_fin gl t psi dpsi GL T P) as (q & Q).
      assert (exists a0, trialValueSelectionMT (mt_l m) (mt_u m) (mkE (Fin t) (Fin psi) (Fin dpsi)) = Fin a0) as (a0 & A).
      { unfold trialValueSelectionMT. rewrite Hl. cbn [e_a e_f e_g].
        rewrite (proj2 (xgt_F psi 0) P). rewrite C, Q. cbn [xsub xadd xopp xabs xmul].
        destruct (xlt _ _); eexists; reflexivity. }
      cbv zeta. rewrite (round_eq m a0); [|rewrite Ho, Ha, Hpsi, Hdpsi; exact A].
      rewrite Ho. rewrite (proj2 (xle_F_false psi 0) P). cbn [andb negb]. cbv zeta.
      unfold updateIntervalMT. rewrite Hl. cbn [e_a e_f e_g]. rewrite (proj2 (xgt_F psi 0) P).
      unfold invA, at_t. cbn. auto 10.
    - right.
      assert (P' : psi <= 0) by lra. pose proof (psi_phi P') as PH.
      rewrite (proj2 (xle_F psi 0) P') in G. cbn [andb] in G.
      cbn [xmul] in G. rewrite xle_F_false in G.
      assert (DP : 0 < dphi). { unfold mtNu in G. lra. }
      assert (DPS : 0 < dpsi). { unfold dpsi. lra. }
      destruct (cubic_fin gl t psi dpsi GL T (or_intror (Rlt_le _ _ DPS))) as (c & C).
      destruct (secant_fin gl t psi dpsi) as (q & Q); [lra|].
      assert (exists a0, trialValueSelectionMT (mt_l m) (mt_u m) (mkE (Fin t) (Fin psi) (Fin dpsi)) = Fin a0) as (a0 & A).
      { unfold trialValueSelectionMT. rewrite Hl. cbn [e_a e_f e_g].
        rewrite (proj2 (xgt_F_false psi 0) P').
        assert (X : xlt (xmul (Fin dpsi) (Fin gl)) (Fin 0) = true).
        { unfold xlt. cbn [xmul]. rewrite xgt_F. nra. }
        rewrite X, C, Q. destruct (xle _ _); eexists; reflexivity. }
      cbv zeta. rewrite (round_eq m a0); [|rewrite Ho, Ha, Hpsi, Hdpsi; exact A].
      rewrite Ho. rewrite (proj2 (xle_F psi 0) P'). rewrite (proj2 (xle_F 0 dpsi)) by lra.
      cbn [andb negb]. cbv zeta. unfold updateIntervalMT. rewrite Hl. cbn [e_a e_f e_g].
      unfold mtMu. cbn [xsub xadd xopp xmul].
      rewrite (proj2 (xgt_F_false phi (0 + phi0 + - (/ 10000 * d * 0)))) by lra.
      rewrite (proj2 (xgt_F_false (dphi * (0 + - t)) 0)) by nra.
      assert (X : xlt (Fin (dphi * (0 + - t))) (Fin 0) = true).
      { unfold xlt. rewrite xgt_F. nra. }
      rewrite X. unfold invB, at_t. cbn [mt_a mt_phi mt_dphi mt_psi mt_dpsi mt_open mt_l mt_u].
      repeat (split; [solve [auto]|]). f_equal; f_equal; unfold gl; ring.
  Qed.

  Lemma stepB m : invB m -> invC (mtRound sc x dir (Fin smax) (Fin t) (Fin phi0) (Fin d) m).
  Proof.
    intros ((Ha & Hphi & Hdphi & Hpsi & Hdpsi) & Ho & DP & Hl & Hu).
    assert (A : exists a0, trialValueSelectionMT (mt_l m) (mt_u m) (mkE (Fin t) (Fin phi) (Fin dphi)) = Fin a0).
    { unfold trialValueSelectionMT. rewrite Hl, Hu. cbn [e_a e_f e_g].
      rewrite (proj2 (xgt_F_false phi phi)) by lra.
      assert (X : xlt (xmul (Fin dphi) (Fin dphi)) (Fin 0) = false).
      { unfold xlt. cbn [xmul]. rewrite xgt_F_false. nra. }
      rewrite X. cbn [xabs]. rewrite (proj2 (xle_F (Rabs dphi) (Rabs dphi))) by lra.
      assert (C : cubicMin (mkE (Fin t) (Fin phi) (Fin dphi)) (mkE (Fin t) (Fin phi) (Fin dphi)) = NaN).
      { unfold cubicMin. cbn [e_a e_f e_g]. cbn [xsub xadd xopp xmul].
        rewrite xdiv_00 by ring. reflexivity. }
      assert (Q : secantMin (mkE (Fin t) (Fin phi) (Fin dphi)) (mkE (Fin t) (Fin phi) (Fin dphi)) = NaN).
      { unfold secantMin. cbn [e_a e_f e_g]. cbn [xsub xadd xopp xmul].
        rewrite xdiv_00 by ring. reflexivity. }
      rewrite C, Q. cbn [xsub xadd xopp xmul xabs xlt xgt].
      destruct (Rlt_dec t t); [lra|]. unfold xmax. cbn [xlt xgt]. eexists. reflexivity. }
    destruct A as (a0 & A).
    rewrite (round_eq m a0); [|rewrite Ho, Ha, Hphi, Hdphi; exact A].
    rewrite Ho. cbn [andb]. cbv zeta. unfold updateIntervalMT. rewrite Hl, Hu. cbn [e_a e_f e_g].
    cbn [xsub xadd xopp xmul].
    rewrite (proj2 (xgt_F_false phi phi)) by lra.
    rewrite (proj2 (xgt_F_false (dphi * (t + - t)) 0)) by lra.
    assert (X : xlt (Fin (dphi * (t + - t))) (Fin 0) = false).
    { unfold xlt. rewrite xgt_F_false. lra. }
    rewrite X. unfold invC, at_t. cbn. auto 10.
  Qed.

  Lemma loop_pinned k m : invA m \/ invB m \/ invC m ->
    mt_a (mtLoop k sc x dir (Fin smax) (Fin t) (Fin phi0) (Fin d) m) = Fin t.
  Proof.
    revert m. induction k as [|k IH]; intros m H; cbn [mtLoop].
    - destruct H as [H|[H|H]]; apply H.
    - destruct (mtGoOn (Fin d) m) eqn:G; [|destruct H as [H|[H|H]]; apply H].
      apply IH. destruct H as [H|[H|H]].
      + destruct (stepA m H G); auto.
      + right; right. apply stepB. auto.
      + exfalso. unfold mtGoOn in G. destruct H as [_ C]. rewrite C in G. discriminate G.
  Qed.
End Pinned.

(** The step length is the Newton length clamped, along a direction that does not
    lead downhill. *)
Theorem step_length sc x dir init smax smin score :
  0 < smin ->
  (vdot (sd_grad score) dir = 0 -> computeStepLengthMT sc x dir init smax smin score = (dir, Fin 0)) /\
  (vdot (sd_grad score) dir <> 0 ->
     computeStepLengthMT sc x dir init smax smin score =
       (if Rlt_dec 0 (vdot (sd_grad score) dir) then dir else vscale (-1) dir,
        Fin (Rmax (Rmin init smax) smin))).
Proof.
  intro Hmin. unfold computeStepLengthMT. cbv zeta. set (g := vdot (sd_grad score) dir).
  destruct (Req_EM_T (- g) 0) as [Z|Z].
  - split; [reflexivity|intro N; lra].
  - split; [intro N; lra|]. intros _.
    rewrite !xclamp.
    set (rev := if Rle_dec 0 (- g) then true else false).
    set (d := if rev then - g * -1 else - g).
    set (dr := if rev then vscale (-1) dir else dir).
    assert (D : d < 0). { unfold d, rev. destruct (Rle_dec 0 (- g)); lra. }
    assert (E : dr = if Rlt_dec 0 g then dir else vscale (-1) dir).
    { unfold dr, rev. destruct (Rle_dec 0 (- g)), (Rlt_dec 0 g); auto; lra. }
    rewrite <- E. clearbody d dr. clear E rev. f_equal.
    destruct (Rlt_dec 0 (smax - smin)) as [L|L].
    + cbn [mtLoop mtGoOn mt_conv negb andb]. reflexivity.
    + replace (Rmax (Rmin init smax) smin) with smin.
      2:{ symmetry. apply Rmax_right. pose proof (Rmin_r init smax). lra. }
      apply loop_pinned; [exact Hmin|lra|exact D|]. left.
      unfold invA, at_t. cbn [mt_a mt_phi mt_dphi mt_psi mt_dpsi mt_open mt_l].
      repeat (split; [first [reflexivity | solve [repeat split]]|]).
      unfold psiMT, dPsiMT, mtMu. cbn [xsub xadd xopp xmul]. f_equal; f_equal; ring.
Qed.
Theorem step_length_spec sc x dir init smax smin score : 0 < smin ->
  (vdot (sd_grad score) dir = 0 -> computeStepLengthMT sc x dir init smax smin score = (dir, Fin 0)) /\
  (vdot (sd_grad score) dir <> 0 ->
     exists dir' a, computeStepLengthMT sc x dir init smax smin score = (dir', Fin a) /\
       clamped smin smax init a /\
       (dir' = dir \/ dir' = vscale (-1) dir) /\ 0 < vdot (sd_grad score) dir').
Proof.
  intro H. destruct (step_length sc x dir init smax smin score H) as (A & B). split; [exact A|].
  intro N. rewrite (B N). eexists _, _. split; [reflexivity|]. split; [apply clamp_spec|].
  destruct (Rlt_dec 0 _) as [L|L]; [auto|]. split; [auto|].
  replace (vdot (sd_grad score) (vscale (-1) dir)) with (- vdot (sd_grad score) dir) by (mcomp; ring). lra.
Qed.
