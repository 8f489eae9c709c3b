(** Concrete cells: witnesses for the refuted parts and for the examples. *)
From Coq Require Import Reals Lra Psatz List ZArith Bool Lia.
From Verif Require Import Base LinAlg3 CellModel CellSpec CellProofs.
Import ListNotations.
Open Scope R_scope.

Section E.
Variable eig : M3 -> M3 * V3.
Hypothesis EIG : eigen_solver eig.

(** ** The conditioned form of diagonal matrices *)
Lemma eigenvalue_diag a b c l : eigenvalue (mdiag a b c) l <-> l = a \/ l = b \/ l = c.
Proof.
  pose proof (spec_eigenvalue mid a b c l orth_id) as H.
  assert (E : mmul (mmul mid (mdiag a b c)) (mtr mid) = mdiag a b c) by mring.
  rewrite E in H. exact H.
Qed.
Lemma diag_unique n a b c : mvmul n (mkV 1 0 0) = mkV a 0 0 -> mvmul n (mkV 0 1 0) = mkV 0 b 0 ->
  mvmul n (mkV 0 0 1) = mkV 0 0 c -> n = mdiag a b c.
Proof.
  destruct n. munfold. intros A B C. injection A as A1 A2 A3. injection B as B1 B2 B3. injection C as C1 C2 C3.
  f_equal; lra.
Qed.
Lemma floor_diag a b : 0 < b <= a -> floor_cov eig (mdiag a b b) = mdiag a (Rmax b (1/100 * a)) (Rmax b (1/100 * a)).
Proof.
  intros H. assert (P : posdef (mdiag a b b)) by (apply posdef_diag; lra).
  destruct (floor_conditioned eig EIG _ P) as (t & ET & MT & V).
  assert (T : t = a).
  { assert (a <= t) by (apply MT, eigenvalue_diag; auto). apply eigenvalue_diag in ET. lra. }
  subst t. apply diag_unique.
  - rewrite (V _ a); [|mring]. rewrite Rmax_left by lra. mring.
  - rewrite (V _ b); [|mring]. mring.
  - rewrite (V _ b); [|mring]. mring.
Qed.
Lemma floor_multiple k : 0 < k -> floor_cov eig (mscale k mid) = mscale k mid.
Proof.
  intro H. replace (mscale k mid) with (mdiag k k k) by mring. rewrite floor_diag by lra.
  rewrite Rmax_left by lra. reflexivity.
Qed.
Lemma floor_plain a b : 0 < b <= a -> 1/100 * a <= b -> floor_cov eig (mdiag a b b) = mdiag a b b.
Proof. intros H K. rewrite floor_diag by lra. rewrite Rmax_left by lra. reflexivity. Qed.
Lemma floor_raised a b : 0 < b <= a -> b <= 1/100 * a -> floor_cov eig (mdiag a b b) = mdiag a (1/100*a) (1/100*a).
Proof. intros H K. rewrite floor_diag by lra. rewrite Rmax_right by lra. reflexivity. Qed.

(** ** n equal points *)
Lemma sumV_repeat p n : sumV (repeat p n) = vscale (INR n) p.
Proof.
  induction n; cbn [repeat sumV]; [cbn; mring|]. rewrite IHn, S_INR. mring.
Qed.
Lemma mean_repeat p n : (0 < n)%nat -> mean_of (repeat p n) = p.
Proof.
  intro H. unfold mean_of. rewrite sumV_repeat, repeat_length, vscale_vscale, Rinv_l, vscale_1; [auto|].
  apply not_0_INR. lia.
Qed.
Lemma scatter_repeat p n : (0 < n)%nat -> scatter (repeat p n) = mzero.
Proof.
  intro H. unfold scatter. rewrite mean_repeat by auto. induction n as [|n IH]; [lia|].
  cbn [repeat map sumM]. destruct n as [|n].
  - cbn. mring.
  - rewrite IH by lia. mring.
Qed.
Lemma cell_repeat p n : (6 <= n)%nat ->
  computeGaussian eig (addPoints cell_new (repeat p n)) =
  let m := mscale ((INR n - 1) / (INR n * INR n)) mid in
  mkCell p m (inverse m) (Some 1) (Z.of_nat n) true (mkV 1 0 0) [].
Proof.
  intro H. rewrite addPoints_form. cbn [cell_new c_mean c_cov c_icov c_occ c_points c_gauss c_cent c_pts app].
  rewrite compute_first; [|cbn; lra|cbn [c_pts]; rewrite repeat_length; auto|reflexivity].
  cbn [c_mean c_cov c_icov c_occ c_points c_gauss c_cent c_pts option_map].
  rewrite repeat_length, mean_repeat by lia.
  rewrite batch_cov_spec by (destruct n; [lia|discriminate]).
  rewrite scatter_repeat, repeat_length, madd_0_r by lia.
  rewrite floor_multiple; [reflexivity|]. apply le_INR in H. cbn in H.
  apply Rdiv_lt_0_compat; [lra|]. apply Rmult_lt_0_compat; lra.
Qed.

Definition many (p : V3) (n : nat) : cell := computeGaussian eig (addPoints cell_new (repeat p n)).
Lemma reach_addPoints B l : forall c, reach eig B c -> reach eig B (addPoints c l).
Proof. induction l as [|p t IH]; intros c H; cbn; [auto|]. apply IH. constructor. auto. Qed.
Lemma reach_many B p n : (Z.of_nat n <= MAX_POINTS)%Z -> reach eig B (many p n).
Proof.
  intro H. unfold many. apply reach_compute; [apply reach_addPoints, reach_new|].
  rewrite addPoints_form. cbn [c_pts cell_new app]. rewrite repeat_length. exact H.
Qed.
Lemma many_six p : many p 6 =
  mkCell p (mscale (5/36) mid) (inverse (mscale (5/36) mid)) (Some 1) 6 true (mkV 1 0 0) [].
Proof.
  unfold many. rewrite cell_repeat by lia.
  assert (E : (INR 6 - 1) / (INR 6 * INR 6) = 5/36) by (cbn [INR]; field). cbv zeta. rewrite E. reflexivity.
Qed.
Lemma reach_six B p : reach eig B (many p 6).
Proof. apply reach_many. unfold MAX_POINTS. lia. Qed.

(** ** C16: not-a-number *)
Lemma nan_occupancy j : c_occ (updateOccupancy (many vzero 6) (mkV 5 5 0) (mkV 5 5 0) j 1) = None.
Proof.
  rewrite many_six. unfold updateOccupancy. cbn [c_gauss negb].
  assert (at_end (mkCell vzero (mscale (5/36) mid) (inverse (mscale (5/36) mid)) (Some 1) 6 true (mkV 1 0 0) [])
            (mkV 5 5 0) = false) as ->.
  { unfold at_end, l1. cbn [c_mean]. munfold. destruct (Rlt_dec _ _) as [L|]; [|reflexivity].
    replace (0 - 5) with (-5) in L by ring. replace (0 - 0) with 0 in L by ring.
    rewrite Rabs_R0, !(Rabs_left (-5)) in L; lra. }
  unfold beamLogOdd. cbn [c_icov]. unfold inverse. destruct (Req_EM_T _ 0); [reflexivity|].
  assert (Z : vnorm (vsub (mkV 5 5 0) (mkV 5 5 0)) = 0).
  { unfold vnorm. replace (vdot _ _) with 0 by mring. apply sqrt_0. }
  destruct (Req_EM_T (vnorm _) 0); [|congruence]. reflexivity.
Qed.
Lemma negative_percentage s e j : exists x, c_occ (updateOccupancy cell_new s e j 1) = Some x /\ getOccupancy x = (-20)%Z.
Proof.
  unfold updateOccupancy. cbn [cell_new c_gauss negb c_occ addOcc option_map set_occ].
  assert (E : clampOcc (0 + NO_GAUSS_OCC * 1) = -2/10).
  { rewrite clampOcc_mid; unfold NO_GAUSS_OCC; lra. }
  rewrite E. exists (-2/10). split.
  - destruct (occ_le0 _); reflexivity.
  - unfold getOccupancy, MAX_OCC, MIN_OCC. destruct (Rle_dec 1 (-2/10)); [lra|]. destruct (Rlt_dec (-2/10) (-1)); [lra|].
    destruct (base_Int_part (-2/10*100)) as [A B].
    assert (Int_part (-2/10*100) <= -20)%Z by (apply le_IZR; lra).
    assert (-21 < Int_part (-2/10*100))%Z by (apply lt_IZR; lra). lia.
Qed.

(** ** C18: grouping matters *)
Lemma six_reach p q : let a := many p 6 in let b := many q 6 in
  merge eig a b = rescaleCovar eig
    (mkCell (pool_mean 6 p 6 q) (pool_cov 6 p (mscale (5/36) mid) 6 q (mscale (5/36) mid))
       (inverse (mscale (5/36) mid)) (addOcc (Some 1) (6 * LOG_LIKE)) 12 true (mkV 1 0 0) []).
Proof.
  cbv zeta. rewrite (merge_gauss eig anyBeam _ _ (reach_CI eig EIG _ _ (reach_six anyBeam p))
    (reach_CI eig EIG _ _ (reach_six anyBeam q))); [|rewrite many_six; reflexivity|rewrite many_six; reflexivity].
  rewrite !many_six. cbn [c_mean c_cov c_icov c_occ c_points c_gauss c_cent c_pts].
  replace (Z.min MAX_POINTS (6 + 6)) with 12%Z by reflexivity. reflexivity.
Qed.
Lemma merge_six_x x y : merge eig (many (mkV x 0 0) 6) (many (mkV y 0 0) 6) = rescaleCovar eig
    (mkCell (mkV ((x + y)/2) 0 0) (mdiag ((50/36 + 3 * (x - y) * (x - y))/11) (50/36/11) (50/36/11))
       (inverse (mscale (5/36) mid)) (addOcc (Some 1) (6 * LOG_LIKE)) 12 true (mkV 1 0 0) []).
Proof.
  rewrite six_reach. f_equal. f_equal.
  - unfold pool_mean. apply V3_eq; mcomp; field.
  - unfold pool_cov. apply M3_eq; mcomp; field.
Qed.
Lemma grouping_matters :
  let a := many vzero 6 in let b := many (mkV 20 0 0) 6 in let c := many (mkV 10 0 0) 6 in
  c_cov (merge eig (merge eig a b) c) <> c_cov (merge eig a (merge eig b c)).
Proof.
  cbv zeta. change vzero with (mkV 0 0 0).
  assert (RA : reach eig anyBeam (many (mkV 0 0 0) 6)) by apply reach_six.
  assert (RB : reach eig anyBeam (many (mkV 20 0 0) 6)) by apply reach_six.
  assert (RC : reach eig anyBeam (many (mkV 10 0 0) 6)) by apply reach_six.
  assert (G : forall p, c_gauss (many p 6) = true) by (intro; rewrite many_six; reflexivity).
  rewrite (merge_gauss eig anyBeam (merge eig _ _) (many (mkV 10 0 0) 6)); [|apply (reach_CI eig EIG); constructor; auto|apply (reach_CI eig EIG); auto|
    rewrite merge_six_x; reflexivity|apply G].
  rewrite (merge_gauss eig anyBeam (many (mkV 0 0 0) 6) (merge eig _ _)); [|apply (reach_CI eig EIG); auto|apply (reach_CI eig EIG); constructor; auto|
    apply G|rewrite merge_six_x; reflexivity].
  rewrite !merge_six_x. rewrite !many_six.
  cbn [rescaleCovar c_mean c_cov c_icov c_occ c_points c_gauss c_cent c_pts].
  rewrite !floor_raised by lra.
  match goal with |- floor_cov eig ?A <> floor_cov eig ?C =>
    assert (EA : A = mdiag ((50/36 + 1200 + 25/36)/17) ((11/100 * ((50/36 + 1200)/11) + 25/36)/17) ((11/100 * ((50/36 + 1200)/11) + 25/36)/17));
    [unfold pool_cov; apply M3_eq; mcomp; field|
    assert (EC : C = mdiag ((50/36 + 1200 + 25/36)/17) ((11/100 * ((50/36 + 300)/11) + 25/36)/17) ((11/100 * ((50/36 + 300)/11) + 25/36)/17));
    [unfold pool_cov; apply M3_eq; mcomp; field|]] end.
  rewrite EA, EC. rewrite floor_plain by lra. rewrite floor_raised by lra.
  intro X. apply (f_equal m22) in X. cbn [m22 mdiag] in X. lra.
Qed.

(** ** C19: the counter can fall *)
Lemma sure_beam p n : (6 <= n)%nat -> exists k, (0 <= k)%Z /\
  c_gauss (updateOccupancy (many p n) (vadd p (mkV 1 0 0)) (vadd p (mkV (-1) 0 0)) vzero k) = false /\
  c_points (updateOccupancy (many p n) (vadd p (mkV 1 0 0)) (vadd p (mkV (-1) 0 0)) vzero k) = Z.of_nat n.
Proof.
  intro H. unfold many. rewrite cell_repeat by auto. cbv zeta.
  set (kk := (INR n - 1) / (INR n * INR n)). assert (KK : 0 < kk).
  { apply le_INR in H. cbn in H. apply Rdiv_lt_0_compat; [lra|]. apply Rmult_lt_0_compat; lra. }
  set (c := mkCell _ _ _ _ _ _ _ _).
  assert (E : exists x, beamLogOdd c (vadd p (mkV 1 0 0)) (vadd p (mkV (-1) 0 0)) vzero = Some x /\ x < 0).
  { unfold beamLogOdd, c. cbn [c_icov]. rewrite (inverse_pd eig EIG) by (apply posdef_scale; [auto|apply posdef_id]).
    assert (NV : vnorm (vsub (vadd p (mkV (-1) 0 0)) (vadd p (mkV 1 0 0))) = 2).
    { unfold vnorm. replace (vdot _ _) with (2*2) by (destruct p; munfold; ring). apply sqrt_square. lra. }
    rewrite NV. destruct (Req_EM_T 2 0); [lra|].
    assert (IV : minv (mscale kk mid) = mscale (/kk) mid).
    { unfold minv. apply M3_eq; mcomp; field; lra. }
    assert (ML : maxLikOnLine p (minv (mscale kk mid)) (vadd p (mkV 1 0 0)) (vadd p (mkV (-1) 0 0)) vzero = (p, 1)).
    { unfold maxLikOnLine. rewrite NV, IV.
      assert (L : vscale (/2) (vsub (vadd p (mkV (-1) 0 0)) (vadd p (mkV 1 0 0))) = mkV (-1) 0 0).
      { apply V3_eq; mcomp; field. }
      rewrite L.
      assert (S : vdot (mvmul (mscale (/kk) mid) (mkV (-1) 0 0)) (mkV (-1) 0 0) = /kk) by mring.
      rewrite S. destruct (Req_EM_T (/kk) 0) as [Z|NZ]; [apply Rinv_neq_0_compat in Z; lra|].
      assert (T : - vdot (mvmul (mscale (/ kk) mid) (mkV (-1) 0 0)) (vsub (vadd p (mkV (-1) 0 0)) p) / / kk = -1).
      { destruct p as [px py pz]. munfold. field. lra. }
      rewrite T.
      assert (PT : vadd (vscale (-1) (mkV (-1) 0 0)) (vadd p (mkV (-1) 0 0)) = p) by (apply V3_eq; mcomp; ring).
      rewrite PT. f_equal. replace (- vdot _ _ / 2) with 0 by (destruct p; munfold; field; lra). apply exp_0. }
    cbn [c_mean]. rewrite ML. eexists. split; [reflexivity|].
    set (d := vnorm (vsub p (vadd p (mkV (-1) 0 0)))).
    assert (D : d = 1).
    { unfold d, vnorm. replace (vdot _ _) with (1*1) by (destruct p; munfold; ring). apply sqrt_square. lra. }
    rewrite D. set (th := exp _).
    assert (TH : 0 < th < 1).
    { unfold th. split; [apply exp_pos|]. apply Rlt_le_trans with (exp 0); [|rewrite exp_0; lra].
      apply exp_increasing. unfold SENSOR_NOISE. lra. }
    set (l2 := 1/10 * (1 * (1 - th)) + 1/2). assert (L2 : 1/2 < l2 < 1) by (unfold l2; lra).
    rewrite <- ln_1. apply ln_increasing; [apply Rdiv_lt_0_compat; lra|].
    apply Rmult_lt_reg_r with l2; [lra|]. unfold Rdiv. rewrite Rmult_assoc, Rinv_l; lra. }
  destruct E as (x & BX & NX).
  destruct (archimed (2 / (- x))) as [AR _]. set (k := up (2 / (-x))) in *.
  assert (KP : 0 < IZR k) by (apply Rlt_trans with (2 / -x); [apply Rdiv_lt_0_compat; lra|lra]).
  assert (KX : IZR k * x < -2).
  { assert (Y : 2 < IZR k * (-x)); [|lra]. apply Rmult_lt_reg_r with (/ (-x)); [apply Rinv_0_lt_compat; lra|].
    rewrite Rmult_assoc, Rinv_r by lra. unfold Rdiv in AR. lra. }
  exists k. split; [apply le_IZR; lra|].
  assert (U : updateOccupancy c (vadd p (mkV 1 0 0)) (vadd p (mkV (-1) 0 0)) vzero k = set_gauss (set_occ c (Some (-1))) false).
  { unfold updateOccupancy. unfold c at 1. cbn [c_gauss negb].
    assert (at_end c (vadd p (mkV (-1) 0 0)) = false) as ->.
    { unfold at_end, l1, c. cbn [c_mean]. destruct p as [px py pz]. munfold.
      replace (px - (px + -1)) with 1 by ring. replace (py - (py + 0)) with 0 by ring. replace (pz - (pz + 0)) with 0 by ring.
      rewrite Rabs_R0, Rabs_R1. destruct (Rlt_dec _ _); [lra|reflexivity]. }
    rewrite BX. change (c_occ c) with (Some 1). cbn [addOcc option_map].
    assert (CL : clampOcc (1 + IZR k * x) = -1).
    { unfold clampOcc, MAX_OCC, MIN_OCC. destruct (Rlt_dec 1 _); [lra|]. destruct (Rlt_dec _ (-1)); lra. }
    rewrite CL. cbn [occ_le0]. destruct (Rle_dec (-1) 0); [reflexivity|lra]. }
  rewrite U. split; reflexivity.
Qed.
Lemma counter_falls : exists a b, reach eig properBeam a /\ reach eig properBeam b /\
  c_points a = 7%Z /\ c_points (merge eig a b) = 6%Z.
Proof.
  destruct (sure_beam vzero 7) as (k & K0 & G & P); [lia|].
  exists (updateOccupancy (many vzero 7) (vadd vzero (mkV 1 0 0)) (vadd vzero (mkV (-1) 0 0)) vzero k), (many vzero 6).
  split.
  { apply reach_beam; [apply reach_many; unfold MAX_POINTS; lia|auto|]. unfold properBeam. intro X.
    apply (f_equal vx) in X. munfold. lra. }
  split; [apply reach_six|]. split; [exact P|].
  unfold merge. rewrite many_six. cbn [c_points c_gauss negb]. rewrite G. reflexivity.
Qed.

(** ** C20: the scale is not that of the sample covariance *)
Definition cross : list V3 :=
  [mkV 1 0 0; mkV (-1) 0 0; mkV 0 1 0; mkV 0 (-1) 0; mkV 0 0 1; mkV 0 0 (-1)].
Lemma cross_mean : mean_of cross = vzero.
Proof. unfold mean_of, cross. cbn [sumV length]. apply V3_eq; mcomp; ring. Qed.
Lemma cross_scatter : scatter cross = mscale 2 mid.
Proof. unfold scatter. rewrite cross_mean. unfold cross. cbn [map sumM]. apply M3_eq; mcomp; ring. Qed.
Lemma cross_cov : sample_cov cross = mscale (2/5) mid /\
  c_cov (computeGaussian eig (addPoints cell_new cross)) = mscale (5/12) mid.
Proof.
  split.
  - unfold sample_cov. rewrite cross_scatter, mscale_mscale. f_equal. cbn [length cross INR]. field.
  - rewrite addPoints_form. cbn [cell_new c_mean c_cov c_icov c_occ c_points c_gauss c_cent c_pts app].
    rewrite compute_first; [|cbn; lra|cbn; lia|reflexivity].
    cbn [c_mean c_cov c_icov c_occ c_points c_gauss c_cent c_pts option_map].
    rewrite batch_cov_spec by (unfold cross; discriminate). rewrite cross_scatter.
    assert (E : mscale ((INR (length cross) - 1) / (INR (length cross) * INR (length cross))) (madd mid (mscale 2 mid)) =
                mscale (5/12) mid).
    { cbn [length cross INR]. apply M3_eq; mcomp; field. }
    rewrite E. apply floor_multiple. lra.
Qed.
Lemma scale_wrong : wellcond (sample_cov cross) /\ posdef (sample_cov cross) /\
  c_cov (computeGaussian eig (addPoints cell_new cross)) <> sample_cov cross.
Proof.
  destruct cross_cov as [A B]. rewrite A, B. split; [|split].
  - replace (mscale (2/5) mid) with (mdiag (2/5) (2/5) (2/5)) by mring.
    intros l k HL HK. apply eigenvalue_diag in HL. apply eigenvalue_diag in HK. lra.
  - apply posdef_scale; [lra|apply posdef_id].
  - intro X. apply (f_equal m11) in X. munfold. lra.
Qed.

Lemma collect_cons c l ls : collect eig c (l :: ls) = collect eig (computeGaussian eig (addPoints c l)) ls.
Proof. reflexivity. Qed.
(** ** C21: six points, then three *)
Lemma collect_nil c : collect eig c [] = c.
Proof. reflexivity. Qed.
Lemma lost_generic c q : c_pts c = [] -> c_gauss (collect eig c [repeat q 3]) = false.
Proof.
  intro H. rewrite collect_cons, collect_nil. apply cell_few. rewrite addPoints_form. cbn [c_pts]. rewrite H. cbn. lia.
Qed.
Lemma many_pts p n : (6 <= n)%nat -> c_pts (computeGaussian eig (addPoints cell_new (repeat p n))) = [].
Proof. intro H. rewrite (cell_repeat p n H). reflexivity. Qed.
Lemma three_more_lost p q : c_gauss (collect eig cell_new [repeat p 6; repeat q 3]) = false /\
  c_gauss (computeGaussian eig (addPoints cell_new (repeat p 6 ++ repeat q 3))) = true.
Proof.
  split.
  - rewrite collect_cons. apply lost_generic. apply many_pts. lia.
  - apply (cell_fresh eig EIG). rewrite app_length, !repeat_length. lia.
Qed.

(** ** The witnesses in the form of the property file *)
Lemma grouping_witness : exists a b c,
  reach eig properBeam a /\ reach eig properBeam b /\ reach eig properBeam c /\
  (c_points a + c_points b + c_points c <= MAX_POINTS)%Z /\
  c_cov (merge eig (merge eig a b) c) <> c_cov (merge eig a (merge eig b c)).
Proof.
  exists (many vzero 6), (many (mkV 20 0 0) 6), (many (mkV 10 0 0) 6).
  split; [apply reach_six|]. split; [apply reach_six|]. split; [apply reach_six|]. split; [|exact grouping_matters].
  rewrite !many_six. cbn [c_points]. unfold MAX_POINTS. lia.
Qed.
Lemma scale_witness : exists l, (6 <= length l)%nat /\ wellcond (sample_cov l) /\ posdef (sample_cov l) /\
  c_cov (computeGaussian eig (addPoints cell_new l)) <> sample_cov l.
Proof. exists cross. split; [cbn; lia|exact scale_wrong]. Qed.
Lemma beam_ends_gaussian : exists c s e k, reach eig properBeam c /\ s <> e /\ 1/100 <= l1 (vsub (c_mean c) e) /\
  (0 <= k)%Z /\ c_occ c = Some 1 /\ c_gauss c = true /\ c_gauss (updateOccupancy c s e vzero k) = false.
Proof.
  destruct (sure_beam vzero 6 ltac:(lia)) as (k & K0 & G & P).
  exists (many vzero 6), (vadd vzero (mkV 1 0 0)), (vadd vzero (mkV (-1) 0 0)), k.
  split; [apply reach_six|]. split; [intro X; apply (f_equal vx) in X; munfold; lra|].
  split; [|split; [auto|]].
  - rewrite many_six. cbn [c_mean]. unfold l1. munfold. replace (0 - (0 + -1)) with 1 by ring.
    rewrite Rabs_R1. pose proof (Rabs_pos (0 - (0 + 0))). lra.
  - split; [rewrite many_six; reflexivity|]. split; [rewrite many_six; reflexivity|exact G].
Qed.

(** A reachable cell that carries exactly mean and sample covariance of a set. *)
Definition star (p : V3) (s : R) : list V3 :=
  [vadd p (mkV s 0 0); vadd p (mkV (-s) 0 0); vadd p (mkV 0 s 0); vadd p (mkV 0 (-s) 0);
   vadd p (mkV 0 0 s); vadd p (mkV 0 0 (-s))].
Lemma star_mean p s : mean_of (star p s) = p.
Proof. unfold mean_of, star. cbn [sumV length INR]. apply V3_eq; mcomp; field. Qed.
Lemma star_cov p s : sample_cov (star p s) = mscale (2 * s * s / 5) mid.
Proof.
  unfold sample_cov, scatter. rewrite star_mean. unfold star. cbn [map sumM length INR].
  apply M3_eq; mcomp; field.
Qed.
Lemma six_is_star p : let s := 5 / 6 * sqrt (1/2) in
  c_points (many p 6) = Z.of_nat (length (star p s)) /\ c_mean (many p 6) = mean_of (star p s) /\
  c_cov (many p 6) = sample_cov (star p s).
Proof.
  cbv zeta. rewrite star_mean, star_cov, many_six. cbn [c_points c_mean c_cov]. split; [reflexivity|]. split; [reflexivity|].
  f_equal. assert (H : sqrt (1/2) * sqrt (1/2) = 1/2) by (apply sqrt_sqrt; lra).
  replace (2 * (5/6 * sqrt (1/2)) * (5/6 * sqrt (1/2)) / 5) with (10/36 * (sqrt (1/2) * sqrt (1/2))) by field.
  rewrite H. field.
Qed.

End E.
