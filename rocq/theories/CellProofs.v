(** Proofs about NDT cells. *)
From Coq Require Import Reals Lra Psatz List ZArith Bool Lia.
From Verif Require Import Base LinAlg3 CellModel CellSpec.
Import ListNotations.
Open Scope R_scope.

(** ** Occupancy *)
Lemma clampOcc_range x : -1 <= clampOcc x <= 1.
Proof.
  unfold clampOcc, MAX_OCC, MIN_OCC. destruct (Rlt_dec 1 x); destruct (Rlt_dec _ (-1)); lra.
Qed.
Lemma clampOcc_le x y : -1 <= x <= 1 -> y <= x -> clampOcc y <= x.
Proof.
  intros H K. unfold clampOcc, MAX_OCC, MIN_OCC. destruct (Rlt_dec 1 y); destruct (Rlt_dec _ (-1)); lra.
Qed.
Lemma clampOcc_ge1 x : 1 <= x -> clampOcc x = 1.
Proof.
  intros H. unfold clampOcc, MAX_OCC, MIN_OCC. destruct (Rlt_dec 1 x); destruct (Rlt_dec _ (-1)); lra.
Qed.
Lemma clampOcc_mid x : -1 <= x <= 1 -> clampOcc x = x.
Proof.
  intros H. unfold clampOcc, MAX_OCC, MIN_OCC. destruct (Rlt_dec 1 x); destruct (Rlt_dec _ (-1)); lra.
Qed.

Definition occ_range (o : option R) : Prop := match o with Some x => -1 <= x <= 1 | None => True end.
Lemma addOcc_range o x : occ_range (addOcc o x).
Proof. destruct o; cbn; auto. apply clampOcc_range. Qed.

(** ** Conditioning *)
Section E.
Variable eig : M3 -> M3 * V3.
Hypothesis EIG : eigen_solver eig.

Lemma eig_values m q e : sym m -> eig m = (q, e) ->
  orth q /\ m = mmul (mmul q (mdiag (vx e) (vy e) (vz e))) (mtr q) /\ vx e <= vy e <= vz e.
Proof. intros S E. pose proof (EIG m S) as H. rewrite E in H. exact H. Qed.

Lemma eig_pos m q e : posdef m -> eig m = (q, e) -> 0 < vx e.
Proof.
  intros P E. destruct (eig_values m q e (proj1 P) E) as (O & M & _).
  apply (posdef_eigenvalue m); [auto|]. rewrite M. apply spec_eigenvalue; auto.
Qed.

Lemma floor_max a b : (if Rlt_dec a b then b else a) = Rmax a b.
Proof.
  destruct (Rlt_dec a b).
  - rewrite Rmax_right; lra.
  - rewrite Rmax_left; lra.
Qed.

Lemma floor_form m : sym m -> exists q e0 e1 e2, orth q /\ e0 <= e1 <= e2 /\
  m = mmul (mmul q (mdiag e0 e1 e2)) (mtr q) /\
  floor_cov eig m = mmul (mmul q (mdiag (Rmax e0 (1/100 * e2)) (Rmax e1 (1/100 * e2)) e2)) (mtr q).
Proof.
  intro S. destruct (eig m) as [q e] eqn:E. destruct (eig_values m q e S E) as (O & M & L).
  exists q, (vx e), (vy e), (vz e). split; [auto|]. split; [auto|]. split; [auto|].
  unfold floor_cov. rewrite E, !floor_max. reflexivity.
Qed.

Lemma floor_sym m : sym m -> sym (floor_cov eig m).
Proof.
  intro S. destruct (floor_form m S) as (q & e0 & e1 & e2 & O & L & M & ->). apply sym_conj, sym_diag.
Qed.

Lemma floor_pd m : posdef m -> posdef (floor_cov eig m) /\ wellcond (floor_cov eig m).
Proof.
  intro P. destruct (floor_form m (proj1 P)) as (q & e0 & e1 & e2 & O & L & M & F).
  assert (P0 : 0 < e0).
  { apply (posdef_eigenvalue m); [auto|]. rewrite M. apply spec_eigenvalue; auto. }
  rewrite F. pose proof (Rmax_l e0 (1/100*e2)). pose proof (Rmax_r e0 (1/100*e2)).
  pose proof (Rmax_l e1 (1/100*e2)). pose proof (Rmax_r e1 (1/100*e2)).
  assert (Rmax e0 (1/100*e2) <= e2) by (apply Rmax_lub; lra).
  assert (Rmax e1 (1/100*e2) <= e2) by (apply Rmax_lub; lra).
  split.
  - apply posdef_conj; [auto|]. apply posdef_diag; lra.
  - intros l k HL HK. apply spec_eigenvalue in HL; [|auto]. apply spec_eigenvalue in HK; [|auto].
    destruct HL as [->|[->| ->]]; destruct HK as [->|[->| ->]]; lra.
Qed.

Lemma posdef_det m : posdef m -> mdet m <> 0.
Proof.
  intro P. destruct (floor_form m (proj1 P)) as (q & e0 & e1 & e2 & O & L & M & F).
  assert (P0 : 0 < e0).
  { apply (posdef_eigenvalue m); [auto|]. rewrite M. apply spec_eigenvalue; auto. }
  rewrite M, !mdet_mmul, mdet_mtr, mdet_diag.
  pose proof (orth_det q O) as D. intro X.
  assert (0 < e0 * e1 * e2) by (repeat apply Rmult_lt_0_compat; lra). nra.
Qed.

Lemma floor_id m : sym m -> wellcond m -> floor_cov eig m = m.
Proof.
  intros S W. destruct (floor_form m S) as (q & e0 & e1 & e2 & O & L & M & ->).
  assert (E0 : e0 >= 1/100 * e2) by (apply W; rewrite M; apply spec_eigenvalue; auto).
  assert (E1 : e1 >= 1/100 * e2) by (apply W; rewrite M; apply spec_eigenvalue; auto).
  rewrite !Rmax_left by lra. auto.
Qed.

Lemma floor_conditioned m : posdef m -> conditioned m (floor_cov eig m).
Proof.
  intro P. destruct (floor_form m (proj1 P)) as (q & e0 & e1 & e2 & O & L & M & F).
  assert (P0 : 0 < e0).
  { apply (posdef_eigenvalue m); [auto|]. rewrite M. apply spec_eigenvalue; auto. }
  exists e2. split; [|split].
  - rewrite M. apply spec_eigenvalue; auto.
  - intros k K. rewrite M in K. apply spec_eigenvalue in K; [|auto]. lra.
  - intros v l E. rewrite F. set (w := mvmul (mtr q) v).
    assert (EW : mvmul (mdiag e0 e1 e2) w = vscale l w).
    { rewrite M in E. apply (f_equal (mvmul (mtr q))) in E. rewrite mvmul_scale, !mvmul_mmul in E. fold w in E.
      rewrite <- mvmul_mmul, O, mvmul_1 in E. exact E. }
    assert (EW' : mvmul (mdiag (Rmax e0 (1/100*e2)) (Rmax e1 (1/100*e2)) e2) w =
                  vscale (Rmax l (1/100*e2)) w).
    { destruct w as [x y z]. munfold. injection EW as E0 E1 E2. f_equal.
      - destruct (Req_EM_T x 0) as [->|N]; [ring|]. assert (e0 = l) by nra. subst. ring.
      - destruct (Req_EM_T y 0) as [->|N]; [ring|]. assert (e1 = l) by nra. subst. ring.
      - destruct (Req_EM_T z 0) as [->|N]; [ring|]. assert (e2 = l) by nra. subst. rewrite Rmax_left by lra. ring. }
    rewrite !mvmul_mmul. fold w. rewrite EW', mvmul_scale. unfold w.
    rewrite <- mvmul_mmul, (orth_r q O), mvmul_1. reflexivity.
Qed.

Lemma inverse_pd m : posdef m -> inverse m = Some (minv m).
Proof. intro P. unfold inverse. destruct (Req_EM_T (mdet m) 0); [|auto]. destruct (posdef_det m P); auto. Qed.

(** ** Statistics *)
Lemma vadd_comm a b : vadd a b = vadd b a. Proof. mcring. Qed.
Lemma vadd_assoc a b c : vadd (vadd a b) c = vadd a (vadd b c). Proof. mcring. Qed.
Lemma vadd_0_l a : vadd vzero a = a. Proof. mcring. Qed.
Lemma vadd_0_r a : vadd a vzero = a. Proof. mcring. Qed.
Lemma madd_comm a b : madd a b = madd b a. Proof. mcring. Qed.
Lemma madd_assoc a b c : madd (madd a b) c = madd a (madd b c). Proof. mcring. Qed.
Lemma madd_0_r a : madd a mzero = a. Proof. mcring. Qed.
Lemma madd_0_l a : madd mzero a = a. Proof. mcring. Qed.

Lemma vsum_spec l : vsum l = sumV l.
Proof.
  unfold vsum. assert (G : forall l a, fold_left vadd l a = vadd a (sumV l)).
  { clear l. induction l as [|p t IH]; intro a; cbn; [rewrite vadd_0_r; auto|]. rewrite IH, vadd_assoc. auto. }
  rewrite G. apply vadd_0_l.
Qed.
Lemma sumV_app l l' : sumV (l ++ l') = vadd (sumV l) (sumV l').
Proof. induction l as [|p t IH]; cbn; [rewrite vadd_0_l; auto|]. rewrite IH, vadd_assoc. auto. Qed.
Definition sumO (l : list V3) : M3 := sumM (map (fun p => outer p p) l).
Lemma cov_sum_spec l : cov_sum l = madd mid (sumO l).
Proof.
  unfold cov_sum. assert (G : forall l a, fold_left (fun m p => madd m (outer p p)) l a = madd a (sumO l)).
  { clear l. induction l as [|p t IH]; intro a; cbn [fold_left]; [unfold sumO; cbn; rewrite madd_0_r; auto|].
    rewrite IH, madd_assoc. reflexivity. }
  apply G.
Qed.
Lemma sumM_app l l' : sumM (l ++ l') = madd (sumM l) (sumM l').
Proof.
  induction l as [|p t IH]; cbn; [rewrite madd_0_l; auto|]. rewrite IH, madd_assoc. auto.
Qed.
Lemma sumO_app l l' : sumO (l ++ l') = madd (sumO l) (sumO l').
Proof. unfold sumO. rewrite map_app. apply sumM_app. Qed.

(** scatter about any point m *)
Lemma scatter_about (m : V3) l : sumM (map (fun p => outer (vsub p m) (vsub p m)) l) =
  madd (madd (sumO l) (mscale (-1) (madd (outer (sumV l) m) (outer m (sumV l)))))
       (mscale (INR (length l)) (outer m m)).
Proof.
  induction l as [|p t IH]; cbn [map sumM sumV length].
  - unfold sumO. cbn [map sumM INR]. mcring.
  - rewrite IH. change (sumO (p :: t)) with (madd (outer p p) (sumO t)).
    rewrite S_INR. clear IH. generalize (sumV t) (sumO t) (INR (length t)). mcring.
Qed.
Lemma INR_pos l : l <> @nil V3 -> 0 < INR (length l).
Proof. intro H. apply lt_0_INR. destruct l; [congruence|cbn; lia]. Qed.
Lemma sum_mean l : l <> [] -> sumV l = vscale (INR (length l)) (mean_of l).
Proof.
  intro H. pose proof (INR_pos l H) as P. unfold mean_of. rewrite vscale_vscale, Rinv_r by lra. rewrite vscale_1. auto.
Qed.
Lemma scatter_form l : l <> [] ->
  scatter l = madd (sumO l) (mscale (- INR (length l)) (outer (mean_of l) (mean_of l))).
Proof.
  intro H. unfold scatter. rewrite scatter_about, (sum_mean l H).
  generalize (sumO l) (INR (length l)) (mean_of l). mcring.
Qed.

(** the pooled statistics are those of the union *)
Lemma pool_mean_union A B : A <> [] -> B <> [] ->
  pool_mean (INR (length A)) (mean_of A) (INR (length B)) (mean_of B) = mean_of (A ++ B).
Proof.
  intros HA HB. unfold pool_mean, mean_of at 3. rewrite sumV_app, app_length, plus_INR.
  rewrite <- !sum_mean by auto. reflexivity.
Qed.
Lemma pool_cov_union A B : A <> [] -> B <> [] -> 1 < INR (length A) -> 1 < INR (length B) ->
  pool_cov (INR (length A)) (mean_of A) (sample_cov A) (INR (length B)) (mean_of B) (sample_cov B) =
  sample_cov (A ++ B).
Proof.
  intros HA HB NA NB.
  assert (HAB : A ++ B <> []) by (destruct A; cbn; congruence).
  unfold sample_cov at 3. rewrite (scatter_form _ HAB), <- (pool_mean_union A B HA HB), sumO_app.
  unfold pool_cov, sample_cov. rewrite !mscale_mscale, !Rinv_r, !mscale_1 by lra.
  rewrite (scatter_form _ HA), (scatter_form _ HB), app_length, plus_INR. f_equal.
  unfold pool_mean. set (n := INR (length A)) in *. set (k := INR (length B)) in *.
  generalize (sumO A) (sumO B) (mean_of A) (mean_of B). intros SA SB ma mb.
  first [apply M3_eq | apply V3_eq]; mcomp; field; lra.
Qed.

(** what the code computes for a batch *)
Lemma batch_mean_spec l : batch_mean l = mean_of l.
Proof. unfold batch_mean, mean_of. rewrite vsum_spec. reflexivity. Qed.
Lemma batch_cov_spec l : l <> [] ->
  batch_cov l = mscale ((INR (length l) - 1) / (INR (length l) * INR (length l))) (madd mid (scatter l)).
Proof.
  intro H. pose proof (INR_pos l H) as P. unfold batch_cov.
  rewrite batch_mean_spec, cov_sum_spec, vsum_spec, (scatter_form l H).
  assert (E : INR (length l - 1) = INR (length l) - 1).
  { rewrite minus_INR; [reflexivity|]. destruct l; [congruence|cbn; lia]. }
  rewrite E, (sum_mean l H) at 1. set (n := INR (length l)) in *.
  generalize (sumO l) (mean_of l). intros S m. first [apply M3_eq | apply V3_eq]; mcomp; field; lra.
Qed.
Lemma sumO_sym l : sym (sumO l).
Proof. induction l as [|p t IH]; unfold sumO; cbn [map sumM]; [unfold sym; mcring|]. apply sym_add; [apply sym_outer|exact IH]. Qed.
Lemma scatter_sym l : sym (scatter l).
Proof.
  unfold scatter. generalize (mean_of l). intro m.
  induction l as [|p t IH]; cbn [map sumM]; [unfold sym; mcring|]. apply sym_add; [apply sym_outer|exact IH].
Qed.
Lemma scatter_psd l v : 0 <= quad (scatter l) v.
Proof.
  unfold scatter. generalize (mean_of l). intro m.
  induction l as [|p t IH]; cbn [map sumM]; [unfold quad; destruct v; munfold; lra|].
  rewrite quad_add, quad_outer. pose proof (Rle_0_sqr (vdot (vsub p m) v)) as Q. unfold Rsqr in Q. lra.
Qed.
Lemma batch_cov_pd l : (2 <= length l)%nat -> posdef (batch_cov l).
Proof.
  intro H. assert (N : l <> []) by (destruct l; cbn in H; [lia|congruence]).
  rewrite (batch_cov_spec l N). apply le_INR in H. cbn in H.
  apply posdef_scale.
  - apply Rdiv_lt_0_compat; [lra|]. apply Rmult_lt_0_compat; lra.
  - apply posdef_add; [apply posdef_id|apply scatter_sym|apply scatter_psd].
Qed.

Lemma pool_pd n1 m1 c1 n2 m2 c2 : 1 < n1 -> 1 < n2 -> posdef c1 -> posdef c2 ->
  posdef (pool_cov n1 m1 c1 n2 m2 c2).
Proof.
  intros N1 N2 P1 P2. unfold pool_cov. apply posdef_scale; [apply Rinv_0_lt_compat; lra|].
  apply posdef_add.
  - apply posdef_add; [apply posdef_scale; [lra|auto]| |].
    + apply sym_scale. apply P2.
    + intro v. destruct (V3_dec v) as [->|N].
      * rewrite quad_scale. unfold quad. rewrite mvmul_zero. munfold. lra.
      * pose proof (proj2 (posdef_scale (n2 - 1) c2 ltac:(lra) P2) v N). lra.
  - apply sym_scale, sym_outer.
  - intro v. rewrite quad_scale, quad_outer. apply Rmult_le_pos.
    + apply Rlt_le, Rdiv_lt_0_compat; [apply Rmult_lt_0_compat|]; lra.
    + pose proof (Rle_0_sqr (vdot (vsub m1 m2) v)) as Q. exact Q.
Qed.

(** ** The invariant *)
Definition occ_some (B : V3 -> V3 -> Prop) (o : option R) : Prop :=
  (forall s e, B s e -> s <> e) -> o <> None.

Record CI (B : V3 -> V3 -> Prop) (c : cell) : Prop := {
  ci_occ : occ_range (c_occ c);
  ci_nan : occ_some B (c_occ c);
  ci_pts : (0 <= c_points c <= MAX_POINTS)%Z;
  ci_gauss : c_gauss c = true -> posdef (c_cov c) /\ wellcond (c_cov c) /\
     c_icov c = inverse (c_cov c) /\ (3 <= c_points c)%Z }.

Lemma CI_new B : CI B cell_new.
Proof. split; cbn; [lra|intros _; discriminate|unfold MAX_POINTS; lia|discriminate]. Qed.

Lemma addOcc_some B o x : occ_some B o -> occ_some B (addOcc o x).
Proof. intros H K. specialize (H K). destruct o; [discriminate|congruence]. Qed.

Lemma IZR_lt3 p : (3 <= p)%Z -> 3 <= IZR p.
Proof. intro H. apply IZR_le in H. exact H. Qed.

(** what merging two gaussian cells does *)
Lemma merge_gauss B a b : CI B a -> CI B b -> c_gauss a = true -> c_gauss b = true ->
  merge eig a b = rescaleCovar eig
    (mkCell (pool_mean (IZR (c_points a)) (c_mean a) (IZR (c_points b)) (c_mean b))
            (pool_cov (IZR (c_points a)) (c_mean a) (c_cov a) (IZR (c_points b)) (c_mean b) (c_cov b))
            (c_icov a) (addOcc (c_occ a) (IZR (c_points b) * LOG_LIKE))
            (Z.min MAX_POINTS (c_points a + c_points b)) true (c_cent a) (c_pts a)).
Proof.
  intros [O1 N1 P1 G1] [O2 N2 P2 G2] GA GB.
  destruct (G1 GA) as (_ & _ & _ & L1). destruct (G2 GB) as (_ & _ & _ & L2).
  unfold merge. destruct (Z.leb_spec (c_points b) 2) as [X|_]; [lia|].
  rewrite GB, GA. cbn [negb].
  unfold MAX_POINTS in *.
  rewrite (u64_id (c_points a - 1)) by lia. rewrite (u64_id (c_points b - 1)) by lia.
  rewrite (u64_id (c_points b + c_points a)) by lia.
  rewrite (u64_id (c_points b + c_points a - 1)) by lia.
  rewrite (u64_id (c_points b * (c_points b + c_points a))) by nia.
  pose proof (IZR_lt3 _ L1) as R1. pose proof (IZR_lt3 _ L2) as R2.
  set (p1 := c_points a) in *. set (p2 := c_points b) in *.
  assert (OC : occ_lt0 (addOcc (c_occ a) (IZR p2 * LOG_LIKE)) = false).
  { destruct (c_occ a) as [x|]; [|reflexivity]. cbn [addOcc option_map occ_lt0].
    destruct (Rlt_dec (clampOcc (x + IZR p2 * LOG_LIKE)) 0) as [X|]; [|reflexivity]. exfalso.
    cbn in O1. unfold clampOcc, MAX_OCC, MIN_OCC, LOG_LIKE in X.
    destruct (Rlt_dec 1 (x + IZR p2 * (405465108 / 1000000000))); destruct (Rlt_dec _ (-1)); lra. }
  rewrite OC. f_equal. f_equal.
  - unfold pool_mean. rewrite plus_IZR, (Rplus_comm (IZR p1)), vadd_comm. reflexivity.
  - unfold pool_cov. rewrite minus_IZR, mult_IZR, !plus_IZR, !minus_IZR.
    rewrite (Rplus_comm (IZR p2) (IZR p1)).
    set (x := IZR p1) in *. set (y := IZR p2) in *.
    first [apply M3_eq | apply V3_eq]; mcomp; field; lra.
  - destruct (Z.ltb_spec 1000000000 (p2 + p1)); lia.
Qed.

Lemma rescale_CI B c : occ_range (c_occ c) -> occ_some B (c_occ c) -> (3 <= c_points c <= MAX_POINTS)%Z ->
  posdef (c_cov c) -> CI B (rescaleCovar eig c).
Proof.
  intros O N P PD. destruct (floor_pd _ PD) as [A W]. split; cbn; auto; [lia|].
  intros _. split; [auto|]. split; [auto|]. split; [reflexivity|lia].
Qed.

Lemma CI_merge B a b : CI B a -> CI B b -> CI B (merge eig a b).
Proof.
  intros IA IB. destruct (c_gauss b) eqn:GB.
  2: { unfold merge. rewrite GB. cbn [negb]. destruct (c_points b <=? 2)%Z; exact IA. }
  destruct (c_gauss a) eqn:GA.
  - rewrite (merge_gauss B a b IA IB GA GB).
    destruct (ci_gauss _ _ IA GA) as (PA & _ & _ & LA). destruct (ci_gauss _ _ IB GB) as (PB & _ & _ & LB).
    apply rescale_CI; cbn [c_occ c_points c_cov].
    + apply addOcc_range.
    + apply addOcc_some. apply IA.
    + unfold MAX_POINTS. lia.
    + pose proof (IZR_lt3 _ LA). pose proof (IZR_lt3 _ LB). apply pool_pd; auto; lra.
  - unfold merge. rewrite GB, GA. cbn [negb]. destruct (c_points b <=? 2)%Z; [exact IA|].
    destruct IB as [O N P G]. split; cbn; auto.
Qed.

(** what computeGaussian does once it has enough points *)
Lemma compute_few c : (length (c_pts c) < 6)%nat ->
  computeGaussian eig c = mkCell (c_mean c) (c_cov c) (c_icov c)
    (addOcc (c_occ c) (INR (length (c_pts c)) * LOG_LIKE)) (Z.of_nat (length (c_pts c))) false (c_cent c) (c_pts c).
Proof.
  intro H. unfold computeGaussian. cbn [set_occ c_occ c_mean c_cov c_icov c_points c_gauss c_cent c_pts].
  destruct (occ_le0 _); [reflexivity|]. apply Nat.ltb_lt in H. rewrite H. reflexivity.
Qed.

Lemma LOG6 n : (6 <= n)%nat -> 2 <= INR n * LOG_LIKE.
Proof. intro H. apply le_INR in H. cbn in H. unfold LOG_LIKE. lra. Qed.

Lemma occ_many o n : occ_range o -> (6 <= n)%nat ->
  addOcc o (INR n * LOG_LIKE) = option_map (fun _ => 1) o.
Proof.
  intros O H. destruct o as [x|]; [|reflexivity]. cbn in *. f_equal. apply clampOcc_ge1.
  pose proof (LOG6 n H). lra.
Qed.

Lemma compute_first c : occ_range (c_occ c) -> (6 <= length (c_pts c))%nat -> c_gauss c = false ->
  computeGaussian eig c =
    let m := floor_cov eig (batch_cov (c_pts c)) in
    mkCell (mean_of (c_pts c)) m (inverse m) (option_map (fun _ => 1) (c_occ c))
      (Z.of_nat (length (c_pts c))) true (c_cent c) [].
Proof.
  intros O H G. unfold computeGaussian. cbn [set_occ c_occ c_mean c_cov c_icov c_points c_gauss c_cent c_pts].
  rewrite (occ_many _ _ O H).
  assert (occ_le0 (option_map (fun _ => 1) (c_occ c)) = false) as ->.
  { destruct (c_occ c); [|reflexivity]. cbn. destruct (Rle_dec 1 0); [lra|reflexivity]. }
  assert ((length (c_pts c) <? 6)%nat = false) as -> by (apply Nat.ltb_ge; auto).
  rewrite G. cbn [negb]. rewrite batch_mean_spec. reflexivity.
Qed.

Lemma compute_more B c : CI B c -> (6 <= length (c_pts c))%nat ->
  (Z.of_nat (length (c_pts c)) <= MAX_POINTS)%Z -> c_gauss c = true ->
  computeGaussian eig c =
    let n := IZR (c_points c) in let k := INR (length (c_pts c)) in
    let m := floor_cov eig (pool_cov n (c_mean c) (c_cov c) k (mean_of (c_pts c)) (batch_cov (c_pts c))) in
    mkCell (pool_mean n (c_mean c) k (mean_of (c_pts c))) m (inverse m) (option_map (fun _ => 1) (c_occ c))
      (Z.min MAX_POINTS (c_points c + Z.of_nat (length (c_pts c)))) true (c_cent c) [].
Proof.
  intros I H HM G. destruct I as [O N P GG]. destruct (GG G) as (PD & _ & _ & L).
  unfold computeGaussian. cbn [set_occ c_occ c_mean c_cov c_icov c_points c_gauss c_cent c_pts].
  rewrite (occ_many _ _ O H).
  assert (occ_le0 (option_map (fun _ => 1) (c_occ c)) = false) as ->.
  { destruct (c_occ c); [|reflexivity]. cbn. destruct (Rle_dec 1 0); [lra|reflexivity]. }
  assert ((length (c_pts c) <? 6)%nat = false) as -> by (apply Nat.ltb_ge; auto).
  rewrite G. cbn [negb]. rewrite batch_mean_spec.
  unfold rescaleCovar. cbn [c_occ c_mean c_cov c_icov c_points c_gauss c_cent c_pts].
  unfold MAX_POINTS in *.
  rewrite (u64_id (c_points c - 1)) by lia. rewrite (u64_id (c_points c + _)) by lia.
  set (p := c_points c) in *. set (k := length (c_pts c)) in *.
  assert (K : INR (k - 1) = INR k - 1) by (rewrite minus_INR; [reflexivity|lia]). rewrite K.
  pose proof (IZR_lt3 _ L) as R1. assert (R2 : 6 <= INR k) by (apply le_INR in H; cbn in H; lra).
  assert (IK : IZR (Z.of_nat k) = INR k) by (symmetry; apply INR_IZR_INZ).
  destruct (Z.ltb_spec 1000000000 (p + Z.of_nat k)) as [OV|OV].
  - rewrite !(u64_id _) by lia. rewrite (Z.min_l _ _ (Z.lt_le_incl _ _ OV)).
    rewrite !minus_IZR, !plus_IZR, IK.
    assert (BIG : 1000000000 < IZR p + INR k) by (apply IZR_lt in OV; rewrite plus_IZR, IK in OV; exact OV).
    set (x := IZR p) in *. set (y := INR k) in *.
    assert (EM : vscale (/ 1000000000) (vscale (1000000000 / (x + y))
         (vadd (vscale x (c_mean c)) (vscale y (mean_of (c_pts c))))) = pool_mean x (c_mean c) y (mean_of (c_pts c))).
    { unfold pool_mean. first [apply M3_eq | apply V3_eq]; mcomp; field; lra. }
    rewrite EM. clear EM.
    match goal with |- mkCell _ (floor_cov _ ?A) _ _ _ _ _ _ = _ =>
      assert (EC : A = pool_cov x (c_mean c) (c_cov c) y (mean_of (c_pts c)) (batch_cov (c_pts c))) end.
    { unfold pool_cov. generalize (batch_cov (c_pts c)) (mean_of (c_pts c)) (c_mean c) (c_cov c).
      intros m1 v1 v2 m2. first [apply M3_eq | apply V3_eq]; mcomp; field; lra. }
    rewrite EC. reflexivity.
  - rewrite !(u64_id _) by lia. rewrite (Z.min_r _ _ OV).
    rewrite !minus_IZR, !plus_IZR, IK.
    set (x := IZR p) in *. set (y := INR k) in *.
    match goal with |- mkCell _ (floor_cov _ ?A) _ _ _ _ _ _ = _ =>
      assert (EC : A = pool_cov x (c_mean c) (c_cov c) y (mean_of (c_pts c)) (batch_cov (c_pts c))) end.
    { unfold pool_cov. generalize (batch_cov (c_pts c)) (mean_of (c_pts c)) (c_mean c) (c_cov c).
      intros m1 v1 v2 m2. first [apply M3_eq | apply V3_eq]; mcomp; field; lra. }
    rewrite EC. reflexivity.
Qed.

Lemma CI_compute B c : CI B c -> (Z.of_nat (length (c_pts c)) <= MAX_POINTS)%Z -> CI B (computeGaussian eig c).
Proof.
  intros I HM. destruct (Nat.lt_ge_cases (length (c_pts c)) 6) as [F|M].
  - rewrite (compute_few c F). destruct I as [O N P G]. split; cbn; [apply addOcc_range|apply addOcc_some; auto|lia|discriminate].
  - assert (OS : occ_some B (option_map (fun _ => 1) (c_occ c))).
    { intros K X. pose proof (ci_nan _ _ I K) as Y. destruct (c_occ c); [discriminate|congruence]. }
    assert (OR : occ_range (option_map (fun _ => 1) (c_occ c))) by (destruct (c_occ c); cbn; auto; lra).
    destruct (c_gauss c) eqn:G.
    + rewrite (compute_more B c I M HM G). destruct (ci_gauss _ _ I G) as (PD & _ & _ & L).
      pose proof (IZR_lt3 _ L). assert (R2 : 6 <= INR (length (c_pts c))) by (apply le_INR in M; cbn in M; lra).
      assert (PP : posdef (pool_cov (IZR (c_points c)) (c_mean c) (c_cov c) (INR (length (c_pts c)))
          (mean_of (c_pts c)) (batch_cov (c_pts c)))) by (apply pool_pd; [lra|lra|auto|apply batch_cov_pd; lia]).
      destruct (floor_pd _ PP) as [A W].
      split; cbn; auto; [unfold MAX_POINTS; lia|]. intros _. split; [auto|]. split; [auto|]. split; [auto|unfold MAX_POINTS; lia].
    + rewrite (compute_first c (ci_occ _ _ I) M G). destruct (floor_pd _ (batch_cov_pd (c_pts c) ltac:(lia))) as [A W].
      split; cbn; auto; [lia|]. intros _. split; [auto|]. split; [auto|]. split; [auto|lia].
Qed.

Lemma CI_weaken B c o g : CI B c -> occ_range o -> occ_some B o ->
  (g = true -> c_gauss c = true) -> CI B (set_gauss (set_occ c o) g).
Proof. intros [O N P G] RO SO H. split; cbn; auto. Qed.

Lemma set_gauss_same c : set_gauss c (c_gauss c) = c.
Proof. destruct c; reflexivity. Qed.

Lemma vnorm_zero v : vnorm v = 0 -> v = vzero.
Proof. unfold vnorm. intro H. apply vdot_zero. apply sqrt_eq_0; [apply vdot_nonneg|auto]. Qed.
Lemma vsub_zero a b : vsub a b = vzero -> a = b.
Proof.
  destruct a, b. munfold. intro H. injection H as H1 H2 H3. f_equal; lra.
Qed.

Lemma beam_none c B s e j : CI B c -> c_gauss c = true -> beamLogOdd c s e j = None -> s = e.
Proof.
  intros I G H. destruct (ci_gauss _ _ I G) as (PD & _ & IC & _). unfold beamLogOdd in H.
  rewrite IC, (inverse_pd _ PD) in H. destruct (Req_EM_T (vnorm (vsub e s)) 0) as [Z|N].
  - symmetry. apply vsub_zero, vnorm_zero, Z.
  - destruct (maxLikOnLine _ _ _ _ _); discriminate.
Qed.

Lemma CI_beam B c s e j n : CI B c -> B s e -> CI B (updateOccupancy c s e j n).
Proof.
  intros I HB. unfold updateOccupancy. destruct (c_gauss c) eqn:G; cbn [negb].
  - destruct (at_end c e).
    + rewrite <- (set_gauss_same (set_occ _ _)). apply CI_weaken; auto; [apply addOcc_range|apply addOcc_some, I].
    + set (o := match beamLogOdd c s e j with Some x => _ | None => _ end).
      assert (RO : occ_range o) by (unfold o; destruct (beamLogOdd c s e j); [apply addOcc_range|exact Logic.I]).
      assert (SO : occ_some B o).
      { unfold o. destruct (beamLogOdd c s e j) eqn:BL; [apply addOcc_some, I|].
        intros K. exfalso. apply (K s e HB). apply (beam_none c B s e j I G BL). }
      destruct (occ_le0 o).
      * apply CI_weaken; auto; discriminate.
      * rewrite <- (set_gauss_same (set_occ _ _)). apply CI_weaken; auto.
  - set (o := addOcc _ _).
    assert (RO : occ_range o) by apply addOcc_range. assert (SO : occ_some B o) by (apply addOcc_some, I).
    destruct (occ_le0 _).
    + apply CI_weaken; auto; discriminate.
    + rewrite <- (set_gauss_same (set_occ _ _)). apply CI_weaken; auto.
Qed.

Lemma rot_cov_fine m q : orth q -> posdef m -> wellcond m ->
  posdef (mmul (mmul q m) (mtr q)) /\ wellcond (mmul (mmul q m) (mtr q)).
Proof.
  intros O P W. split; [apply posdef_conj; auto|]. intros l k HL HK.
  apply eigenvalue_conj in HL; [|auto]. apply eigenvalue_conj in HK; [|auto]. auto.
Qed.

Lemma transform_form B c t : CI B c -> rotation (t_rot t) -> c_gauss c = true ->
  ctransform eig t c =
    let m := mmul (mmul (t_rot t) (c_cov c)) (mtr (t_rot t)) in
    mkCell (tapply t (c_mean c)) m (inverse m) (c_occ c) (c_points c) true (c_cent c) (c_pts c).
Proof.
  intros I [O _] G. destruct (ci_gauss _ _ I G) as (PD & W & _ & _).
  destruct (rot_cov_fine _ _ O PD W) as [P' W']. unfold ctransform. rewrite G.
  unfold rescaleCovar. cbn [c_occ c_mean c_cov c_icov c_points c_gauss c_cent c_pts].
  rewrite (floor_id _ (proj1 P') W'). reflexivity.
Qed.

Lemma CI_transform B c t : CI B c -> rotation (t_rot t) -> CI B (ctransform eig t c).
Proof.
  intros I R. destruct (c_gauss c) eqn:G.
  - rewrite (transform_form B c t I R G). destruct (ci_gauss _ _ I G) as (PD & W & _ & L).
    destruct (rot_cov_fine _ _ (proj1 R) PD W) as [P' W']. destruct I as [O N P _].
    split; cbn; auto.
  - unfold ctransform. rewrite G. exact I.
Qed.

Lemma reach_CI B c : reach eig B c -> CI B c.
Proof.
  induction 1.
  - apply CI_new.
  - destruct IHreach as [O N P G]. split; auto.
  - apply CI_compute; auto.
  - apply CI_merge; auto.
  - apply CI_beam; auto.
  - apply CI_transform; auto.
  - destruct IHreach as [O N P G]. split; auto.
  - destruct IHreach as [O N P G]. split; auto.
Qed.

(** ** C16 *)
Lemma cell_occ_any c : reach eig anyBeam c -> c_occ c = None \/ exists x, c_occ c = Some x /\ -1 <= x <= 1.
Proof.
  intro R. pose proof (ci_occ _ _ (reach_CI _ c R)) as H. destruct (c_occ c) as [x|]; [right; exists x; auto|auto].
Qed.
Lemma cell_occ_proper c : reach eig properBeam c -> exists x, c_occ c = Some x /\ -1 <= x <= 1.
Proof.
  intro R. pose proof (reach_CI _ c R) as I. pose proof (ci_occ _ _ I) as H.
  assert (N : c_occ c <> None) by (apply (ci_nan _ _ I); auto).
  destruct (c_occ c) as [x|]; [exists x; auto|congruence].
Qed.
Lemma getOccupancy_range x : -1 <= x <= 1 ->
  (-100 <= getOccupancy x <= 100)%Z /\ (0 <= x -> (0 <= getOccupancy x)%Z).
Proof.
  intro H. unfold getOccupancy, MAX_OCC, MIN_OCC. destruct (Rle_dec 1 x); [split; [lia|intros _; lia]|].
  destruct (Rlt_dec x (-1)); [lra|]. destruct (base_Int_part (x * 100)) as [A B].
  assert (U : (Int_part (x * 100) <= 100)%Z) by (apply le_IZR; lra).
  assert (L : (-101 < Int_part (x * 100))%Z) by (apply lt_IZR; lra).
  split; [lia|]. intro P. assert (-1 < Int_part (x * 100))%Z by (apply lt_IZR; lra). lia.
Qed.

(** ** C17 *)
Lemma cell_merge_pools B a b : reach eig B a -> reach eig B b -> c_gauss a = true -> c_gauss b = true ->
  let c := merge eig a b in
  c_gauss c = true /\
  c_mean c = pool_mean (IZR (c_points a)) (c_mean a) (IZR (c_points b)) (c_mean b) /\
  conditioned (pool_cov (IZR (c_points a)) (c_mean a) (c_cov a) (IZR (c_points b)) (c_mean b) (c_cov b)) (c_cov c) /\
  c_points c = Z.min MAX_POINTS (c_points a + c_points b).
Proof.
  intros RA RB GA GB c. pose proof (reach_CI _ a RA) as IA. pose proof (reach_CI _ b RB) as IB.
  unfold c. rewrite (merge_gauss B a b IA IB GA GB). cbn [rescaleCovar c_gauss c_mean c_cov c_points].
  split; [auto|]. split; [auto|]. split; [|auto].
  destruct (ci_gauss _ _ IA GA) as (PA & _ & _ & LA). destruct (ci_gauss _ _ IB GB) as (PB & _ & _ & LB).
  pose proof (IZR_lt3 _ LA). pose proof (IZR_lt3 _ LB).
  apply floor_conditioned. apply pool_pd; auto; lra.
Qed.

Lemma cell_merge_mean B a b A L : reach eig B a -> reach eig B b -> c_gauss a = true -> c_gauss b = true ->
  c_points a = Z.of_nat (length A) -> c_mean a = mean_of A ->
  c_points b = Z.of_nat (length L) -> c_mean b = mean_of L ->
  (Z.of_nat (length (A ++ L)) <= MAX_POINTS)%Z ->
  c_points (merge eig a b) = Z.of_nat (length (A ++ L)) /\ c_mean (merge eig a b) = mean_of (A ++ L).
Proof.
  intros RA RB GA GB PA MA PB MB CAP.
  destruct (cell_merge_pools B a b RA RB GA GB) as (_ & M & _ & P).
  pose proof (reach_CI _ a RA) as IA. pose proof (reach_CI _ b RB) as IB.
  destruct (ci_gauss _ _ IA GA) as (_ & _ & _ & LA). destruct (ci_gauss _ _ IB GB) as (_ & _ & _ & LB).
  rewrite app_length in *. rewrite P, M. split; [lia|].
  rewrite PA, PB, MA, MB, <- !INR_IZR_INZ. apply pool_mean_union.
  - destruct A; [cbn in PA; lia|congruence].
  - destruct L; [cbn in PB; lia|congruence].
Qed.

(** ** C18 *)
Lemma pool_mean_comm n1 m1 n2 m2 : pool_mean n1 m1 n2 m2 = pool_mean n2 m2 n1 m1.
Proof. unfold pool_mean. rewrite Rplus_comm, vadd_comm. reflexivity. Qed.
Lemma pool_cov_comm n1 m1 c1 n2 m2 c2 : pool_cov n1 m1 c1 n2 m2 c2 = pool_cov n2 m2 c2 n1 m1 c1.
Proof.
  unfold pool_cov. replace (n2 + n1) with (n1 + n2) by ring. replace (n2 * n1) with (n1 * n2) by ring. f_equal. mcring.
Qed.
Lemma cell_merge_comm B a b : reach eig B a -> reach eig B b -> c_gauss a = true -> c_gauss b = true ->
  c_mean (merge eig a b) = c_mean (merge eig b a) /\ c_cov (merge eig a b) = c_cov (merge eig b a) /\
  c_icov (merge eig a b) = c_icov (merge eig b a) /\ c_points (merge eig a b) = c_points (merge eig b a).
Proof.
  intros RA RB GA GB. pose proof (reach_CI _ a RA) as IA. pose proof (reach_CI _ b RB) as IB.
  rewrite (merge_gauss B a b IA IB GA GB), (merge_gauss B b a IB IA GB GA).
  cbn [rescaleCovar c_mean c_cov c_icov c_points].
  rewrite pool_mean_comm, pool_cov_comm, Z.add_comm. auto.
Qed.

Lemma pool_mean_assoc n1 m1 n2 m2 n3 m3 : 0 < n1 -> 0 < n2 -> 0 < n3 ->
  pool_mean (n1 + n2) (pool_mean n1 m1 n2 m2) n3 m3 = pool_mean n1 m1 (n2 + n3) (pool_mean n2 m2 n3 m3).
Proof.
  intros. unfold pool_mean. first [apply M3_eq | apply V3_eq]; mcomp; field; lra.
Qed.
Lemma pool_cov_assoc n1 m1 c1 n2 m2 c2 n3 m3 c3 : 1 < n1 -> 1 < n2 -> 1 < n3 ->
  pool_cov (n1 + n2) (pool_mean n1 m1 n2 m2) (pool_cov n1 m1 c1 n2 m2 c2) n3 m3 c3 =
  pool_cov n1 m1 c1 (n2 + n3) (pool_mean n2 m2 n3 m3) (pool_cov n2 m2 c2 n3 m3 c3).
Proof.
  intros. unfold pool_cov, pool_mean. first [apply M3_eq | apply V3_eq]; mcomp; field; lra.
Qed.

Lemma cell_merge_assoc B a b c : reach eig B a -> reach eig B b -> reach eig B c ->
  c_gauss a = true -> c_gauss b = true -> c_gauss c = true ->
  (c_points a + c_points b + c_points c <= MAX_POINTS)%Z ->
  let l := merge eig (merge eig a b) c in
  let r := merge eig a (merge eig b c) in
  c_points l = c_points r /\ c_mean l = c_mean r /\
  (wellcond (pool_cov (IZR (c_points a)) (c_mean a) (c_cov a) (IZR (c_points b)) (c_mean b) (c_cov b)) ->
   wellcond (pool_cov (IZR (c_points b)) (c_mean b) (c_cov b) (IZR (c_points c)) (c_mean c) (c_cov c)) ->
   c_cov l = c_cov r /\ c_icov l = c_icov r).
Proof.
  intros RA RB RC GA GB GC CAP l r.
  pose proof (reach_CI _ a RA) as IA. pose proof (reach_CI _ b RB) as IB. pose proof (reach_CI _ c RC) as IC.
  destruct (ci_gauss _ _ IA GA) as (PA & _ & _ & LA). destruct (ci_gauss _ _ IB GB) as (PB & _ & _ & LB).
  destruct (ci_gauss _ _ IC GC) as (PC & _ & _ & LC).
  pose proof (IZR_lt3 _ LA) as XA. pose proof (IZR_lt3 _ LB) as XB. pose proof (IZR_lt3 _ LC) as XC.
  pose proof (CI_merge B a b IA IB) as IAB. pose proof (CI_merge B b c IB IC) as IBC.
  assert (PAB : c_points (merge eig a b) = (c_points a + c_points b)%Z).
  { rewrite (merge_gauss B a b IA IB GA GB). cbn [rescaleCovar c_points]. lia. }
  assert (PBC : c_points (merge eig b c) = (c_points b + c_points c)%Z).
  { rewrite (merge_gauss B b c IB IC GB GC). cbn [rescaleCovar c_points]. lia. }
  assert (GAB : c_gauss (merge eig a b) = true) by (rewrite (merge_gauss B a b IA IB GA GB); reflexivity).
  assert (GBC : c_gauss (merge eig b c) = true) by (rewrite (merge_gauss B b c IB IC GB GC); reflexivity).
  unfold l, r. rewrite (merge_gauss B _ c IAB IC GAB GC), (merge_gauss B a _ IA IBC GA GBC).
  cbn [rescaleCovar c_points c_mean c_cov c_icov]. rewrite PAB, PBC. split; [lia|].
  assert (MAB : c_mean (merge eig a b) = pool_mean (IZR (c_points a)) (c_mean a) (IZR (c_points b)) (c_mean b))
    by (rewrite (merge_gauss B a b IA IB GA GB); reflexivity).
  assert (MBC : c_mean (merge eig b c) = pool_mean (IZR (c_points b)) (c_mean b) (IZR (c_points c)) (c_mean c))
    by (rewrite (merge_gauss B b c IB IC GB GC); reflexivity).
  rewrite MAB, MBC, !plus_IZR. split; [apply pool_mean_assoc; lra|].
  intros W1 W2.
  assert (SP : forall n1 m1 c1 n2 m2 c2, sym c1 -> sym c2 -> sym (pool_cov n1 m1 c1 n2 m2 c2)).
  { intros. unfold pool_cov. apply sym_scale. apply sym_add; [apply sym_add; apply sym_scale; auto|].
    apply sym_scale, sym_outer. }
  assert (CAB : c_cov (merge eig a b) = pool_cov (IZR (c_points a)) (c_mean a) (c_cov a) (IZR (c_points b)) (c_mean b) (c_cov b)).
  { rewrite (merge_gauss B a b IA IB GA GB). cbn [rescaleCovar c_cov].
    apply floor_id; [apply SP; [apply PA|apply PB]|exact W1]. }
  assert (CBC : c_cov (merge eig b c) = pool_cov (IZR (c_points b)) (c_mean b) (c_cov b) (IZR (c_points c)) (c_mean c) (c_cov c)).
  { rewrite (merge_gauss B b c IB IC GB GC). cbn [rescaleCovar c_cov].
    apply floor_id; [apply SP; [apply PB|apply PC]|exact W2]. }
  rewrite CAB, CBC, pool_cov_assoc by lra. auto.
Qed.

(** ** C19 *)
Lemma cell_points_capped B c : reach eig B c -> (0 <= c_points c <= MAX_POINTS)%Z.
Proof. intro R. apply (ci_pts _ _ (reach_CI _ c R)). Qed.
Lemma cell_points_merge B a b : reach eig B a -> reach eig B b -> c_gauss a = true ->
  c_points (merge eig a b) =
    if c_gauss b then Z.min MAX_POINTS (c_points a + c_points b) else c_points a.
Proof.
  intros RA RB GA. pose proof (reach_CI _ a RA) as IA. pose proof (reach_CI _ b RB) as IB.
  destruct (c_gauss b) eqn:GB.
  - rewrite (merge_gauss B a b IA IB GA GB). reflexivity.
  - unfold merge. rewrite GB. cbn [negb]. destruct (c_points b <=? 2)%Z; reflexivity.
Qed.

(** ** C20 *)
Lemma addPoints_form l : forall c, addPoints c l =
  mkCell (c_mean c) (c_cov c) (c_icov c) (c_occ c) (c_points c) (c_gauss c) (c_cent c) (c_pts c ++ l).
Proof.
  induction l as [|p t IH]; intro c; cbn [addPoints fold_left].
  - rewrite app_nil_r. destruct c; reflexivity.
  - fold (addPoints (addPoint c p) t). rewrite IH. cbn. rewrite <- app_assoc. reflexivity.
Qed.
Lemma cell_fresh l : (6 <= length l)%nat ->
  let c := computeGaussian eig (addPoints cell_new l) in
  c_gauss c = true /\ c_mean c = mean_of l /\ c_points c = Z.of_nat (length l) /\ c_occ c = Some 1 /\
  c_pts c = [] /\
  conditioned (mscale ((INR (length l) - 1) / (INR (length l) * INR (length l))) (madd mid (scatter l))) (c_cov c).
Proof.
  intros H c. unfold c. rewrite addPoints_form. cbn [cell_new c_mean c_cov c_icov c_occ c_points c_gauss c_cent c_pts app].
  rewrite compute_first; [|cbn; lra|exact H|reflexivity]. cbn [c_mean c_cov c_icov c_occ c_points c_gauss c_cent c_pts option_map].
  split; [auto|]. split; [auto|]. split; [auto|]. split; [auto|]. split; [auto|].
  rewrite <- batch_cov_spec; [|destruct l; cbn in H; [lia|congruence]].
  apply floor_conditioned, batch_cov_pd. lia.
Qed.

(** ** C21 *)
Lemma cell_few c : (length (c_pts c) < 6)%nat -> c_gauss (computeGaussian eig c) = false.
Proof. intro H. rewrite (compute_few c H). reflexivity. Qed.
Lemma cell_never_few B c : reach eig B c -> c_gauss c = true -> (3 <= c_points c)%Z.
Proof. intros R G. apply (ci_gauss _ _ (reach_CI _ c R) G). Qed.

(** several calls with a few points each *)
Lemma cell_split_gen : forall ls c, c_gauss c = false -> (exists x, c_occ c = Some x /\ 0 <= x <= 1) ->
  (forall pre post, ls = pre ++ post -> post <> [] -> (length (c_pts c ++ concat pre) < 6)%nat) ->
  (6 <= length (c_pts c ++ concat ls))%nat -> ls <> [] ->
  collect eig c ls = computeGaussian eig (addPoints c (concat ls)).
Proof.
  induction ls as [|l t IH]; intros c G O PRE LEN NE; [congruence|].
  cbn [collect fold_left]. fold (collect eig (computeGaussian eig (addPoints c l)) t).
  destruct t as [|l2 t'].
  - cbn. rewrite app_nil_r. reflexivity.
  - set (c1 := computeGaussian eig (addPoints c l)).
    assert (F : (length (c_pts c ++ l) < 6)%nat).
    { pose proof (PRE [l] (l2 :: t') eq_refl ltac:(congruence)) as X. cbn [concat] in X. rewrite app_nil_r in X. exact X. }
    destruct O as (x & OX & RX).
    assert (C1 : c1 = mkCell (c_mean c) (c_cov c) (c_icov c)
       (addOcc (c_occ c) (INR (length (c_pts c ++ l)) * LOG_LIKE)) (Z.of_nat (length (c_pts c ++ l))) false (c_cent c) (c_pts c ++ l)).
    { unfold c1. rewrite addPoints_form. rewrite compute_few by (cbn [c_pts]; exact F). reflexivity. }
    assert (O1 : exists y, c_occ c1 = Some y /\ 0 <= y <= 1).
    { rewrite C1. cbn [c_occ]. rewrite OX. cbn [addOcc option_map]. eexists. split; [reflexivity|].
      pose proof (pos_INR (length (c_pts c ++ l))) as PI. unfold clampOcc, MAX_OCC, MIN_OCC, LOG_LIKE.
      destruct (Rlt_dec 1 _); destruct (Rlt_dec _ (-1)); lra. }
    rewrite (IH c1).
    + rewrite !addPoints_form. rewrite C1 at 1 2 3 4 5 6 7 8. cbn [c_mean c_cov c_icov c_occ c_points c_gauss c_cent c_pts].
      rewrite C1 in O1. cbn [c_occ] in O1. destruct O1 as (y & OY & RY).
      cbn [concat] in *. rewrite <- !app_assoc in *.
      rewrite compute_first; [|cbn [c_occ]; rewrite OY; cbn; lra|cbn [c_pts]; rewrite <- ?app_assoc; exact LEN|reflexivity].
      rewrite compute_first; [|cbn [c_occ]; rewrite OX; cbn; lra|cbn [c_pts]; exact LEN|exact G].
      cbn [c_mean c_cov c_icov c_occ c_points c_gauss c_cent c_pts]. rewrite OY, OX. reflexivity.
    + rewrite C1. reflexivity.
    + exact O1.
    + intros pre post E N. rewrite C1. cbn [c_pts]. rewrite <- app_assoc.
      apply (PRE (l :: pre) post); [rewrite E; reflexivity|exact N].
    + rewrite C1. cbn [c_pts]. rewrite <- app_assoc. exact LEN.
    + congruence.
Qed.
Lemma cell_split ls : ls <> [] -> (6 <= length (concat ls))%nat ->
  (forall pre post, ls = pre ++ post -> post <> [] -> (length (concat pre) < 6)%nat) ->
  collect eig cell_new ls = computeGaussian eig (addPoints cell_new (concat ls)).
Proof.
  intros NE LEN PRE. apply cell_split_gen; auto. exists 0. split; [reflexivity|lra].
Qed.

(** ** C22 *)
Lemma exp_le1 x : x <= 0 -> 0 < exp x <= 1.
Proof.
  intro H. split; [apply exp_pos|]. destruct H as [H| ->]; [|rewrite exp_0; lra].
  rewrite <- exp_0. left. apply exp_increasing. auto.
Qed.
Lemma minv_pd_quad m v : posdef m -> 0 <= quad (minv m) v.
Proof.
  intro P. set (w := mvmul (minv m) v).
  assert (D : mdet m <> 0) by (apply posdef_det; auto).
  assert (E : v = mvmul m w) by (unfold w; rewrite <- mvmul_mmul, minv_r, mvmul_1; auto).
  unfold quad. fold w. rewrite E, vdot_comm. destruct (V3_dec w) as [->|N].
  - rewrite mvmul_zero. munfold. lra.
  - pose proof (proj2 P w N). unfold quad in H. lra.
Qed.
Lemma beam_negative B c s e j x : CI B c -> c_gauss c = true -> beamLogOdd c s e j = Some x -> x <= 0.
Proof.
  intros I G H. destruct (ci_gauss _ _ I G) as (PD & _ & IC & _). unfold beamLogOdd in H.
  rewrite IC, (inverse_pd _ PD) in H. destruct (Req_EM_T _ 0) as [Z|N]; [discriminate|].
  destruct (maxLikOnLine _ _ _ _ _) as [pt lik] eqn:ML.
  assert (LK : 0 < lik <= 1).
  { unfold maxLikOnLine in ML. destruct (Req_EM_T _ 0); injection ML as <- <-; [lra|].
    apply exp_le1. match goal with |- - vdot ?v (mvmul _ _) / 2 <= 0 =>
      pose proof (minv_pd_quad _ v PD) as Q; unfold quad in Q; lra end. }
  injection H as <-. set (d := vnorm (vsub pt e)).
  assert (TH : 0 < exp (- (1/2) * (d * d) / (SENSOR_NOISE * SENSOR_NOISE)) <= 1).
  { apply exp_le1. unfold SENSOR_NOISE. pose proof (Rle_0_sqr d) as Q. unfold Rsqr in Q.
    replace (- (1/2) * (d * d) / (1/100 * (1/100))) with (- 5000 * (d * d)) by field. lra. }
  set (th := exp _) in *. set (l2 := 1/10 * (lik * (1 - th)) + 1/2).
  assert (L2 : 1/2 <= l2 <= 6/10).
  { unfold l2. assert (0 <= lik * (1 - th)) by (apply Rmult_le_pos; lra).
    assert (lik * (1 - th) <= 1 * 1) by (apply Rmult_le_compat; lra). lra. }
  assert (Q : 0 < (1 - l2) / l2 <= 1).
  { split; [apply Rdiv_lt_0_compat; lra|]. apply Rmult_le_reg_r with l2; [lra|]. unfold Rdiv. rewrite Rmult_assoc, Rinv_l; lra. }
  destruct Q as [Q0 [Q1|Q1]].
  - left. rewrite <- ln_1. apply ln_increasing; auto.
  - rewrite Q1, ln_1. lra.
Qed.

Lemma occ_le0_false y : occ_le0 (Some y) = false -> 0 < y.
Proof. cbn. destruct (Rle_dec y 0); [discriminate|lra]. Qed.

Lemma cell_beam B c s e j n x : reach eig B c -> (0 <= n)%Z -> s <> e -> 1/100 <= l1 (vsub (c_mean c) e) ->
  c_occ c = Some x ->
  let c' := updateOccupancy c s e j n in
  exists y, c_occ c' = Some y /\ y <= x /\ (c_gauss c' = true -> 0 < y) /\
    c_mean c' = c_mean c /\ c_cov c' = c_cov c /\ c_points c' = c_points c.
Proof.
  intros R HN NE FAR OX c'. pose proof (reach_CI _ c R) as I.
  pose proof (ci_occ _ _ I) as OR. rewrite OX in OR. cbn in OR.
  assert (PN : 0 <= IZR n) by (apply IZR_le in HN; exact HN).
  unfold c', updateOccupancy. destruct (c_gauss c) eqn:G; cbn [negb].
  - assert (at_end c e = false) as ->.
    { unfold at_end. destruct (Rlt_dec _ (1/100)); [lra|reflexivity]. }
    destruct (beamLogOdd c s e j) as [v|] eqn:BL.
    2: { exfalso. apply NE. apply (beam_none c B s e j I G BL). }
    pose proof (beam_negative B c s e j v I G BL) as NV. rewrite OX. cbn [addOcc option_map].
    set (y := clampOcc (x + IZR n * v)).
    assert (YX : y <= x) by (apply clampOcc_le; [auto|nra]).
    destruct (occ_le0 (Some y)) eqn:OL.
    + exists y. cbn. split; [auto|]. split; [auto|]. split; [discriminate|auto].
    + exists y. cbn. split; [auto|]. split; [auto|]. split; [intros _; apply occ_le0_false; auto|auto].
  - rewrite OX. cbn [addOcc option_map]. set (y := clampOcc (x + NO_GAUSS_OCC * IZR n)).
    assert (YX : y <= x) by (apply clampOcc_le; [auto|unfold NO_GAUSS_OCC; nra]).
    cbn [set_occ c_occ]. destruct (occ_le0 (Some y)) eqn:OL.
    + exists y. cbn. split; [auto|]. split; [auto|]. split; [discriminate|auto].
    + exists y. cbn. split; [auto|]. split; [auto|]. split; [congruence|auto].
Qed.

(** ** C23 *)
Lemma cell_conditioned B c : reach eig B c -> c_gauss c = true ->
  posdef (c_cov c) /\ wellcond (c_cov c) /\
  exists i, c_icov c = Some i /\ mmul i (c_cov c) = mid /\ mmul (c_cov c) i = mid.
Proof.
  intros R G. destruct (ci_gauss _ _ (reach_CI _ c R) G) as (PD & W & IC & _).
  split; [auto|]. split; [auto|]. exists (minv (c_cov c)). rewrite IC.
  split; [apply inverse_pd; auto|]. pose proof (posdef_det _ PD).
  split; [apply minv_l|apply minv_r]; auto.
Qed.
Lemma cell_zero_not_rejected c : c_cov c = mzero ->
  c_gauss (rescaleCovar eig c) = true /\ c_icov (rescaleCovar eig c) = None.
Proof.
  intro Z. split; [reflexivity|]. cbn [rescaleCovar c_icov]. rewrite Z.
  assert (S0 : sym mzero) by (unfold sym; mring).
  destruct (floor_form mzero S0) as (q & e0 & e1 & e2 & O & L & M & ->).
  assert (EV : forall k, eigenvalue mzero k -> k = 0).
  { intros k (v & N & E). pose proof (vdot_pos v N) as P.
    assert (X : vdot v (mvmul mzero v) = 0) by mring. rewrite E in X.
    assert (Y : vdot v (vscale k v) = k * vdot v v) by mring. rewrite Y in X. nra. }
  assert (e0 = 0) by (apply EV; rewrite M; apply spec_eigenvalue; auto).
  assert (e2 = 0) by (apply EV; rewrite M; apply spec_eigenvalue; auto).
  subst. unfold inverse. destruct (Req_EM_T _ 0) as [|N]; [auto|]. exfalso. apply N.
  rewrite !mdet_mmul, mdet_diag. ring.
Qed.

(** ** C24 *)
Lemma tapply_comp s t v : tapply (tcomp s t) v = tapply s (tapply t v).
Proof. unfold tapply, tcomp. cbn [t_rot t_trans]. destruct s as [a b], t as [c d]. cbn [t_rot t_trans]. mcring. Qed.
Lemma tapply_inv t v : orth (t_rot t) -> tapply (tinv t) (tapply t v) = v.
Proof.
  intro O. unfold tapply, tinv. cbn [t_rot t_trans]. rewrite mvmul_add, <- mvmul_mmul, O, mvmul_1.
  generalize (mvmul (mtr (t_rot t)) (t_trans t)). mcring.
Qed.
Lemma rot_comp a b : rotation a -> rotation b -> rotation (mmul a b).
Proof. intros [O1 D1] [O2 D2]. split; [apply orth_mmul; auto|]. rewrite mdet_mmul, D1, D2. ring. Qed.
Lemma rot_tr a : rotation a -> rotation (mtr a).
Proof. intros [O D]. split; [apply orth_tr; auto|]. rewrite mdet_mtr. auto. Qed.

Lemma cell_transform B c t : reach eig B c -> rotation (t_rot t) ->
  (c_gauss c = false -> ctransform eig t c = c) /\
  (c_gauss c = true ->
    c_mean (ctransform eig t c) = tapply t (c_mean c) /\
    c_cov (ctransform eig t c) = mmul (mmul (t_rot t) (c_cov c)) (mtr (t_rot t)) /\
    c_gauss (ctransform eig t c) = true /\ c_occ (ctransform eig t c) = c_occ c /\
    c_points (ctransform eig t c) = c_points c).
Proof.
  intros R RT. split; intro G.
  - unfold ctransform. rewrite G. reflexivity.
  - rewrite (transform_form B c t (reach_CI _ c R) RT G). cbn. auto.
Qed.
Lemma cell_transform_comp B c s t : reach eig B c -> rotation (t_rot s) -> rotation (t_rot t) ->
  ctransform eig s (ctransform eig t c) = ctransform eig (tcomp s t) c.
Proof.
  intros R RS RT. destruct (c_gauss c) eqn:G.
  - pose proof (reach_CI _ c R) as I. pose proof (CI_transform B c t I RT) as I1.
    assert (G1 : c_gauss (ctransform eig t c) = true) by (rewrite (transform_form B c t I RT G); reflexivity).
    rewrite (transform_form B _ s I1 RS G1), (transform_form B c t I RT G).
    rewrite (transform_form B c (tcomp s t) I); [|cbn [tcomp t_rot]; apply rot_comp; auto|exact G].
    cbn [c_mean c_cov c_icov c_occ c_points c_gauss c_cent c_pts].
    rewrite tapply_comp. cbn [tcomp t_rot]. rewrite mtr_mmul.
    assert (E : mmul (mmul (t_rot s) (mmul (mmul (t_rot t) (c_cov c)) (mtr (t_rot t)))) (mtr (t_rot s)) =
                mmul (mmul (mmul (t_rot s) (t_rot t)) (c_cov c)) (mmul (mtr (t_rot t)) (mtr (t_rot s))))
      by (rewrite !mmul_assoc; reflexivity).
    rewrite E. reflexivity.
  - unfold ctransform. rewrite G, G. reflexivity.
Qed.
Lemma cell_transform_inv B c t : reach eig B c -> rotation (t_rot t) ->
  ctransform eig (tinv t) (ctransform eig t c) = c.
Proof.
  intros R RT. rewrite (cell_transform_comp B); [|auto|cbn; apply rot_tr; auto|auto].
  destruct (c_gauss c) eqn:G.
  - pose proof (reach_CI _ c R) as I.
    rewrite (transform_form B c _ I); [|cbn [tcomp tinv t_rot]; apply rot_comp; [apply rot_tr|]; auto|exact G].
    destruct RT as [O D]. rewrite tapply_comp, tapply_inv by auto. cbn [tcomp tinv t_rot]. rewrite O.
    assert (E : mmul (mmul mid (c_cov c)) (mtr mid) = c_cov c) by mcring. rewrite E.
    destruct (ci_gauss _ _ I G) as (_ & _ & IC & _). rewrite <- IC, <- G. destruct c; reflexivity.
  - unfold ctransform. rewrite G. reflexivity.
Qed.

(** ** Further statements *)
Lemma pooling_exact A B : (2 <= length A)%nat -> (2 <= length B)%nat ->
  pool_mean (INR (length A)) (mean_of A) (INR (length B)) (mean_of B) = mean_of (A ++ B) /\
  pool_cov (INR (length A)) (mean_of A) (sample_cov A) (INR (length B)) (mean_of B) (sample_cov B) =
    sample_cov (A ++ B).
Proof.
  intros HA HB. assert (A <> []) by (destruct A; cbn in HA; [lia|congruence]).
  assert (B <> []) by (destruct B; cbn in HB; [lia|congruence]).
  apply le_INR in HA. apply le_INR in HB. cbn in HA, HB.
  split; [apply pool_mean_union|apply pool_cov_union]; auto; lra.
Qed.
Lemma cell_merge_union B a b A L : reach eig B a -> reach eig B b -> c_gauss a = true -> c_gauss b = true ->
  c_points a = Z.of_nat (length A) -> c_mean a = mean_of A -> c_cov a = sample_cov A ->
  c_points b = Z.of_nat (length L) -> c_mean b = mean_of L -> c_cov b = sample_cov L ->
  (Z.of_nat (length (A ++ L)) <= MAX_POINTS)%Z ->
  let c := merge eig a b in
  c_points c = Z.of_nat (length (A ++ L)) /\ c_mean c = mean_of (A ++ L) /\
  conditioned (sample_cov (A ++ L)) (c_cov c).
Proof.
  intros RA RB GA GB PA MA CA PB MB CB CAP c.
  destruct (cell_merge_mean B a b A L RA RB GA GB PA MA PB MB CAP) as [P M].
  split; [exact P|]. split; [exact M|].
  destruct (cell_merge_pools B a b RA RB GA GB) as (_ & _ & C & _).
  pose proof (reach_CI _ a RA) as IA. pose proof (reach_CI _ b RB) as IB.
  destruct (ci_gauss _ _ IA GA) as (_ & _ & _ & LA). destruct (ci_gauss _ _ IB GB) as (_ & _ & _ & LB).
  rewrite PA, PB, MA, MB, CA, CB, <- !INR_IZR_INZ in C.
  rewrite (proj2 (pooling_exact A L ltac:(lia) ltac:(lia))) in C. exact C.
Qed.
Lemma cell_merge_missing B a b : reach eig B a -> reach eig B b ->
  (c_gauss b = false -> merge eig a b = a) /\
  (c_gauss a = false -> c_gauss b = true -> merge eig a b = b).
Proof.
  intros RA RB. split.
  - intro G. unfold merge. rewrite G. cbn [negb]. destruct (c_points b <=? 2)%Z; reflexivity.
  - intros GA GB. destruct (ci_gauss _ _ (reach_CI _ b RB) GB) as (_ & _ & _ & L).
    unfold merge. destruct (Z.leb_spec (c_points b) 2); [lia|]. rewrite GB, GA. cbn [negb].
    rewrite <- GB. destruct b; reflexivity.
Qed.
Lemma cell_merge_between B a b : reach eig B a -> reach eig B b -> c_gauss (merge eig a b) = true ->
  (c_gauss a = true /\ c_mean (merge eig a b) = c_mean a) \/
  (c_gauss b = true /\ c_mean (merge eig a b) = c_mean b) \/
  (c_gauss a = true /\ c_gauss b = true /\
   exists s, 0 <= s <= 1 /\ c_mean (merge eig a b) = vadd (vscale s (c_mean a)) (vscale (1 - s) (c_mean b))).
Proof.
  intros RA RB G. destruct (cell_merge_missing B a b RA RB) as [M1 M2].
  destruct (c_gauss b) eqn:GB; [|left; rewrite M1 in * by reflexivity; auto].
  destruct (c_gauss a) eqn:GA; [|right; left; rewrite M2 by reflexivity; auto].
  right. right. split; [reflexivity|]. split; [reflexivity|].
  destruct (cell_merge_pools B a b RA RB GA GB) as (_ & M & _ & _).
  pose proof (IZR_lt3 _ (cell_never_few B a RA GA)). pose proof (IZR_lt3 _ (cell_never_few B b RB GB)).
  set (p := IZR (c_points a)) in *. set (q := IZR (c_points b)) in *.
  exists (p / (p + q)). split.
  - split; [apply Rmult_le_pos; [lra|left; apply Rinv_0_lt_compat; lra]|].
    apply Rmult_le_reg_r with (p + q); [lra|]. unfold Rdiv. rewrite Rmult_assoc, Rinv_l by lra. lra.
  - rewrite M. unfold pool_mean. destruct (c_mean a), (c_mean b). apply V3_eq; cbn; field; lra.
Qed.
Lemma cell_more B c : reach eig B c -> c_gauss c = true ->
  (6 <= length (c_pts c))%nat -> (Z.of_nat (length (c_pts c)) <= MAX_POINTS)%Z ->
  let k := INR (length (c_pts c)) in
  let own := mscale ((k - 1) / (k * k)) (madd mid (scatter (c_pts c))) in
  let c' := computeGaussian eig c in
  c_gauss c' = true /\ c_pts c' = [] /\
  c_points c' = Z.min MAX_POINTS (c_points c + Z.of_nat (length (c_pts c))) /\
  c_mean c' = pool_mean (IZR (c_points c)) (c_mean c) k (mean_of (c_pts c)) /\
  conditioned (pool_cov (IZR (c_points c)) (c_mean c) (c_cov c) k (mean_of (c_pts c)) own) (c_cov c').
Proof.
  intros R G M HM k own c'. pose proof (reach_CI _ c R) as I. unfold c'. rewrite (compute_more B c I M HM G).
  cbn [c_mean c_cov c_icov c_occ c_points c_gauss c_cent c_pts].
  split; [auto|]. split; [auto|]. split; [auto|]. split; [auto|].
  unfold own, k. rewrite <- batch_cov_spec by (destruct (c_pts c); cbn in M; [lia|congruence]).
  destruct (ci_gauss _ _ I G) as (PD & _ & _ & L). pose proof (IZR_lt3 _ L).
  assert (R2 : 6 <= INR (length (c_pts c))) by (apply le_INR in M; cbn in M; lra).
  apply floor_conditioned, pool_pd; [lra|lra|auto|apply batch_cov_pd; lia].
Qed.
Lemma cell_hit B c s e j n x : reach eig B c -> c_gauss c = true ->
  l1 (vsub (c_mean c) e) < 1/100 -> c_occ c = Some x ->
  let c' := updateOccupancy c s e j n in
  c_gauss c' = true /\ exists y, c_occ c' = Some y /\ x <= y /\ (0 <= x -> y = 1).
Proof.
  intros R G NEAR OX c'. pose proof (ci_occ _ _ (reach_CI _ c R)) as OR. rewrite OX in OR. cbn in OR.
  unfold c', updateOccupancy. rewrite G. cbn [negb].
  assert (at_end c e = true) as -> by (unfold at_end; destruct (Rlt_dec _ (1/100)); [reflexivity|lra]).
  cbn [set_occ c_gauss c_occ]. split; [auto|]. rewrite OX. cbn [addOcc option_map]. eexists. split; [reflexivity|].
  unfold clampOcc, MAX_OCC, MIN_OCC. destruct (Rlt_dec 1 (x + 1)); destruct (Rlt_dec _ (-1)); split; intros; lra.
Qed.

End E.
