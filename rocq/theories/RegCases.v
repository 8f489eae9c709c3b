(** Concrete registrations: cases that meet the hypotheses of the theorems, and
    cases in which a property fails. *)
From Coq Require Import Reals ZArith List Bool Lra Lia Psatz.
From Verif Require Import Base LinAlg3 Deriv MatDeriv GeoModel GeoSpec GeoProofs OptModel RegModel RegSpec
  RegStep RegNewton RegDeriv RegD2D RegPose RegFit RegP2D RegMisc.
Import ListNotations.
Open Scope R_scope.

Definition halfcov : M3 := mdiag (1 / 2) (1 / 2) (1 / 2).
Definition cellAt (x y : R) : gcell := mkG (mkV x y 0) halfcov.
Definition only {A} (t : A) : P2 -> nat -> list A := fun _ _ => [t].
Definition dparams : fparams := calcParams (55 / 100) 4.
Definition pparams : fparams := calcParams (30 / 100) 4.

Lemma dfit : g_d1 dparams < 0 /\ 0 < g_d2 dparams < 1 /\ g_half dparams = g_d2 dparams / 2.
Proof. apply fit; lra. Qed.
Lemma pfit : g_d1 pparams < 0 /\ 0 < g_d2 pparams < 1 /\ g_half pparams = g_d2 pparams / 2.
Proof. apply fit; lra. Qed.

Lemma half_sum : madd halfcov halfcov = mid.
Proof. unfold halfcov. apply M3_eq; mcomp; lra. Qed.
Lemma minv_mid : minv mid = mid.
Proof. unfold minv. replace (mdet mid) with 1 by (mcomp; ring). rewrite Rinv_1. apply M3_eq; mcomp; ring. Qed.
Lemma turned_half a : mmul (mmul (turn a) halfcov) (mtr (turn a)) = halfcov.
Proof.
  unfold halfcov, turn. pose proof (sin2_cos2 a) as H. unfold Rsqr in H.
  apply M3_eq; mcomp; try ring; try (rewrite <- Rmult_1_r at 1);
    try (transitivity (1 / 2 * (sin a * sin a + cos a * cos a)); [ring|rewrite H; ring]).
Qed.
Lemma moved_cell q x y : moved q (cellAt x y) =
  mkG (vadd (mvmul (turn (vz q)) (mkV x y 0)) (mkV (vx q) (vy q) 0)) halfcov.
Proof. unfold moved, cellAt. cbn [gc_mean gc_cov]. rewrite turned_half. reflexivity. Qed.
Lemma half_regular m m' : regular_pair (mkG m halfcov) (mkG m' halfcov).
Proof.
  unfold regular_pair. cbn [gc_cov]. rewrite half_sum.
  split; [apply mtr_diag|]. split; [apply mtr_diag|].
  replace (mdet mid) with 1 by (mcomp; ring). rewrite Rabs_R1.
  rewrite <- Rinv_1 at 1. apply Rinv_lt_contravar; [|]; lra.
Qed.
Lemma only_matches t l q : matches (only t) l q = map (fun c => (moved q c, t)) l.
Proof. unfold matches, only. induction l as [|c l IH]; [reflexivity|]. cbn. f_equal. Qed.
Lemma only_matched {t} l q : matched (only t) l q = map (fun c => (c, t)) l.
Proof. unfold matched, only. induction l as [|c l IH]; [reflexivity|]. cbn. f_equal. Qed.

(** gradient and Hessian for two round cells of the same size *)
Lemma score_round p x1 x2 y1 y2 :
  let e := exp (- g_half p * ((x1 - y1) * (x1 - y1) + (x2 - y2) * (x2 - y2))) in
  let k := - g_half p * (- g_d1 p * e) in
  let dx := x1 - y1 in let dy := x2 - y2 in
  let g := mkV (2 * dx) (2 * dy) (2 * (dy * x1 - dx * x2)) in
  pairSad p true (cellAt x1 x2, cellAt y1 y2) =
  mkSad (mscale k (msub (mkM 2 0 (- 2 * x2) 0 2 (2 * x1) (- 2 * x2) (2 * x1)
                             (2 * (x1 * x1 + x2 * x2 - dx * x1 - dy * x2)))
                        (mscale (g_half p) (outer g g))))
        (vscale k g) (- g_d1 p * e).
Proof.
  cbv zeta. unfold pairSad, calcSourceCellScore. cbn [fst snd cellAt gc_mean gc_cov]. cbv zeta.
  rewrite inverseExists_ok by (apply (half_regular (mkV x1 x2 0) (mkV y1 y2 0))). cbn [negb].
  rewrite half_sum, minv_mid.
  replace (vdot (vsub (mkV x1 x2 0) (mkV y1 y2 0)) (mvmul mid (vsub (mkV x1 x2 0) (mkV y1 y2 0))))
    with ((x1 - y1) * (x1 - y1) + (x2 - y2) * (x2 - y2)) by (mcomp; ring).
  generalize (exp (- g_half p * ((x1 - y1) * (x1 - y1) + (x2 - y2) * (x2 - y2)))). intro e.
  unfold computeDerivatives. cbn [dv_J dv_Z dv_H dv_ZH Nat.eqb andb].
  generalize (g_half p) (g_d1 p). intros h d.
  unfold halfcov. f_equal; [apply M3_eq|apply V3_eq]; unfold vmmul, col2, row2; mcomp; field.
Qed.

(** ** Uniqueness *)
Lemma gradient_unique f a b q : is_gradient f a q -> is_gradient f b q -> a = b.
Proof.
  intros (A1 & A2 & A3) (B1 & B2 & B3). apply V3_eq; eapply uniqueness_limite; eassumption.
Qed.
Lemma hessian_unique11 f a b q : is_hessian f a q -> is_hessian f b q -> m11 a = m11 b.
Proof.
  intros (G & r & R0 & HG & (A1 & _ & _) & _) (G' & r' & R0' & HG' & (B1 & _ & _) & _).
  cbn [vx] in A1, B1. eapply uniqueness_limite; [|exact B1].
  pose proof (Rmin_glb_lt _ _ _ R0 R0').
  apply (derivable_pt_lim_locally_ext (fun s => vx (G (mkV s (vy q) (vz q)))) _ (vx q)
           (vx q - Rmin r r') (vx q + Rmin r r')); [lra| |exact A1].
  intros z Hz. f_equal. pose proof (Rmin_l r r'). pose proof (Rmin_r r r').
  assert (N : forall e, Rmin r r' <= e -> near e q (mkV z (vy q) (vz q))).
  { intros e E. unfold near. cbn [vx vy vz]. replace (vy q - vy q) with 0 by ring. replace (vz q - vz q) with 0 by ring. rewrite Rabs_R0.
    split; [|lra]. apply Rabs_def1; lra. }
  apply (gradient_unique f _ _ (mkV z (vy q) (vz q))); [apply HG|apply HG']; apply N; assumption.
Qed.

(** ** D2D: the angle component is not the derivative in the angle of the pose *)
Definition onlyD := only (cellAt 0 1).
Definition oneS := [cellAt 0 0].
Definition oneQ : V3 := mkV 1 0 0.
Lemma one_moved : moved oneQ (cellAt 0 0) = cellAt 1 0.
Proof.
  rewrite moved_cell. unfold oneQ. cbn [vx vy vz]. rewrite turn_0. unfold cellAt. f_equal.
  apply V3_eq; mcomp; ring.
Qed.
Lemma one_regular : Forall (fun m => regular_pair (fst m) (snd m)) (matches onlyD oneS oneQ).
Proof.
  unfold onlyD. rewrite only_matches. unfold oneS. cbn [map]. rewrite one_moved.
  constructor; [|constructor]. apply half_regular.
Qed.
Lemma factor_pos p d : g_d1 p < 0 -> 0 < g_d2 p -> g_half p = g_d2 p / 2 ->
  - g_half p * (- g_d1 p * exp (- g_half p * d)) < 0.
Proof.
  intros D1 D2 H. pose proof (exp_pos (- g_half p * d)) as E. rewrite H in *.
  assert (0 < - g_d1 p * exp (- (g_d2 p / 2) * d)) by (apply Rmult_lt_0_compat; lra). nra.
Qed.
Theorem d2d_angle_wrong :
  Forall (fun m => regular_pair (fst m) (snd m)) (matches onlyD oneS oneQ) /\
  ~ is_gradient (total_score dparams (matched onlyD oneS oneQ))
      (sd_grad (calcScore onlyD dparams oneS oneQ true)) oneQ.
Proof.
  split; [exact one_regular|]. intro B.
  pose proof (d2d_pose onlyD dparams oneS oneQ one_regular) as A. cbv zeta in A.
  pose proof (f_equal vz (gradient_unique _ _ _ _ A B)) as E. cbn [vx vy vz oneQ] in E.
  rewrite calcScore_sum in E. unfold onlyD in E. rewrite only_matches in E. unfold oneS in E.
  cbn [map] in E. rewrite one_moved, sdsum_cons, sdsum_nil, sdadd_0_r in E. unfold cellAt in E.
  fold (cellAt 1 0) (cellAt 0 1) in E. rewrite score_round in E. cbn [sd_grad] in E.
  destruct dfit as (D1 & D2 & D3).
  pose proof (factor_pos dparams ((1 - 0) * (1 - 0) + (0 - 1) * (0 - 1)) D1 (proj1 D2) D3) as K.
  cbn [vscale vx vy vz] in E. lra.
Qed.

(** ** P2D *)
Definition idcell (x y : R) : icell := mkI mid (x, y).
Lemma id_proper x y : proper (idcell x y).
Proof.
  split; [reflexivity|]. intro v. unfold quad2, idcell. cbn [ic_icov]. mcomp. nra.
Qed.
Definition tinyQ : V3 := mkV 0 0 (/ 20000).
Lemma only_pmatches c l q : pmatches (only c) l q = map (fun pt => (pt, c)) l.
Proof. unfold pmatches, only. induction l as [|p l IH]; [reflexivity|]. cbn. f_equal. Qed.
Lemma sin_tiny : 0 < sin (/ 20000).
Proof. apply sin_gt_0; [lra|]. pose proof PI_RGT_0. pose proof PI2_3_2. lra. Qed.
Theorem p2d_small_angle_wrong :
  let ms := pmatches (only (idcell (-1) 0)) [(1, 0)] tinyQ in
  Forall (fun m => proper (snd m)) ms /\
  ~ is_gradient (total_points pparams ms)
      (sd_grad (calcScoreP (only (idcell (-1) 0)) [(1, 0)] tinyQ pparams)) tinyQ.
Proof.
  cbv zeta. split.
  { rewrite only_pmatches. cbn [map]. constructor; [|constructor]. apply id_proper. }
  intro B. destruct pfit as (D1 & D2 & D3).
  assert (A : is_gradient (total_points pparams (pmatches (only (idcell (-1) 0)) [(1, 0)] tinyQ))
                (vadd (G pparams (idcell (-1) 0) (1, 0) tinyQ) vzero) tinyQ).
  { rewrite only_pmatches. cbn [map].
    apply (gradient_plus (point_score pparams (idcell (-1) 0) (1, 0)) (fun _ => 0)).
    - apply point_grad; [exact D3|apply id_proper].
    - apply gradient_const. }
  pose proof (f_equal vz (gradient_unique _ _ _ _ A B)) as E. clear A B.
  rewrite calcScoreP_sum, only_pmatches in E. cbn [map] in E. rewrite sdsum_cons, sdsum_nil, sdadd_0_r in E.
  unfold ptSad, calcPointScore in E. cbv zeta in E.
  unfold t2apply, vecToMat, getTransFromPose, poseOf, tinyQ in E.
  cbn [fst snd ta tb tc td tx ty px py pth vx vy vz idcell ic_icov ic_mean] in E.
  unfold cosOf, sinOf, smallAngle in E.
  destruct (Rlt_dec (Rabs (/ 20000)) (/ 10000)) as [_|L].
  2:{ apply L. rewrite Rabs_right by lra. lra. }
  pose proof (id_proper (-1) 0) as (_ & PD).
  set (wx := cos (/ 20000) * 1 + - sin (/ 20000) * 0 + 0 - -1) in *.
  set (wy := sin (/ 20000) * 1 + cos (/ 20000) * 0 + 0 - 0) in *.
  pose proof (guard_ok pparams _ D2 D3 (PD (wx, wy))) as (GL & GH).
  unfold quad2 in GL, GH. cbn [fst snd idcell ic_icov] in GL, GH.
  assert (QE : (wx * m11 mid + wy * m21 mid) * wx + (wx * m12 mid + wy * m22 mid) * wy =
     m11 mid * wx * wx + (m12 mid + m21 mid) * wx * wy + m22 mid * wy * wy) by (mcomp; ring).
  rewrite QE in E.
  destruct (Rlt_dec 1 _) as [B|_] in E; [lra|]. destruct (Rlt_dec _ 0) as [B|_] in E; [lra|].
  unfold G, gz, f1, ax, ay, jx, jy, RegP2D.E, RegP2D.wx, RegP2D.wy in E.
  cbn [vadd vzero vz vx vy sd_grad fst snd idcell ic_icov ic_mean] in E.
  assert (W1 : cos (/ 20000) * 1 - sin (/ 20000) * 0 + 0 - -1 = wx) by (unfold wx; ring).
  assert (W2 : sin (/ 20000) * 1 + cos (/ 20000) * 0 + 0 - 0 = wy) by reflexivity.
  rewrite W1 in E. fold wy in E.
  set (e := exp (- g_half pparams * (m11 mid * wx * wx + (m12 mid + m21 mid) * wx * wy + m22 mid * wy * wy))) in *.
  assert (EP : 0 < e) by apply exp_pos. clearbody e.
  cbn [mid m11 m12 m21 m22 mdiag] in E.
  pose proof sin_tiny as SP. unfold wx, wy in E. set (s := sin (/ 20000)) in *. set (c := cos (/ 20000)) in *.
  assert (X : g_d1 pparams * (g_d2 pparams * e) * (2 * s) = 0).
  { match type of E with ?l = ?r => replace (g_d1 pparams * (g_d2 pparams * e) * (2 * s)) with (r - l) by ring end. lra. }
  assert (0 < g_d2 pparams * e) by (apply Rmult_lt_0_compat; lra).
  assert (g_d1 pparams * (g_d2 pparams * e) < 0) by nra. nra.
Qed.
Theorem p2d_hessian_wrong :
  let ms := pmatches (only (idcell 0 0)) [(1, 0)] vzero in
  Forall (fun m => proper (snd m)) ms /\ exact_angle 0 /\
  ~ is_hessian (total_points pparams ms)
      (sd_hess (calcScoreP (only (idcell 0 0)) [(1, 0)] vzero pparams)) vzero.
Proof.
  cbv zeta.
  assert (PR : Forall (fun m => proper (snd m)) (pmatches (only (idcell 0 0)) [(1, 0)] vzero)).
  { rewrite only_pmatches. cbn [map]. constructor; [|constructor]. apply id_proper. }
  split; [exact PR|]. split; [left; reflexivity|]. intro B.
  destruct (p2d_derivs (only (idcell 0 0)) (30 / 100) 4 [(1, 0)] vzero ltac:(lra) ltac:(lra) PR
              (or_introl eq_refl)) as (_ & _ & A).
  pose proof (hessian_unique11 _ _ _ _ A B) as E. fold pparams in E.
  rewrite only_pmatches in E. cbn [map Rsum fold_right fst snd msub mscale m11 all_but_angle] in E.
    unfold msub, madd, mscale, all_but_angle in E. cbn [m11] in E.
    assert (Z : bend pparams (idcell 0 0) (1, 0) vzero = 0) by lra. clear E A B.
  unfold bend, t2apply, getTransFromPose in Z. cbv zeta in Z.
  cbn [fst snd ta tb tc td tx ty px py pth vx vy vz vzero idcell ic_icov ic_mean] in Z.
  rewrite cos_0, sin_0 in Z. cbn [mid mdiag m11 m12 m21 m22] in Z.
  destruct pfit as (D1 & D2 & D3).
  match type of Z with _ * exp ?x * _ = _ => pose proof (exp_pos x) as EP; set (e := exp x) in * end.
  clearbody e.
  assert (X : - g_d1 pparams * g_d2 pparams * e = 0).
  { rewrite <- Z. ring. }
  assert (0 < - g_d1 pparams * g_d2 pparams) by (apply Rmult_lt_0_compat; lra).
  assert (0 < - g_d1 pparams * g_d2 pparams * e) by (apply Rmult_lt_0_compat; lra). lra.
Qed.

(** ** The reported covariance *)
Definition covTarget : gcell := cellAt 2 0.
Definition covScore (q : V3) : sad := calcScore (only covTarget) dparams [cellAt 1 0] q true.
Definition covLayer : layer := mkL covScore covScore.
Lemma cov_score : covScore vzero = pairSad dparams true (cellAt 1 0, cellAt 2 0).
Proof.
  unfold covScore. rewrite calcScore_sum, only_matches. cbn [map]. rewrite moved_0, sdsum_cons, sdsum_nil, sdadd_0_r.
  reflexivity.
Qed.
Lemma matToVec_id : matToVec t2id = vzero.
Proof.
  assert (E : t2id = getTransFromPose (mkP 0 0 0)).
  { apply T2_eq; cbn; rewrite ?cos_0, ?sin_0; ring. }
  unfold matToVec, vecOfT. rewrite E, pose_of_trans. cbn [px py pth]. rewrite normalize_id.
  - reflexivity.
  - pose proof PI_RGT_0. lra.
Qed.
Theorem covariance_wrong solve eps step s : solves solve -> 0 < eps ->
  exists r, d2dAlign solve eps step 1 1 true [covLayer] t2id s = Some (Some r) /\
    rs_conv r = true /\ m11 (rs_cov r) < 0.
Proof.
  intros HS HE. unfold d2dAlign. cbn [runLayers d2dLoop]. rewrite matToVec_id.
  unfold newtonStep. cbn [ly_score ly_search covLayer]. cbv zeta.
  destruct dfit as (D1 & D2 & D3).
  pose proof cov_score as CS. unfold cellAt in CS. fold (cellAt 1 0) (cellAt 2 0) in CS. rewrite score_round in CS.
  pose proof (factor_pos dparams ((1 - 2) * (1 - 2) + (0 - 0) * (0 - 0)) D1 (proj1 D2) D3) as K.
  set (k := - g_half dparams * (- g_d1 dparams * exp (- g_half dparams * ((1 - 2) * (1 - 2) + (0 - 0) * (0 - 0))))) in *.
  clearbody k.
  assert (ND : mdet (sd_hess (covScore vzero)) <> 0).
  { rewrite CS. cbn [sd_hess]. set (h := g_half dparams) in *. 
    replace (mdet _) with (k * k * k * ((2 - 4 * h) * 4)) by (unfold outer; mcomp; ring).
    apply Rmult_integral_contrapositive_currified; [|lra].
    repeat apply Rmult_integral_contrapositive_currified; lra. }
  destruct (HS _ (vscale (-1) (sd_grad (covScore vzero))) ND) as (d & E & ED). rewrite E.
  destruct (Req_EM_T (vnorm d) 0) as [Z|NZ].
  { exfalso. pose proof (vnorm_sq d) as Q. rewrite Z, Rmult_0_l in Q.
    assert (d = vzero).
    { destruct d as [a b c]. unfold vdot in Q. cbn in Q. apply V3_eq; cbn; nra. }
    subst d. pose proof (f_equal vx ED) as X. rewrite CS in X. cbn [sd_grad sd_hess] in X.
    revert X. unfold vscale. mcomp. intro X. lra. }
  destruct (step_length covScore vzero (vscale (/ vnorm d) d) (vnorm d) step (eps / 2) (covScore vzero) ltac:(lra)) as (S1 & S2).
  destruct (Req_EM_T (vdot (sd_grad (covScore vzero)) (vscale (/ vnorm d) d)) 0) as [G|G].
  - rewrite (S1 G). cbn [fst snd Z.leb Z.of_nat Pos.of_succ_nat Z.compare Pos.compare Pos.compare_cont orb].
    eexists. split; [reflexivity|]. cbn [rs_conv rs_cov]. split; [reflexivity|].
    rewrite CS. cbn [sd_hess]. unfold outer. mcomp. nra.
  - rewrite (S2 G). cbn [fst snd Z.leb Z.of_nat Pos.of_succ_nat Z.compare Pos.compare Pos.compare_cont orb].
    eexists. split; [reflexivity|]. cbn [rs_conv rs_cov]. split; [reflexivity|].
    rewrite CS. cbn [sd_hess]. unfold outer. mcomp. nra.
Qed.

(** ** A scan against itself *)
Definition selfScore (q : V3) : sad := calcScore (only (cellAt 1 0)) dparams [cellAt 1 0] q true.
Definition selfLayer : layer := mkL selfScore selfScore.
Theorem self_fails solve eps step max_iter fuel s : solves_zero solve ->
  d2dAlign solve eps step max_iter (S fuel) true [selfLayer] t2id s = Some (Some (mkRS false t2id 0 mid mid)).
Proof.
  intro HS. apply stuck_d2d. rewrite matToVec_id. unfold no_direction. cbn [ly_score selfLayer].
  assert (G : vscale (-1) (sd_grad (selfScore vzero)) = vzero).
  { unfold selfScore. rewrite calcScore_sum, only_matches. cbn [map].
    rewrite moved_0, sdsum_cons, sdsum_nil, sdadd_0_r.
    unfold cellAt. fold (cellAt 1 0). rewrite score_round. cbn [sd_grad].
    apply V3_eq; unfold vscale; mcomp; ring. }
  rewrite G, HS. unfold vnorm. replace (vdot vzero vzero) with 0 by (mcomp; ring). apply sqrt_0.
Qed.

(** ** Robust registration *)
Definition tA : T2 := t2id.
Definition tB : T2 := mkT2 1 0 0 1 1 0.
Definition proofAB (a b : R) (t : T2) : R := if Req_EM_T (tx t) 0 then a else b.
Lemma proof_A a b : proofAB a b tA = a.
Proof. unfold proofAB, tA, t2id. cbn. destruct (Req_EM_T 0 0); [reflexivity|contradiction]. Qed.
Lemma proof_B a b : proofAB a b tB = b.
Proof. unfold proofAB, tB. cbn. destruct (Req_EM_T 1 0); [lra|reflexivity]. Qed.
Ltac rd := repeat match goal with
  | |- context [Rlt_dec ?a ?b] => destruct (Rlt_dec a b); try lra
  end.
(** a limit above 0.7: a first result between 0.7 and the limit is undefined *)
Theorem robust_undefined guess :
  setRejectionLimit (8 / 10) = Ok (8 / 10) /\
  robustAlign (fun _ => (true, tA)) (fun _ => (true, tA)) (fun _ => 75 / 100) (8 / 10) guess = UB.
Proof.
  split.
  - unfold setRejectionLimit. rd; reflexivity.
  - unfold robustAlign. cbn [fst snd andb]. rd; reflexivity.
Qed.
(** a limit above 0.6: a transform below the limit is accepted *)
Theorem robust_below_limit guess :
  robustAlign (fun _ => (true, tA)) (fun _ => (true, tA)) (fun _ => 62 / 100) (65 / 100) guess =
  Ok (mkRob true tA (62 / 100)).
Proof. unfold robustAlign. cbn [fst snd andb negb]. rd; reflexivity. Qed.
(** the transform of a registration that failed is accepted *)
Definition failsFirst (t : T2) : bool * T2 := if Req_EM_T (tx t) 0 then (false, tA) else (true, tB).
Theorem robust_unconverged :
  robustAlign failsFirst (fun _ => (true, tB)) (proofAB (65 / 100) (3 / 10)) (4 / 10) tA =
  Ok (mkRob true tA (65 / 100)) /\ fst (failsFirst tA) = false.
Proof.
  assert (F1 : failsFirst tA = (false, tA)).
  { unfold failsFirst, tA, t2id. cbn. destruct (Req_EM_T 0 0); [reflexivity|contradiction]. }
  assert (F2 : failsFirst tB = (true, tB)).
  { unfold failsFirst, tB. cbn. destruct (Req_EM_T 1 0); [lra|reflexivity]. }
  split; [|rewrite F1; reflexivity].
  unfold robustAlign. cbn [fst snd]. rewrite F1. cbn [fst snd andb negb]. rewrite F2. cbn [fst snd negb].
  rewrite proof_A, proof_B. rd; reflexivity.
Qed.

(** ** Settings *)
Theorem zero_layers r : (do c <- newReg r; foldM cfgstep [SetLayers 0; AskCell] c) = UB /\
  (do c <- newReg r; foldM cfgstep [SetLayers 0; SetLayers 4] c) = UB.
Proof.
  rewrite new_good. cbn [bind foldM].
  assert (E : exists c, cfgstep (goodCfg 4 (1 / 4) r) (SetLayers 0) = Ok c /\ cf_sizes c = []).
  { unfold cfgstep, setNumLayers, goodCfg at 1. cbn [cf_sizes]. rewrite sizes_back by lia. cbn [bind].
    unfold initCellSizes, goodCfg. cbn [cf_sizes cf_layers]. rewrite sizes_length. cbn [Nat.eqb bind].
    rewrite sizes_back by lia. cbn [bind]. rewrite andb_false_r. cbn [bind fst]. eexists. split; reflexivity. }
  destruct E as (c & E & Z). rewrite E. cbn [bind].
  unfold cfgstep, getCellSize, setNumLayers, vback. rewrite Z. split; reflexivity.
Qed.
