(** Proofs: interpolation steps of the line search. *)
From Coq Require Import Reals Lra Psatz Nsatz.
From Verif Require Import LinAlg3 OptModel RegModel RegStep TrialSpec.
Open Scope R_scope.

Lemma xsub_F a b : xsub (Fin a) (Fin b) = Fin (a - b). Proof. reflexivity. Qed.
Lemma xmul_F a b : xmul (Fin a) (Fin b) = Fin (a * b). Proof. reflexivity. Qed.
Lemma xadd_F a b : xadd (Fin a) (Fin b) = Fin (a + b). Proof. reflexivity. Qed.

Definition zc al fl gl at' ft gt : R := 3 * (ft - fl) / (at' - al) - gt - gl.
Definition wc al fl gl at' ft gt : R := sqrt (zc al fl gl at' ft gt * zc al fl gl at' ft gt - gt * gl).
Definition ac al fl gl at' ft gt : R :=
  al + (at' - al) * (wc al fl gl at' ft gt - gl - zc al fl gl at' ft gt) / (gt - gl + 2 * wc al fl gl at' ft gt).
Lemma cubic_fin al fl gl at' ft gt : at' <> al ->
  0 <= zc al fl gl at' ft gt * zc al fl gl at' ft gt - gt * gl -> gt - gl + 2 * wc al fl gl at' ft gt <> 0 ->
  cubicMin (at_pt al fl gl) (at_pt at' ft gt) = Fin (ac al fl gl at' ft gt).
Proof.
  intros NE P D. unfold cubicMin, at_pt. cbn [e_a e_f e_g].
  rewrite !xsub_F, xmul_F, xdiv_F by lra. rewrite !xsub_F. fold (zc al fl gl at' ft gt). rewrite !xmul_F, xsub_F, xsqrt_F by exact P.
  fold (wc al fl gl at' ft gt). rewrite !xsub_F, !xmul_F, xadd_F, xdiv_F, xadd_F by exact D. reflexivity.
Qed.
(** the root of the slope that is found *)
Lemma cubic_root c0 c1 c2 c3 al fl gl at' ft gt : at' <> al -> through c0 c1 c2 c3 al fl gl at' ft gt ->
  0 <= zc al fl gl at' ft gt * zc al fl gl at' ft gt - gt * gl -> gt - gl + 2 * wc al fl gl at' ft gt <> 0 ->
  dcub c1 c2 c3 (ac al fl gl at' ft gt) = 0 /\
  (at' - al) * ddcub c2 c3 (ac al fl gl at' ft gt) = 2 * wc al fl gl at' ft gt.
Proof.
  intros NE (F1 & G1 & F2 & G2) P D. unfold ac. assert (H0 : at' - al <> 0) by lra.
  set (h := at' - al) in *. set (z := zc al fl gl at' ft gt) in *. assert (W : wc al fl gl at' ft gt * wc al fl gl at' ft gt = z * z - gt * gl) by (apply sqrt_sqrt; exact P).
  set (w := wc al fl gl at' ft gt) in *.
  set (A := (2 * c2 + 6 * c3 * al) * h). set (Bq := 3 * c3 * (h * h)).
  assert (AT : at' = al + h) by (unfold h; ring).
  assert (EG : gt = gl + A + Bq) by (unfold A, Bq; rewrite <- G1, <- G2, AT; unfold dcub; ring).
  assert (EF : ft - fl = h * (gl + A / 2 + Bq / 3)) by (unfold A, Bq; rewrite <- G1, <- F1, <- F2, AT; unfold dcub, cub; field).
  assert (EZ : z = gl + A / 2).
  { unfold z, zc. fold h. rewrite EF, EG. field. exact H0. }
  set (D0 := gt - gl + 2 * w) in *. set (N := w - gl - z).
  assert (I1 : gl * D0 * D0 + A * N * D0 + Bq * N * N = 0).
  { unfold D0, N. assert (EA : A = 2 * (z - gl)) by lra. assert (EB : Bq = gt + gl - 2 * z) by lra. rewrite EA, EB. clear - W. nsatz. }
  assert (I2 : A * D0 + 2 * Bq * N = 2 * w * D0).
  { unfold D0, N. assert (EA : A = 2 * (z - gl)) by lra. assert (EB : Bq = gt + gl - 2 * z) by lra. rewrite EA, EB. clear - W. nsatz. }
  split.
  - assert (E : dcub c1 c2 c3 (al + h * N / D0) = (gl * D0 * D0 + A * N * D0 + Bq * N * N) / (D0 * D0)).
    { unfold A, Bq. rewrite <- G1. unfold dcub. field. exact D. }
    rewrite E, I1. field. exact D.
  - assert (E : h * ddcub c2 c3 (al + h * N / D0) = (A * D0 + 2 * Bq * N) / D0).
    { unfold A, Bq, ddcub. field. exact D. }
    rewrite E, I2. field. exact D.
Qed.
Lemma cubic_denominator al fl gl at' ft gt a : at' <> al -> 0 <= zc al fl gl at' ft gt * zc al fl gl at' ft gt - gt * gl ->
  cubicMin (at_pt al fl gl) (at_pt at' ft gt) = Fin a -> gt - gl + 2 * wc al fl gl at' ft gt <> 0.
Proof.
  intros NE P E Z. unfold cubicMin, at_pt in E. cbn [e_a e_f e_g] in E.
  rewrite !xsub_F, xmul_F, xdiv_F in E by lra. rewrite !xsub_F in E. fold (zc al fl gl at' ft gt) in E. rewrite !xmul_F, xsub_F, xsqrt_F in E by exact P.
  fold (wc al fl gl at' ft gt) in E. rewrite !xsub_F, !xmul_F, xadd_F in E. rewrite Z in E. cbn in E. destruct (Req_EM_T 0 0) as [_|C]; [|lra].
  unfold xinf in E. destruct (Rlt_dec _ _); [discriminate|]. destruct (Rlt_dec _ _); discriminate.
Qed.
(** to the right of a place where the function falls *)
Lemma cubic_signs al fl gl at' ft gt : al < at' -> gl < 0 -> fl < ft \/ 0 < gt ->
  let z := zc al fl gl at' ft gt in let w := wc al fl gl at' ft gt in
  0 <= z * z - gt * gl /\ 0 < w /\ 0 < gt - gl + 2 * w /\ 0 < w - gl - z /\ w - gl - z < gt - gl + 2 * w.
Proof.
  intros L G H. cbv zeta. set (z := zc al fl gl at' ft gt).
  assert (HZ : 0 < gt \/ gt <= 0 /\ - gt - gl < z).
  { destruct (Rlt_le_dec 0 gt) as [T|T]; [left; exact T|]. right. split; [exact T|]. destruct H as [H|H]; [|lra].
    unfold z, zc. assert (0 < 3 * (ft - fl) / (at' - al)) by (apply Rdiv_lt_0_compat; lra). lra. }
  assert (P : 0 < z * z - gt * gl) by (destruct HZ as [T|[T Z1]]; nra).
  set (w := wc al fl gl at' ft gt). assert (W : w * w = z * z - gt * gl) by (apply sqrt_sqrt; fold z; lra).
  assert (WP : 0 < w) by (apply sqrt_lt_R0; exact P). clearbody w z. clear H.
  split; [lra|]. split; [exact WP|].
  destruct HZ as [T|[T Z1]].
  - assert (- w < z < w) by nra. lra.
  - assert (0 < z) by lra. assert (w <= z) by nra. assert (z + gl < w) by nra. assert (- gt < w) by nra. lra.
Qed.
Theorem cubic_min c0 c1 c2 c3 al fl gl at' ft gt : al < at' -> gl < 0 -> fl < ft \/ 0 < gt ->
  through c0 c1 c2 c3 al fl gl at' ft gt ->
  exists a, cubicMin (at_pt al fl gl) (at_pt at' ft gt) = Fin a /\ al < a < at' /\ dcub c1 c2 c3 a = 0 /\ 0 < ddcub c2 c3 a.
Proof.
  intros L G H T. destruct (cubic_signs al fl gl at' ft gt L G H) as (P & W & D & N & ND).
  exists (ac al fl gl at' ft gt). split; [apply cubic_fin; lra|].
  destruct (cubic_root c0 c1 c2 c3 al fl gl at' ft gt ltac:(lra) T P ltac:(lra)) as [R1 R2]. split; [|split; [exact R1|]].
  - unfold ac. set (w := wc _ _ _ _ _ _) in *. set (z := zc _ _ _ _ _ _) in *. set (D0 := gt - gl + 2 * w) in *. set (N0 := w - gl - z) in *.
    assert (0 < N0 / D0) by (apply Rdiv_lt_0_compat; lra). assert (N0 / D0 < 1) by (apply (Rmult_lt_reg_r D0); [exact D|]; unfold Rdiv; rewrite Rmult_assoc, Rinv_l by lra; lra).
    replace ((at' - al) * N0 / D0) with ((at' - al) * (N0 / D0)) by (field; lra). nra.
  - assert (0 < (at' - al) * ddcub c2 c3 (ac al fl gl at' ft gt)) by lra. apply (Rmult_lt_reg_l (at' - al)); lra.
Qed.
(** to the left it is the maximum *)
Theorem cubic_left c0 c1 c2 c3 al fl gl at' ft gt : at' < al -> through c0 c1 c2 c3 al fl gl at' ft gt ->
  gt - gl + 2 * wc al fl gl at' ft gt <> 0 -> 0 < zc al fl gl at' ft gt * zc al fl gl at' ft gt - gt * gl ->
  exists a, cubicMin (at_pt al fl gl) (at_pt at' ft gt) = Fin a /\ dcub c1 c2 c3 a = 0 /\ ddcub c2 c3 a < 0.
Proof.
  intros L T D P. exists (ac al fl gl at' ft gt). split; [apply cubic_fin; lra|].
  destruct (cubic_root c0 c1 c2 c3 al fl gl at' ft gt ltac:(lra) T ltac:(lra) D) as [R1 R2]. split; [exact R1|].
  assert (0 < wc al fl gl at' ft gt) by (apply sqrt_lt_R0; exact P).
  assert (0 < (al - at') * - ddcub c2 c3 (ac al fl gl at' ft gt)) by lra.
  assert (0 < - ddcub c2 c3 (ac al fl gl at' ft gt)) by (apply (Rmult_lt_reg_l (al - at')); lra). lra.
Qed.
Theorem quad_min c0 c1 c2 al fl gl at' ft gt : gl * (at' - al) < 0 -> fl < ft ->
  cub c0 c1 c2 0 al = fl -> dcub c1 c2 0 al = gl -> cub c0 c1 c2 0 at' = ft ->
  exists a, quadMin (at_pt al fl gl) (at_pt at' ft gt) = Fin a /\ between al at' a /\ dcub c1 c2 0 a = 0 /\ 0 < ddcub c2 0 a.
Proof.
  intros S F F1 G1 F2. set (h := at' - al) in *. assert (AT : at' = al + h) by (unfold h; ring).
  assert (H0 : h <> 0) by nra. assert (EF : ft - fl = h * (gl + c2 * h)) by (rewrite <- F1, <- F2, <- G1, AT; unfold cub, dcub; ring).
  assert (C2 : 0 < c2).
  { assert (0 < c2 * (h * h)) by nra. assert (0 < h * h) by nra. nra. }
  assert (Q : (fl - ft) / (al - at') = gl + c2 * h).
  { replace (al - at') with (- h) by (unfold h; ring). replace (fl - ft) with (- (h * (gl + c2 * h))) by lra. field. exact H0. }
  exists (al - gl / (2 * c2)). split.
  - unfold quadMin, at_pt. cbn [e_a e_f e_g]. rewrite !xsub_F, !xmul_F, xdiv_F by lra. rewrite Q, xsub_F.
    assert (N : gl - (gl + c2 * h) <> 0) by nra. rewrite xdiv_F by exact N. rewrite xsub_F. f_equal.
    replace (al - at') with (- h) by (unfold h; ring). field. split; lra.
  - assert (B1 : 0 < - gl * h) by lra. split; [|split].
    + assert (LT : - gl * h < c2 * (h * h)) by nra. unfold between. rewrite AT.
      assert (E : - (gl / (2 * c2)) = - gl * / (2 * c2)) by (unfold Rdiv; ring). assert (IP : 0 < / (2 * c2)) by (apply Rinv_0_lt_compat; lra).
      assert (IV : (2 * c2) * / (2 * c2) = 1) by (apply Rinv_r; lra).
      destruct (Rlt_le_dec 0 h) as [HP|HP].
      * left. assert (0 < - gl) by nra. assert (- gl < c2 * h) by nra. unfold Rminus. rewrite E. split; [nra|].
        assert (- gl * / (2 * c2) < c2 * h * / (2 * c2)) by (apply Rmult_lt_compat_r; assumption).
        assert (c2 * h * / (2 * c2) = h / 2) by (field; lra). lra.
      * right. assert (h < 0) by lra. assert (- gl < 0) by nra. assert (c2 * h < - gl) by nra. unfold Rminus. rewrite E. split; [|nra].
        assert (c2 * h * / (2 * c2) < - gl * / (2 * c2)) by (apply Rmult_lt_compat_r; assumption).
        assert (c2 * h * / (2 * c2) = h / 2) by (field; lra). lra.
    + unfold dcub. rewrite <- G1. unfold dcub. field. lra.
    + unfold ddcub. lra.
Qed.
Theorem secant_zero al fl gl at' ft gt c1 c2 : gl * gt < 0 -> at' <> al -> dcub c1 c2 0 al = gl -> dcub c1 c2 0 at' = gt ->
  exists a, secantMin (at_pt al fl gl) (at_pt at' ft gt) = Fin a /\ between al at' a /\ dcub c1 c2 0 a = 0.
Proof.
  intros S NE G1 G2. set (h := at' - al) in *. assert (AT : at' = al + h) by (unfold h; ring). assert (H0 : h <> 0) by (unfold h; lra).
  assert (EG : gt - gl = 2 * c2 * h) by (rewrite <- G1, <- G2, AT; unfold dcub; ring). assert (GN : gl - gt <> 0) by nra.
  assert (C2 : c2 <> 0) by (intro Z; rewrite Z in EG; lra).
  exists (al - (al - at') / (gl - gt) * gl). split.
  - unfold secantMin, at_pt. cbn [e_a e_f e_g]. rewrite !xsub_F, xdiv_F, xmul_F, xsub_F by exact GN. reflexivity.
  - assert (E : al - (al - at') / (gl - gt) * gl = al + h * (gl / (gl - gt))) by (unfold h; field; exact GN). rewrite E. split.
    + assert (T : 0 < gl / (gl - gt) < 1).
      { destruct (Rlt_le_dec gl 0) as [N|N].
        - assert (0 < gt) by nra. replace (gl / (gl - gt)) with ((- gl) / (gt - gl)) by (field; lra). split; [apply Rdiv_lt_0_compat; lra|].
          apply (Rmult_lt_reg_r (gt - gl)); [lra|]. unfold Rdiv. rewrite Rmult_assoc, Rinv_l by lra. lra.
        - assert (0 < gl) by nra. assert (gt < 0) by nra. split; [apply Rdiv_lt_0_compat; lra|].
          apply (Rmult_lt_reg_r (gl - gt)); [lra|]. unfold Rdiv. rewrite Rmult_assoc, Rinv_l by lra. lra. }
      unfold between. rewrite AT. destruct (Rlt_le_dec 0 h); [left|right]; nra.
    + transitivity (dcub c1 c2 0 al + 2 * c2 * h * (gl / (gl - gt))); [unfold dcub; ring|]. rewrite G1, <- EG. field. exact GN.
Qed.

Lemma xlt_F a b : xlt (Fin a) (Fin b) = true <-> a < b.
Proof. unfold xlt. cbn. destruct (Rlt_dec a b); split; intros; auto; try discriminate; contradiction. Qed.
Lemma xlt_F_false a b : xlt (Fin a) (Fin b) = false <-> b <= a.
Proof. unfold xlt. cbn. destruct (Rlt_dec a b); split; intros; auto; try discriminate; lra. Qed.
Lemma xabs_F a : xabs (Fin a) = Fin (Rabs a). Proof. reflexivity. Qed.

(** which step is chosen *)
Lemma trial_higher l fl gl a ft gt u c q : fl < ft ->
  cubicMin (at_pt l fl gl) (at_pt a ft gt) = Fin c -> quadMin (at_pt l fl gl) (at_pt a ft gt) = Fin q ->
  trialValueSelectionMT (at_pt l fl gl) u (at_pt a ft gt) =
    Fin (if Rlt_dec (Rabs (c - l)) (Rabs (q - l)) then c else (c + q) / 2).
Proof.
  intros H C Q. unfold trialValueSelectionMT. rewrite C, Q. unfold at_pt. cbn [e_a e_f e_g].
  rewrite (proj2 (xgt_F ft fl)) by exact H. rewrite !xsub_F, !xabs_F. destruct (Rlt_dec _ _) as [L|L].
  - rewrite (proj2 (xlt_F _ _)) by exact L. reflexivity.
  - rewrite (proj2 (xlt_F_false _ _)) by lra. rewrite xadd_F, xmul_F. f_equal. field.
Qed.
Lemma trial_opposite l fl gl a ft gt u c s : ft <= fl -> gt * gl < 0 ->
  cubicMin (at_pt l fl gl) (at_pt a ft gt) = Fin c -> secantMin (at_pt l fl gl) (at_pt a ft gt) = Fin s ->
  trialValueSelectionMT (at_pt l fl gl) u (at_pt a ft gt) =
    Fin (if Rle_dec (Rabs (s - a)) (Rabs (c - a)) then c else s).
Proof.
  intros H G C S. unfold trialValueSelectionMT. rewrite C, S. unfold at_pt. cbn [e_a e_f e_g].
  rewrite (proj2 (xgt_F_false ft fl)) by exact H. rewrite xmul_F. rewrite (proj2 (xlt_F _ _)) by exact G.
  rewrite !xsub_F, !xabs_F. destruct (Rle_dec _ _) as [L|L].
  - rewrite (proj2 (xle_F _ _)) by exact L. reflexivity.
  - rewrite (proj2 (xle_F_false _ _)) by lra. reflexivity.
Qed.
Lemma trial_flatter l fl gl a ft gt u c s : ft <= fl -> 0 <= gt * gl -> Rabs gt <= Rabs gl ->
  cubicMin (at_pt l fl gl) (at_pt a ft gt) = Fin c -> secantMin (at_pt l fl gl) (at_pt a ft gt) = Fin s ->
  forall au, e_a u = Fin au ->
  trialValueSelectionMT (at_pt l fl gl) u (at_pt a ft gt) =
    let n := if Rlt_dec (Rabs (c - a)) (Rabs (s - a)) then c else s in
    Fin (if Rlt_dec l a then Rmin (a + 66 / 100 * (au - a)) n else Rmax (a + 66 / 100 * (au - a)) n).
Proof.
  intros H G AB C S au U. unfold trialValueSelectionMT. rewrite C, S, U. unfold at_pt. cbn [e_a e_f e_g].
  rewrite (proj2 (xgt_F_false ft fl)) by exact H. rewrite xmul_F. rewrite (proj2 (xlt_F_false _ _)) by exact G.
  rewrite !xsub_F, !xabs_F. rewrite (proj2 (xle_F _ _)) by exact AB. rewrite xmul_F, xadd_F. cbv zeta.
  destruct (Rlt_dec (Rabs (c - a)) (Rabs (s - a))) as [L|L].
  all: [> rewrite (proj2 (xlt_F _ _)) by exact L | rewrite (proj2 (xlt_F_false _ _)) by lra].
  all: destruct (Rlt_dec l a) as [L2|L2]; [rewrite (proj2 (xgt_F _ _)) by exact L2 | rewrite (proj2 (xgt_F_false _ _)) by lra].
  all: unfold xmin, xmax, xlt; cbn; unfold Rmin, Rmax; repeat match goal with |- context[Rlt_dec ?x ?y] => destruct (Rlt_dec x y) | |- context[Rle_dec ?x ?y] => destruct (Rle_dec x y) end; try reflexivity; f_equal; lra.
Qed.

Lemma through_exists al fl gl at' ft gt : al <> at' -> exists c0 c1 c2 c3, through c0 c1 c2 c3 al fl gl at' ft gt.
Proof.
  intro H. set (h := at' - al). assert (H0 : h <> 0) by (unfold h; lra).
  set (c3 := (gt + gl - 2 * ((ft - fl) / h)) / (h * h)).
  set (c2 := ((3 * ((ft - fl) / h) - 2 * gl - gt) / h) - 3 * c3 * al).
  set (c1 := gl - 2 * c2 * al - 3 * c3 * (al * al)).
  exists (fl - c1 * al - c2 * (al * al) - c3 * (al * al * al)), c1, c2, c3.
  assert (AT : at' = al + h) by (unfold h; ring).
  unfold through, cub, dcub. rewrite AT. repeat split; unfold c1, c2, c3; field; exact H0.
Qed.
Lemma parabola_exists al fl gl at' ft : al <> at' ->
  exists c0 c1 c2, cub c0 c1 c2 0 al = fl /\ dcub c1 c2 0 al = gl /\ cub c0 c1 c2 0 at' = ft.
Proof.
  intro H. set (h := at' - al). assert (H0 : h <> 0) by (unfold h; lra).
  set (c2 := ((ft - fl) / h - gl) / h). set (c1 := gl - 2 * c2 * al).
  exists (fl - c1 * al - c2 * (al * al)), c1, c2. assert (AT : at' = al + h) by (unfold h; ring).
  unfold cub, dcub. rewrite AT. repeat split; unfold c1, c2; field; exact H0.
Qed.
Lemma line_exists al gl at' gt : al <> at' -> exists c1 c2, dcub c1 c2 0 al = gl /\ dcub c1 c2 0 at' = gt.
Proof.
  intro H. exists (gl - (gt - gl) / (at' - al) * al), ((gt - gl) / (at' - al) / 2). unfold dcub. split; field; lra.
Qed.
Theorem cubic_lowest_of al fl gl at' ft gt : al < at' -> gl < 0 -> fl < ft \/ 0 < gt ->
  exists a, cubicMin (at_pt al fl gl) (at_pt at' ft gt) = Fin a /\ al < a < at' /\ cubic_lowest al fl gl at' ft gt a.
Proof.
  intros L G H. destruct (through_exists al fl gl at' ft gt ltac:(lra)) as (c0 & c1 & c2 & c3 & T).
  destruct (cubic_min _ _ _ _ _ _ _ _ _ _ L G H T) as (a & E & B & _). exists a. split; [exact E|]. split; [exact B|].
  intros d0 d1 d2 d3 T2. destruct (cubic_min _ _ _ _ _ _ _ _ _ _ L G H T2) as (a2 & E2 & _ & R). rewrite E in E2. injection E2 as <-. exact R.
Qed.
Theorem parabola_lowest_of al fl gl at' ft gt : gl * (at' - al) < 0 -> fl < ft ->
  exists a, quadMin (at_pt al fl gl) (at_pt at' ft gt) = Fin a /\ between al at' a /\ parabola_lowest al fl gl at' ft a.
Proof.
  intros S H. assert (NE : al <> at') by nra. destruct (parabola_exists al fl gl at' ft NE) as (c0 & c1 & c2 & T1 & T2 & T3).
  destruct (quad_min c0 c1 c2 al fl gl at' ft gt S H T1 T2 T3) as (a & E & B & _). exists a. split; [exact E|]. split; [exact B|].
  intros d0 d1 d2 U1 U2 U3. destruct (quad_min d0 d1 d2 al fl gl at' ft gt S H U1 U2 U3) as (a2 & E2 & _ & R). rewrite E in E2. injection E2 as <-. exact R.
Qed.
Theorem slope_zero_of al fl gl at' ft gt : gl * gt < 0 -> at' <> al ->
  exists a, secantMin (at_pt al fl gl) (at_pt at' ft gt) = Fin a /\ between al at' a /\ slope_zero al gl at' gt a.
Proof.
  intros S NE. destruct (line_exists al gl at' gt (not_eq_sym NE)) as (c1 & c2 & T1 & T2).
  destruct (secant_zero al fl gl at' ft gt c1 c2 S NE T1 T2) as (a & E & B & _). exists a. split; [exact E|]. split; [exact B|].
  intros d1 d2 U1 U2. destruct (secant_zero al fl gl at' ft gt d1 d2 S NE U1 U2) as (a2 & E2 & _ & R). rewrite E in E2. injection E2 as <-. exact R.
Qed.
(** a minimum of the cubic is the only one and is the one found if the slope rises *)
Lemma cubic_disc c0 c1 c2 c3 al fl gl at' ft gt : at' <> al -> through c0 c1 c2 c3 al fl gl at' ft gt ->
  zc al fl gl at' ft gt * zc al fl gl at' ft gt - gt * gl = (at' - al) * (at' - al) * (c2 * c2 - 3 * c3 * c1).
Proof.
  intros NE (F1 & G1 & F2 & G2). unfold zc. rewrite <- F1, <- F2, <- G1, <- G2. unfold cub, dcub.
  field. intro Z. apply NE. lra.
Qed.
Lemma min_unique c1 c2 c3 x y : dcub c1 c2 c3 x = 0 -> dcub c1 c2 c3 y = 0 -> 0 < ddcub c2 c3 x * ddcub c2 c3 y -> x = y.
Proof.
  unfold dcub, ddcub. intros X Y D. destruct (Req_dec x y) as [E|E]; [exact E|exfalso].
  assert (S : (x - y) * (2 * c2 + 3 * c3 * (x + y)) = 0) by nra.
  apply Rmult_integral in S. destruct S as [S|S]; [lra|].
  assert (E2 : 2 * c2 + 6 * c3 * x = - (2 * c2 + 6 * c3 * y)) by lra. rewrite E2 in D. clear - D. set (q := 2 * c2 + 6 * c3 * y) in *. clearbody q. nra.
Qed.
Theorem cubic_rising c0 c1 c2 c3 al fl gl at' ft gt m : al < at' -> gl < gt -> through c0 c1 c2 c3 al fl gl at' ft gt ->
  dcub c1 c2 c3 m = 0 -> 0 < ddcub c2 c3 m -> cubicMin (at_pt al fl gl) (at_pt at' ft gt) = Fin m.
Proof.
  intros L G T M1 M2.
  assert (DP : 0 < c2 * c2 - 3 * c3 * c1).
  { unfold dcub, ddcub in *. assert (4 * (c2 * c2 - 3 * c3 * c1) = (2 * c2 + 6 * c3 * m) * (2 * c2 + 6 * c3 * m)) by nra. nra. }
  assert (P : 0 < zc al fl gl at' ft gt * zc al fl gl at' ft gt - gt * gl).
  { rewrite (cubic_disc c0 c1 c2 c3) by (try exact T; lra). apply Rmult_lt_0_compat; [nra|exact DP]. }
  assert (W : 0 < wc al fl gl at' ft gt) by (apply sqrt_lt_R0; exact P).
  rewrite cubic_fin by lra. f_equal.
  destruct (cubic_root c0 c1 c2 c3 al fl gl at' ft gt ltac:(lra) T ltac:(lra) ltac:(lra)) as [R1 R2].
  apply (min_unique c1 c2 c3); [exact R1|exact M1|]. assert (0 < ddcub c2 c3 (ac al fl gl at' ft gt)).
  { apply (Rmult_lt_reg_l (at' - al)); lra. }
  nra.
Qed.
Theorem cubic_none c0 c1 c2 c3 al fl gl at' ft gt : al < at' -> through c0 c1 c2 c3 al fl gl at' ft gt ->
  (forall x, dcub c1 c2 c3 x <> 0) -> gl <> gt -> cubicMin (at_pt al fl gl) (at_pt at' ft gt) = NaN.
Proof.
  intros L T N GN. assert (C3 : c3 <> 0).
  { intro Z. subst c3. destruct (Req_dec c2 0) as [Z|Z].
    - subst c2. destruct T as (_ & G1 & _ & G2). unfold dcub in *. lra.
    - apply (N (- c1 / (2 * c2))). unfold dcub. field. exact Z. }
  assert (DN : c2 * c2 - 3 * c3 * c1 < 0).
  { destruct (Rlt_le_dec (c2 * c2 - 3 * c3 * c1) 0) as [D|D]; [exact D|exfalso].
    apply (N ((- c2 + sqrt (c2 * c2 - 3 * c3 * c1)) / (3 * c3))). pose proof (sqrt_sqrt _ D) as Q.
    set (s := sqrt (c2 * c2 - 3 * c3 * c1)) in *. unfold dcub.
    replace (c1 + 2 * c2 * ((- c2 + s) / (3 * c3)) + 3 * c3 * ((- c2 + s) / (3 * c3) * ((- c2 + s) / (3 * c3))))
      with ((s * s - (c2 * c2 - 3 * c3 * c1)) / (3 * c3)) by (field; exact C3). rewrite Q. field. exact C3. }
  unfold cubicMin, at_pt. cbn [e_a e_f e_g].
  rewrite !xsub_F, !xmul_F, xdiv_F by lra. rewrite !xsub_F. fold (zc al fl gl at' ft gt). rewrite !xmul_F, xsub_F.
  assert (XS : xsqrt (Fin (zc al fl gl at' ft gt * zc al fl gl at' ft gt - gt * gl)) = NaN).
  { rewrite (cubic_disc c0 c1 c2 c3) by (try exact T; lra). unfold xsqrt. destruct (Rlt_dec _ _) as [_|C]; [reflexivity|].
    exfalso. apply C. assert (0 < (at' - al) * (at' - al)) by nra. nra. }
  rewrite XS. reflexivity.
Qed.
Lemma secant_fin al fl gl at' ft gt : gl <> gt -> secantMin (at_pt al fl gl) (at_pt at' ft gt) = Fin (al - (al - at') / (gl - gt) * gl).
Proof. intro H. unfold secantMin, at_pt. cbn [e_a e_f e_g]. rewrite !xsub_F, xdiv_F, xmul_F, xsub_F by lra. reflexivity. Qed.
Lemma secant_slope al gl at' gt : gl <> gt -> al <> at' -> slope_zero al gl at' gt (al - (al - at') / (gl - gt) * gl).
Proof.
  intros H N c1 c2 G1 G2. assert (N2 : al - at' <> 0) by (intro Z; apply N; lra). transitivity (dcub c1 c2 0 al - 2 * c2 * ((al - at') / (gl - gt) * gl)); [unfold dcub; ring|].
  assert (E : gl - gt = 2 * c2 * (al - at')) by (rewrite <- G1, <- G2; unfold dcub; ring). rewrite G1.
  assert (C : c2 <> 0) by (intro Z; rewrite Z in E; lra). rewrite E. field. split; assumption.
Qed.

(** a minimum inside *)
Lemma encl_right (f f' : R -> R) l u : (forall x, derivable_pt_lim f x (f' x)) -> l < u -> f l <= f u -> f' l < 0 ->
  exists x, l < x < u /\ f' x = 0 /\ f x < f l.
Proof.
  intros D L F G. assert (DP : forall x, derivable_pt f x) by (intro x; exists (f' x); apply D).
  assert (CN : forall c, l <= c <= u -> continuity_pt f c) by (intros c _; apply derivable_continuous_pt, DP).
  destruct (continuity_ab_min f l u (Rlt_le _ _ L) CN) as (m & MIN & MI).
  assert (LOW : exists x, l < x < u /\ f x < f l).
  { destruct (D l (- f' l / 2) ltac:(lra)) as [delta HD]. set (h := Rmin (delta / 2) ((u - l) / 2)).
    assert (HP : 0 < h) by (unfold h; apply Rmin_glb_lt; [destruct delta; cbn; lra|lra]).
    assert (H1 : h <= delta / 2) by apply Rmin_l. assert (H2 : h <= (u - l) / 2) by apply Rmin_r.
    exists (l + h). split; [lra|]. assert (HA : Rabs h < delta) by (rewrite Rabs_pos_eq by lra; destruct delta; cbn in *; lra).
    specialize (HD h ltac:(lra) HA). apply Rabs_def2 in HD. destruct HD as [HD _].
    assert (Q : (f (l + h) - f l) / h < 0) by lra. assert (E : f (l + h) - f l = (f (l + h) - f l) / h * h) by (field; lra). nra. }
  destruct LOW as (x0 & X0 & FX0). pose proof (MIN x0 ltac:(lra)) as M0.
  assert (MS : l < m < u). { destruct MI as [M1 M2]. destruct (Req_dec m l) as [E|E]; [subst m; lra|]. destruct (Req_dec m u) as [E2|E2]; [subst m; lra|lra]. }
  exists m. split; [exact MS|]. split; [|lra].
  pose proof (deriv_minimum f l u m (DP m) (proj1 MS) (proj2 MS) (fun x A B => MIN x (conj (Rlt_le _ _ A) (Rlt_le _ _ B)))) as Z.
  pose proof (derive_pt_eq_0 f m (f' m) (DP m) (D m)) as Z2. rewrite <- Z2. exact Z.
Qed.
Theorem encloses (f f' : R -> R) l u : (forall x, derivable_pt_lim f x (f' x)) -> bracket l (f l) (f' l) u (f u) ->
  exists x, between l u x /\ f' x = 0 /\ f x < f l.
Proof.
  intros D [F G]. destruct (Rlt_le_dec l u) as [L|L].
  - destruct (encl_right f f' l u D L F ltac:(nra)) as (x & B & R). exists x. split; [left; exact B|exact R].
  - assert (L2 : u < l) by (destruct (Req_dec u l) as [Z|Z]; [rewrite Z in G; lra|lra]).
    assert (D2 : forall x, derivable_pt_lim (fun x => f (- x)) x (- f' (- x))).
    { intro x. replace (- f' (- x)) with (f' (- x) * -1) by ring.
      apply (derivable_pt_lim_comp Ropp f x (-1) (f' (- x))); [apply derivable_pt_lim_opp_id || idtac|apply D].
      all: try (replace (-1) with (- (1)) by ring; apply (derivable_pt_lim_opp id x 1), derivable_pt_lim_id). }
    destruct (encl_right (fun x => f (- x)) (fun x => - f' (- x)) (- l) (- u) D2 ltac:(lra)) as (x & B & Z & R); rewrite ?Ropp_involutive in *; [exact F|nra|].
    exists (- x). split; [right; lra|]. split; [lra|exact R].
Qed.
(** one update *)
Lemma update_cases (f f' : R -> R) l u t : between l u t -> bracket l (f l) (f' l) u (f u) ->
  updateIntervalMT (look f f' l) (look f f' u) (look f f' t) =
    (if Rlt_dec (f l) (f t) then (look f f' l, look f f' t, false)
     else if Rlt_dec 0 (f' t * (l - t)) then (look f f' t, look f f' u, false)
     else if Rlt_dec (f' t * (l - t)) 0 then (look f f' t, look f f' l, false) else (look f f' l, look f f' u, true)).
Proof. intros _ _. unfold updateIntervalMT, look, at_pt. cbn. repeat destruct (Rlt_dec _ _); try reflexivity; lra. Qed.
Lemma look_inj f f' a b : look f f' a = look f f' b -> a = b.
Proof. intro H. injection H as E _ _. exact E. Qed.
Theorem update_bracket (f f' : R -> R) l u t l1 u1 : between l u t -> bracket l (f l) (f' l) u (f u) ->
  updateIntervalMT (look f f' l) (look f f' u) (look f f' t) = (look f f' l1, look f f' u1, false) ->
  bracket l1 (f l1) (f' l1) u1 (f u1) /\ inside_of l u l1 /\ inside_of l u u1 /\ f l1 <= f l /\ f l1 <= f t /\ Rabs (u1 - l1) < Rabs (u - l).
Proof.
  intros B BR E. rewrite (update_cases f f' l u t B BR) in E. destruct BR as [F G]. unfold inside_of.
  assert (I : forall x, l <= x <= u \/ u <= x <= l -> Rmin l u <= x <= Rmax l u).
  { intros x [X|X]; unfold Rmin, Rmax; destruct (Rle_dec l u); lra. }
  assert (AB : forall x y, (l <= x <= u /\ l <= y <= u \/ u <= x <= l /\ u <= y <= l) -> (x <> l /\ x <> u \/ y <> l /\ y <> u) -> Rabs (y - x) < Rabs (u - l)).
  { intros x y X Y. unfold Rabs. destruct (Rcase_abs _), (Rcase_abs _); lra. }
  unfold between in B.
  destruct (Rlt_dec (f l) (f t)) as [C1|C1]; [|destruct (Rlt_dec 0 (f' t * (l - t))) as [C2|C2]; [|destruct (Rlt_dec (f' t * (l - t)) 0) as [C3|C3]; [|discriminate]]].
  all: assert (EL := f_equal (fun q => e_a (fst (fst q))) E); assert (EU := f_equal (fun q => e_a (snd (fst q))) E); cbn in EL, EU; injection EL as <-; injection EU as <-.
  all: unfold bracket; repeat split; try (apply I; lra); try apply AB; try lra.
  all: destruct B; nra.
Qed.
Theorem narrowed_all (f f' : R -> R) l u ts l2 u2 : narrowed f f' l u ts l2 u2 -> bracket l (f l) (f' l) u (f u) ->
  bracket l2 (f l2) (f' l2) u2 (f u2) /\ inside_of l u l2 /\ inside_of l u u2 /\ (forall x, List.In x (l :: ts) -> f l2 <= f x).
Proof.
  intro N. induction N as [l u|l u t l1 u1 ts l2 u2 B U N IH]; intro BR.
  - split; [exact BR|]. unfold inside_of. pose proof (Rmin_l l u). pose proof (Rmin_r l u). pose proof (Rmax_l l u). pose proof (Rmax_r l u).
    split; [lra|]. split; [lra|]. intros x [<-|[]]. lra.
  - destruct (update_bracket f f' l u t l1 u1 B BR U) as (B1 & I1 & I2 & L1 & L2 & _). destruct (IH B1) as (B2 & J1 & J2 & M). split; [exact B2|].
    assert (K : forall x, inside_of l1 u1 x -> inside_of l u x).
    { unfold inside_of in *. intros x X. revert X. unfold Rmin at 1, Rmax at 1. destruct (Rle_dec l1 u1); lra. }
    split; [apply K, J1|]. split; [apply K, J2|]. pose proof (M l1 (or_introl eq_refl)) as M1.
    intros x [<-|[<-|X]]; [lra|lra|]. apply M. right. exact X.
Qed.
