(** C126: the steps that the line search of the registration tries, and its interval.
    ndt_reg_tools.h:106-230. *)
From Coq Require Import Reals List Lra Psatz.
From Verif Require Import LinAlg3 OptModel RegModel RegStep TrialSpec TrialProofs.
Import ListNotations.
Open Scope R_scope.

(** The function is higher in the trial place: the next step is the minimum of the cubic
    through both places if that is nearer than the minimum of the parabola, else the mean
    of both.  All of them lie between the two places. *)
Theorem C126_higher : forall al fl gl at' ft gt u,
  al < at' -> gl < 0 -> fl < ft ->
  exists c q x, cubic_lowest al fl gl at' ft gt c /\ parabola_lowest al fl gl at' ft q /\
    al < c < at' /\ al < q < at' /\ al < x < at' /\
    x = (if Rlt_dec (Rabs (c - al)) (Rabs (q - al)) then c else (c + q) / 2) /\
    trialValueSelectionMT (at_pt al fl gl) u (at_pt at' ft gt) = Fin x.
Proof.
  intros al fl gl at' ft gt u L G F.
  destruct (cubic_lowest_of al fl gl at' ft gt L G (or_introl F)) as (c & EC & BC & HC).
  destruct (parabola_lowest_of al fl gl at' ft gt ltac:(nra) F) as (q & EQ & BQ & HQ).
  exists c, q, (if Rlt_dec (Rabs (c - al)) (Rabs (q - al)) then c else (c + q) / 2).
  assert (BQ2 : al < q < at') by (destruct BQ; lra).
  split; [exact HC|]. split; [exact HQ|]. split; [exact BC|]. split; [exact BQ2|]. split; [destruct (Rlt_dec _ _); lra|]. split; [reflexivity|].
  apply trial_higher; assumption.
Qed.
Print Assumptions C126_higher.

(** It is not higher but rises there: the cubic's minimum or the place where an evenly
    changing slope vanishes, whichever is farther from the trial place, and both lie between. *)
Theorem C126_rising : forall al fl gl at' ft gt u,
  al < at' -> gl < 0 -> ft <= fl -> 0 < gt ->
  exists c s x, cubic_lowest al fl gl at' ft gt c /\ slope_zero al gl at' gt s /\
    al < c < at' /\ al < s < at' /\ al < x < at' /\
    x = (if Rle_dec (Rabs (s - at')) (Rabs (c - at')) then c else s) /\
    trialValueSelectionMT (at_pt al fl gl) u (at_pt at' ft gt) = Fin x.
Proof.
  intros al fl gl at' ft gt u L G F T.
  destruct (cubic_lowest_of al fl gl at' ft gt L G (or_intror T)) as (c & EC & BC & HC).
  destruct (slope_zero_of al fl gl at' ft gt ltac:(nra) ltac:(lra)) as (s & ES & BS & HS).
  exists c, s, (if Rle_dec (Rabs (s - at')) (Rabs (c - at')) then c else s).
  assert (BS2 : al < s < at') by (destruct BS; lra).
  split; [exact HC|]. split; [exact HS|]. split; [exact BC|]. split; [exact BS2|]. split; [destruct (Rle_dec _ _); lra|]. split; [reflexivity|].
  apply trial_opposite; try assumption. nra.
Qed.
Print Assumptions C126_rising.

(** It still falls there, less steeply: the nearer of the cubic's minimum and the zero of
    the slope, if the cubic has a minimum, else that zero; and never farther than 66 percent
    of the way to the other end. *)
Theorem C126_flatter : forall c0 c1 c2 c3 al fl gl at' ft gt au fu gu,
  al < at' -> ft <= fl -> gl < gt <= 0 -> through c0 c1 c2 c3 al fl gl at' ft gt ->
  exists s, slope_zero al gl at' gt s /\ at' <= s /\
    (forall m, dcub c1 c2 c3 m = 0 -> 0 < ddcub c2 c3 m ->
       trialValueSelectionMT (at_pt al fl gl) (at_pt au fu gu) (at_pt at' ft gt) =
       Fin (Rmin (at' + 66 / 100 * (au - at')) (if Rlt_dec (Rabs (m - at')) (Rabs (s - at')) then m else s))) /\
    ((forall x, dcub c1 c2 c3 x <> 0) ->
       trialValueSelectionMT (at_pt al fl gl) (at_pt au fu gu) (at_pt at' ft gt) =
       Fin (Rmin (at' + 66 / 100 * (au - at')) s)).
Proof.
  intros c0 c1 c2 c3 al fl gl at' ft gt au fu gu L F [G1 G2] T.
  set (s := al - (al - at') / (gl - gt) * gl). exists s.
  assert (ES : secantMin (at_pt al fl gl) (at_pt at' ft gt) = Fin s) by (apply secant_fin; lra).
  split; [apply secant_slope; lra|].
  assert (AB : Rabs gt <= Rabs gl) by (rewrite !Rabs_left1 by lra; lra). assert (GG : 0 <= gt * gl) by nra.
  split; [|split].
  - unfold s. assert (E : al - (al - at') / (gl - gt) * gl = at' + (at' - al) * ((- gt) / (gt - gl))) by (field; lra).
    rewrite E. assert (0 <= (- gt) / (gt - gl)) by (apply Rle_mult_inv_pos; lra). nra.
  - intros m M1 M2. pose proof (cubic_rising _ _ _ _ _ _ _ _ _ _ m L G1 T M1 M2) as EC.
    rewrite (trial_flatter al fl gl at' ft gt (at_pt au fu gu) m s F GG AB EC ES au eq_refl). cbv zeta. destruct (Rlt_dec al at'); [reflexivity|lra].
  - intro N. pose proof (cubic_none _ _ _ _ _ _ _ _ _ _ L T N ltac:(lra)) as EC.
    unfold trialValueSelectionMT. rewrite EC, ES. unfold at_pt. cbn [e_a e_f e_g].
    rewrite (proj2 (xgt_F_false ft fl)) by exact F. rewrite xmul_F. rewrite (proj2 (xlt_F_false _ _)) by exact GG.
    rewrite !xabs_F. rewrite (proj2 (xle_F _ _)) by exact AB. rewrite (proj2 (xgt_F _ _)) by exact L.
    cbn. unfold xmin, xlt. cbn. unfold Rmin. destruct (Rlt_dec _ _), (Rle_dec _ _); try reflexivity; f_equal; lra.
Qed.
Print Assumptions C126_flatter.

(** A slope that is no number makes the next step no number: it is not replaced by a guess. *)
Theorem C126_nan : forall al fl gl at' ft u, trialValueSelectionMT (at_pt al fl gl) u (mkE (Fin at') (Fin ft) NaN) = NaN.
Proof.
  intros al fl gl at' ft u.
  assert (C : forall a f g, cubicMin (mkE a f g) (mkE (Fin at') (Fin ft) NaN) = NaN).
  { intros a f g. unfold cubicMin. cbn [e_a e_f e_g]. assert (Z : forall x, xsub (xsub x NaN) g = NaN) by (intro x; destruct x, g; reflexivity).
    rewrite Z. destruct a, g; reflexivity. }
  unfold trialValueSelectionMT. destruct u as [ua uf ug]. unfold at_pt. rewrite !C. cbn [e_a e_f e_g].
  destruct (xgt (Fin ft) (Fin fl)); [|reflexivity].
  change (xabs (xsub NaN (Fin al))) with NaN. unfold xlt. 
  assert (X : forall x, xgt x NaN = false) by (intros []; reflexivity). rewrite X.
  assert (Y : forall x, xadd x NaN = NaN) by (intros []; reflexivity). rewrite Y. reflexivity.
Qed.
Print Assumptions C126_nan.

(** Looking backwards the formula picks the maximum of the cubic, not its minimum. *)
Theorem C126_backwards : forall c0 c1 c2 c3 al fl gl at' ft gt a m,
  at' < al -> through c0 c1 c2 c3 al fl gl at' ft gt -> dcub c1 c2 c3 m = 0 -> 0 < ddcub c2 c3 m ->
  cubicMin (at_pt al fl gl) (at_pt at' ft gt) = Fin a ->
  dcub c1 c2 c3 a = 0 /\ ddcub c2 c3 a < 0.
Proof.
  intros c0 c1 c2 c3 al fl gl at' ft gt a m L T M1 M2 E.
  assert (P : 0 < zc al fl gl at' ft gt * zc al fl gl at' ft gt - gt * gl).
  { rewrite (cubic_disc c0 c1 c2 c3) by (try exact T; lra). unfold dcub, ddcub in *.
    assert (4 * (c2 * c2 - 3 * c3 * c1) = (2 * c2 + 6 * c3 * m) * (2 * c2 + 6 * c3 * m)) by nra.
    apply Rmult_lt_0_compat; nra. }
  assert (D : gt - gl + 2 * wc al fl gl at' ft gt <> 0) by (apply (cubic_denominator al fl gl at' ft gt a); [lra|lra|exact E]).
  destruct (cubic_left c0 c1 c2 c3 al fl gl at' ft gt L T D P) as (a2 & E2 & R). rewrite E in E2. injection E2 as <-. exact R.
Qed.
Print Assumptions C126_backwards.

(** Updating the interval with trials strictly inside it: the first end has the lowest value
    seen, the function still falls from it towards the other end, the interval never leaves
    the one it came from, and if the slopes are right the function has a minimum inside that
    is lower than every trial. *)
Theorem C126_interval : forall f f' l u ts l2 u2,
  (forall x, derivable_pt_lim f x (f' x)) -> bracket l (f l) (f' l) u (f u) -> narrowed f f' l u ts l2 u2 ->
  bracket l2 (f l2) (f' l2) u2 (f u2) /\ inside_of l u l2 /\ inside_of l u u2 /\
  (forall x, In x (l :: ts) -> f l2 <= f x) /\
  exists x, between l2 u2 x /\ f' x = 0 /\ (forall y, In y (l :: ts) -> f x < f y).
Proof.
  intros f f' l u ts l2 u2 D B N. destruct (narrowed_all f f' l u ts l2 u2 N B) as (B2 & I1 & I2 & M).
  repeat (split; [assumption|]). destruct (encloses f f' l2 u2 D B2) as (x & X1 & X2 & X3).
  exists x. split; [exact X1|]. split; [exact X2|]. intros y Y. specialize (M y Y). lra.
Qed.
Print Assumptions C126_interval.
(** Each update makes it shorter, and it ends only in a place that is not higher and where
    the slope vanishes. *)
Theorem C126_update : forall f f' l u t, bracket l (f l) (f' l) u (f u) -> between l u t ->
  (exists l1 u1, updateIntervalMT (look f f' l) (look f f' u) (look f f' t) = (look f f' l1, look f f' u1, false) /\
     Rabs (u1 - l1) < Rabs (u - l) /\ (l1 = t \/ u1 = t)) \/
  (snd (updateIntervalMT (look f f' l) (look f f' u) (look f f' t)) = true /\ f t <= f l /\ f' t = 0).
Proof.
  intros f f' l u t B I. pose proof (update_cases f f' l u t I B) as E.
  destruct (Rlt_dec (f l) (f t)) as [C1|C1]; [|destruct (Rlt_dec 0 (f' t * (l - t))) as [C2|C2]; [|destruct (Rlt_dec (f' t * (l - t)) 0) as [C3|C3]]].
  1-3: left; eexists; eexists; split; [exact E|]; destruct (update_bracket f f' l u t _ _ I B E) as (_ & _ & _ & _ & _ & S); split; [exact S|auto].
  right. rewrite E. split; [reflexivity|]. split; [lra|]. assert (Z : f' t * (l - t) = 0) by lra. apply Rmult_integral in Z. destruct Z as [Z|Z]; [exact Z|].
  destruct I; lra.
Qed.
Print Assumptions C126_update.

(** The claim that the next trial is inside the interval is false where the interval is
    looked at backwards.  The function x^3/3 - x^2/2 has its minimum in 1 and its maximum in 0. *)
Definition hill : R -> R := cub 0 0 (-1 / 2) (1 / 3).
Definition hill' : R -> R := dcub 0 (-1 / 2) (1 / 3).
Lemma hill_back a b : b < a -> hill' b - hill' a + (a - b) <> 0 ->
  cubicMin (look hill hill' a) (look hill hill' b) = Fin (a + (b - a) * ((a - b) / 2 - hill' a - zc a (hill a) (hill' a) b (hill b) (hill' b)) / (hill' b - hill' a + (a - b))).
Proof.
  intros L D. unfold look. assert (T : through 0 0 (-1 / 2) (1 / 3) a (hill a) (hill' a) b (hill b) (hill' b)) by (repeat split).
  assert (P : zc a (hill a) (hill' a) b (hill b) (hill' b) * zc a (hill a) (hill' a) b (hill b) (hill' b) - hill' b * hill' a = ((a - b) / 2) * ((a - b) / 2)).
  { rewrite (cubic_disc 0 0 (-1 / 2) (1 / 3)) by (try exact T; lra). field. }
  assert (W : wc a (hill a) (hill' a) b (hill b) (hill' b) = (a - b) / 2) by (unfold wc; rewrite P; apply sqrt_square; lra).
  rewrite cubic_fin; [|lra|rewrite P; nra|rewrite W; lra]. unfold ac. rewrite W. f_equal. f_equal. f_equal. lra.
Qed.
Theorem C126_inside_refuted :
  (** the trial falls more steeply than the lower end: the step is the maximum and outside *)
  (exists l u t, bracket l (hill l) (hill' l) u (hill u) /\ between l u t /\
     trialValueSelectionMT (look hill hill' l) (look hill hill' u) (look hill hill' t) = Fin 0 /\ ~ inside_of l u 0) /\
  (** the lower end is the right one and the trial is higher: the step is outside of the
      interval that the update keeps *)
  (exists l u t x, bracket l (hill l) (hill' l) u (hill u) /\ between l u t /\ hill l < hill t /\
     updateIntervalMT (look hill hill' l) (look hill hill' u) (look hill hill' t) = (look hill hill' l, look hill hill' t, false) /\
     trialValueSelectionMT (look hill hill' l) (look hill hill' u) (look hill hill' t) = Fin x /\ ~ inside_of l t x) /\
  (** a function that falls evenly: the step is minus infinity *)
  trialValueSelectionMT (at_pt 0 0 (-1)) (at_pt 4 5 1) (at_pt 1 (-1) (-1)) = MInf.
Proof.
  split; [|split].
  - exists (1 / 10), 2, (1 / 2). assert (HV : hill' (1 / 10) = - 9 / 100 /\ hill' (1 / 2) = - 1 / 4 /\ hill' 2 = 2) by (unfold hill', dcub; repeat split; field).
    destruct HV as (V1 & V2 & V3). assert (FV : hill (1 / 10) = - 14 / 3000 /\ hill (1 / 2) = - 1 / 12 /\ hill 2 = 2 / 3) by (unfold hill, cub; repeat split; field).
    destruct FV as (F1 & F2 & F3). split; [split; lra|]. split; [left; lra|]. split.
    + unfold trialValueSelectionMT. rewrite (hill_back 2 (1 / 2)) by lra. unfold look, at_pt. cbn [e_a e_f e_g].
      rewrite (proj2 (xgt_F_false _ _)) by lra. rewrite xmul_F, (proj2 (xlt_F_false _ _)) by (rewrite V1, V2; lra). rewrite !xabs_F.
      rewrite (proj2 (xle_F_false _ _)) by (rewrite !Rabs_left by lra; lra). f_equal. unfold zc. rewrite V2, V3, F2, F3. field.
    + unfold inside_of, Rmin, Rmax. destruct (Rle_dec _ _); lra.
  - exists (6 / 5), (3 / 10), (1 / 2).
    assert (HV : hill' (6 / 5) = 6 / 25 /\ hill' (1 / 2) = - 1 / 4) by (unfold hill', dcub; repeat split; field). destruct HV as (V1 & V2).
    assert (FV : hill (6 / 5) = - 18 / 125 /\ hill (1 / 2) = - 1 / 12 /\ hill (3 / 10) = - 36 / 1000) by (unfold hill, cub; repeat split; field). destruct FV as (F1 & F2 & F3).
    assert (EC : cubicMin (look hill hill' (6 / 5)) (look hill hill' (1 / 2)) = Fin 0).
    { rewrite hill_back by lra. f_equal. unfold zc. rewrite V1, V2, F1, F2. field. }
    assert (EQ : quadMin (look hill hill' (6 / 5)) (look hill hill' (1 / 2)) = Fin (33 / 35)).
    { unfold quadMin, look, at_pt. cbn [e_a e_f e_g]. rewrite !xsub_F, !xmul_F, xdiv_F by lra. rewrite xsub_F, V1, F1, F2.
      rewrite xdiv_F by lra. rewrite xsub_F. f_equal. field. }
    exists (33 / 70). split; [split; lra|]. split; [right; lra|]. split; [lra|]. split; [|split].
    + unfold updateIntervalMT, look, at_pt. cbn [e_a e_f e_g]. rewrite (proj2 (xgt_F _ _)) by lra. reflexivity.
    + unfold look in *. rewrite (trial_higher _ _ _ _ _ _ _ 0 (33 / 35)); [|lra|exact EC|exact EQ].
      destruct (Rlt_dec _ _) as [C|C]; [|f_equal; field]. exfalso. rewrite !Rabs_left in C by lra. lra.
    + unfold inside_of, Rmin, Rmax. destruct (Rle_dec _ _); lra.
  - assert (ES : secantMin (at_pt 0 0 (-1)) (at_pt 1 (-1) (-1)) = MInf).
    { unfold secantMin, at_pt. cbn [e_a e_f e_g]. rewrite !xsub_F. unfold xdiv. destruct (Req_EM_T _ _) as [_|C]; [|lra].
      unfold xinf at 1. destruct (Rlt_dec _ _) as [C|_]; [lra|]. destruct (Rlt_dec _ _) as [_|C]; [|lra]. cbn [xmul]. unfold xinf.
      destruct (Rlt_dec _ _) as [_|C]; [reflexivity|lra]. }
    assert (EC : cubicMin (at_pt 0 0 (-1)) (at_pt 1 (-1) (-1)) = PInf).
    { unfold cubicMin, at_pt. cbn [e_a e_f e_g]. rewrite !xsub_F, !xmul_F, xdiv_F by lra. rewrite !xsub_F, !xmul_F, xsub_F.
      assert (Z : (3 * (-1 - 0) / (1 - 0) - -1 - -1) * (3 * (-1 - 0) / (1 - 0) - -1 - -1) - -1 * -1 = 0) by field. rewrite Z, xsqrt_F, sqrt_0 by lra.
      rewrite !xsub_F, !xmul_F, xadd_F. unfold xdiv. destruct (Req_EM_T _ _) as [_|C]; [|lra]. unfold xinf. destruct (Rlt_dec _ _) as [_|C]; [reflexivity|lra]. }
    unfold trialValueSelectionMT. rewrite ES, EC. unfold at_pt. cbn [e_a e_f e_g].
    rewrite (proj2 (xgt_F_false _ _)) by lra. rewrite xmul_F, (proj2 (xlt_F_false _ _)) by lra. rewrite xabs_F.
    rewrite (proj2 (xle_F _ _)) by lra. rewrite (proj2 (xgt_F _ _)) by lra. reflexivity.
Qed.
Print Assumptions C126_inside_refuted.

(** Cases that meet the hypotheses: the parabola (x-1)^2 from 0, with trials in 3 (higher),
    3/2 (rising) and 1/2 (flatter). *)
Example C126_cases :
  let f x := (x - 1) * (x - 1) in let f' x := 2 * (x - 1) in
  (0 < 3 /\ f' 0 < 0 /\ f 0 < f 3) /\ (0 < 3 / 2 /\ f' 0 < 0 /\ f (3 / 2) <= f 0 /\ 0 < f' (3 / 2)) /\
  (f (1 / 2) <= f 0 /\ f' 0 < f' (1 / 2) <= 0 /\ through 1 (-2) 1 0 0 (f 0) (f' 0) (1 / 2) (f (1 / 2)) (f' (1 / 2)) /\
   dcub (-2) 1 0 1 = 0 /\ 0 < ddcub 1 0 1) /\
  (forall x, derivable_pt_lim f x (f' x)) /\ bracket 0 (f 0) (f' 0) 3 (f 3) /\
  (exists l u, narrowed f f' 0 3 [1 / 2; 5 / 2] l u).
Proof.
  cbv zeta. split; [lra|]. split; [lra|]. split.
  - split; [lra|]. split; [lra|]. unfold through, cub, dcub, ddcub. repeat split; lra.
  - split; [|split].
    + intro x. replace (2 * (x - 1)) with ((1 - 0) * (id - fct_cte 1)%F x + (id - fct_cte 1)%F x * (1 - 0)) by (unfold id, fct_cte, minus_fct; ring).
      apply (derivable_pt_lim_mult (id - fct_cte 1)%F (id - fct_cte 1)%F x (1 - 0) (1 - 0)); apply derivable_pt_lim_minus; (apply derivable_pt_lim_id || apply derivable_pt_lim_const).
    + split; lra.
    + exists (1 / 2), (5 / 2). eapply (nw_cons _ _ 0 3 (1 / 2) (1 / 2) 3); [left; lra| |].
      { unfold updateIntervalMT, look, at_pt. cbn [e_a e_f e_g]. rewrite (proj2 (xgt_F_false _ _)) by lra. rewrite xsub_F, xmul_F, (proj2 (xgt_F _ _)) by lra. reflexivity. }
      eapply (nw_cons _ _ (1 / 2) 3 (5 / 2) (1 / 2) (5 / 2)); [left; lra| |apply nw_nil].
      unfold updateIntervalMT, look, at_pt. cbn [e_a e_f e_g]. rewrite (proj2 (xgt_F _ _)) by lra. reflexivity.
Qed.

(** The numbers the step search computes with multiply as signed numbers do, infinite or not. *)
Theorem C126_signs : forall a b, xmul a b = xmul b a /\ xmul (xopp a) b = xopp (xmul a b).
Proof.
  assert (I : forall x, xinf (- x) = xopp (xinf x)).
  { intro x. unfold xinf. destruct (Rlt_dec 0 (- x)), (Rlt_dec 0 x), (Rlt_dec (- x) 0), (Rlt_dec x 0); cbn; try reflexivity; exfalso; lra. }
  intros [x| | |] [y| | |]; split; cbn [xmul xopp]; try reflexivity; try (f_equal; lra); rewrite ?I; cbn [xopp]; rewrite ?I; try reflexivity;
    destruct (xinf _) as [z| | |]; cbn [xopp]; rewrite ?Ropp_involutive; reflexivity.
Qed.
Print Assumptions C126_signs.
