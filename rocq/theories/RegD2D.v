(** Proofs: the D2D score, gradient and Hessian of the code are those of the
    specification, for one pair of cells and for two grids under any schedule. *)
From Coq Require Import Reals ZArith List Bool Lra Lia Psatz Permutation.
From Verif Require Import Base LinAlg3 Deriv MatDeriv GeoModel GeoSpec GeoProofs OptModel RegModel RegSpec RegDeriv.
Import ListNotations.
Open Scope R_scope.

(** ** One pair *)
Lemma vdot_vmmul v a w : vdot (vmmul v a) w = vdot v (mvmul a w).
Proof. unfold vmmul. mcomp. ring. Qed.
Lemma vmmul_sym v a : sym a -> vmmul v a = mvmul a v.
Proof. intro H. unfold vmmul. rewrite H. reflexivity. Qed.

Lemma turn_0 : turn 0 = mid.
Proof. unfold turn. rewrite cos_0, sin_0. apply M3_eq; mcomp; ring. Qed.
Lemma moved_0 s : moved vzero s = s.
Proof.
  unfold moved, vzero. cbn [vx vy vz]. rewrite turn_0. destruct s as [m c]. cbn [gc_mean gc_cov].
  f_equal; [apply V3_eq; mcomp; ring|apply M3_eq; mcomp; ring].
Qed.
Lemma MM_0 s t : MM s t 0 = madd (gc_cov t) (gc_cov s).
Proof. unfold MM. rewrite turn_0. f_equal. apply M3_eq; mcomp; ring. Qed.
Lemma ZZ_0 s h : sym (gc_cov s) -> ZZ s 0 = dv_Z (computeDerivatives (gc_mean s) (gc_cov s) h) 2.
Proof.
  intro H. pose proof (f_equal m12 H) as E1. pose proof (f_equal m13 H) as E2. pose proof (f_equal m23 H) as E3.
  cbn in E1, E2, E3.
  unfold ZZ, turn1. rewrite turn_0, cos_0, sin_0. destruct (gc_cov s). cbn in *. subst.
  apply M3_eq; mcomp; ring.
Qed.
Lemma ZZ1_0 s : sym (gc_cov s) -> ZZ1 s 0 = dv_ZH (computeDerivatives (gc_mean s) (gc_cov s) true) 2.
Proof.
  intro H. pose proof (f_equal m12 H) as E1. pose proof (f_equal m13 H) as E2. pose proof (f_equal m23 H) as E3.
  cbn in E1, E2, E3.
  unfold ZZ1, turn1, turn2. rewrite turn_0, cos_0, sin_0. destruct (gc_cov s). cbn in *. subst.
  apply M3_eq; mcomp; ring.
Qed.
Lemma W_0 s : W s 0 = mkV (- vy (gc_mean s)) (vx (gc_mean s)) 0.
Proof. unfold W, turn1. rewrite cos_0, sin_0. apply V3_eq; mcomp; ring. Qed.
Lemma W1_0 s : W1 s 0 = mkV (- vx (gc_mean s)) (- vy (gc_mean s)) 0.
Proof. unfold W1, turn2. rewrite cos_0, sin_0. apply V3_eq; mcomp; ring. Qed.

Lemma inverseExists_ok a : / 10 ^ 12 < Rabs (mdet a) -> inverseExists a = true.
Proof. intro H. unfold inverseExists. destruct (Rlt_dec _ _); [reflexivity|contradiction]. Qed.
Lemma inverseExists_det a : / 10 ^ 12 < Rabs (mdet a) -> mdet a <> 0.
Proof.
  intros H E. rewrite E, Rabs_R0 in H.
  assert (0 < / 10 ^ 12) by (apply Rinv_0_lt_compat; apply pow_lt; lra). lra.
Qed.

Definition pairSad (p : fparams) (h : bool) (st : gcell * gcell) : sad :=
  let s := fst st in
  calcSourceCellScore (gc_mean s) (gc_cov s) (snd st) (computeDerivatives (gc_mean s) (gc_cov s) h) p h.

Lemma pair_code p s t : regular_pair s t ->
  pairSad p true (s, t) =
  mkSad (mscale (- g_half p * F p s t vzero)
           (msub (Hd s t vzero) (mscale (g_half p) (outer (Gd s t vzero) (Gd s t vzero)))))
        (vscale (- g_half p * F p s t vzero) (Gd s t vzero)) (F p s t vzero).
Proof.
  intros (S1 & S2 & D).
  assert (SB : sym (minv (madd (gc_cov t) (gc_cov s)))).
  { apply sym_minv. unfold sym in *. rewrite mtr_add, S1, S2. reflexivity. }
  unfold pairSad, calcSourceCellScore. cbn [fst snd]. cbv zeta.
  rewrite inverseExists_ok by exact D. cbn [negb].
  unfold Hd, hrow3, Y1, Gd, G3, Y. cbn [vz vzero].
  rewrite (ZZ_0 s true S1), (ZZ1_0 s S1), W_0, W1_0, MM_0.
  unfold F, X. rewrite moved_0. unfold pair_score, fitted, mahal, quad.
  set (B := minv (madd (gc_cov t) (gc_cov s))) in *. clearbody B.
  set (x := vsub (gc_mean s) (gc_mean t)) in *. clearbody x.
  rewrite !(vmmul_sym _ B SB).
  set (y := mvmul B x) in *.
  assert (DY : forall v, vdot (mvmul B v) x = vdot v y).
  { intro v. rewrite sym_dot by exact SB. reflexivity. }
  rewrite !DY. set (k := vdot x y). clearbody k. set (val := - g_d1 p * exp (- g_half p * k)). clearbody val.
  clearbody y. clear DY x k D S2.
  unfold computeDerivatives. cbn [dv_J dv_Z dv_H dv_ZH Nat.eqb andb].
  pose proof (f_equal m12 SB) as E1. pose proof (f_equal m13 SB) as E2. pose proof (f_equal m23 SB) as E3.
  clear SB. destruct B as [b11 b12 b13 b21 b22 b23 b31 b32 b33]. cbn in E1, E2, E3. subst.
  destruct (gc_cov s) as [c11 c12 c13 c21 c22 c23 c31 c32 c33].
  destruct (gc_mean s) as [x1 x2 x3]. destruct y as [y1 y2 y3].
  cbn [m11 m12 m13 m21 m22 m23 m31 m32 m33 vx vy vz].
  generalize (g_half p). intro h.
  f_equal; [apply M3_eq|apply V3_eq]; unfold vmmul, col2, row2, outer; mcomp; ring.
Qed.

Lemma pair_nohess p st : pairSad p false st = mkSad mzero (sd_grad (pairSad p true st)) (sd_val (pairSad p true st)).
Proof.
  unfold pairSad, calcSourceCellScore. cbv zeta. destruct (inverseExists _); reflexivity.
Qed.

(** ** Sums *)
Lemma sad_eq a b : sd_hess a = sd_hess b -> sd_grad a = sd_grad b -> sd_val a = sd_val b -> a = b.
Proof. destruct a, b. cbn. intros -> -> ->. reflexivity. Qed.
Lemma sdadd_comm a b : sdadd a b = sdadd b a.
Proof. apply sad_eq; cbn; [apply M3_eq|apply V3_eq|]; mcomp; ring. Qed.
Lemma sdadd_assoc a b c : sdadd (sdadd a b) c = sdadd a (sdadd b c).
Proof. apply sad_eq; cbn; [apply M3_eq|apply V3_eq|]; mcomp; ring. Qed.
Lemma sdadd_0 a : sdadd sdzero a = a.
Proof. apply sad_eq; cbn; [apply M3_eq|apply V3_eq|]; mcomp; ring. Qed.
Lemma sdadd_0_r a : sdadd a sdzero = a.
Proof. rewrite sdadd_comm. apply sdadd_0. Qed.
Definition sdsum (l : list sad) : sad := fold_right sdadd sdzero l.
Lemma sdsum_nil : sdsum [] = sdzero.
Proof. reflexivity. Qed.
Lemma sdsum_cons a l : sdsum (a :: l) = sdadd a (sdsum l).
Proof. reflexivity. Qed.
#[global] Opaque sdsum.
Lemma sdsum_app l l' : sdsum (l ++ l') = sdadd (sdsum l) (sdsum l').
Proof.
  induction l as [|a l IH]; cbn [app]; [symmetry; apply sdadd_0|]. rewrite !sdsum_cons, IH, sdadd_assoc. reflexivity.
Qed.
Lemma fold_sdadd {A} (f : A -> sad) l z : fold_left (fun acc x => sdadd acc (f x)) l z = sdadd z (sdsum (map f l)).
Proof.
  revert z. induction l as [|a l IH]; intro z; cbn [fold_left map]; [symmetry; apply sdadd_0_r|].
  rewrite sdsum_cons, IH, sdadd_assoc. reflexivity.
Qed.
Lemma sdsum_perm l l' : Permutation l l' -> sdsum l = sdsum l'.
Proof.
  induction 1; rewrite ?sdsum_cons; [reflexivity|congruence| |congruence].
  rewrite <- !sdadd_assoc, (sdadd_comm y x). reflexivity.
Qed.

Section Grids.
  Variable nearest : P2 -> nat -> list gcell.

  Lemma cellScore_sum p trans h c : cellScore nearest p trans h c =
    sdsum (map (pairSad p h) (map (fun t => (moved trans c, t))
       (nearest (vx (gc_mean (moved trans c)), vy (gc_mean (moved trans c))) 2%nat))).
  Proof.
    unfold cellScore. cbv zeta. rewrite fold_sdadd, sdadd_0, map_map. reflexivity.
  Qed.
  Lemma calcScore_sum p source trans h :
    calcScore nearest p source trans h = sdsum (map (pairSad p h) (matches nearest source trans)).
  Proof.
    unfold calcScore. rewrite fold_sdadd, sdadd_0. unfold matches.
    induction source as [|c l IH]; [reflexivity|].
    cbn [map flat_map]. rewrite map_app, sdsum_app, <- IH, sdsum_cons, cellScore_sum. reflexivity.
  Qed.

  (** ** Any schedule *)
  Lemma fold_sum l : forall z, fold_left sdadd l z = sdadd z (sdsum l).
  Proof.
    intro z. pose proof (fold_sdadd (fun x : sad => x) l z) as H. rewrite map_id in H. exact H.
  Qed.
  Lemma sdsum_upd l i old x : nth_error l i = Some old ->
    sdsum (upd l i (sdadd old x)) = sdadd (sdsum l) x.
  Proof.
    revert i. induction l as [|a l IH]; intros [|i]; cbn [nth_error upd]; try discriminate; rewrite ?sdsum_cons.
    - intros [= ->]. rewrite ?sdsum_cons, !sdadd_assoc. f_equal. apply sdadd_comm.
    - intro H. rewrite ?sdsum_cons, (IH _ H), sdadd_assoc. reflexivity.
  Qed.
  Lemma sched_run p source trans h sched : forall ret, 
    Forall (fun e => (snd e < length source)%nat /\ (fst e < length ret)%nat) sched ->
    exists ret', foldM (fun omp_ret (e : nat * nat) =>
        do c <- vget source (snd e);
        do old <- vget omp_ret (fst e);
        vset omp_ret (fst e) (sdadd old (cellScore nearest p trans h c))) sched ret = Ok ret' /\
      forall d, sdsum ret' = sdadd (sdsum ret)
        (sdsum (map (fun i => cellScore nearest p trans h (nth i source d)) (map snd sched))).
  Proof.
    induction sched as [|e sched IH]; intros ret H.
    - exists ret. split; [reflexivity|]. intros. cbn [map]. rewrite sdsum_nil. symmetry. apply sdadd_0_r.
    - inversion H as [|e' l' [H1 H2] HF]; subst.
      destruct (nth_error source (snd e)) as [c|] eqn:Ec; [|apply nth_error_None in Ec; lia].
      destruct (nth_error ret (fst e)) as [old|] eqn:Eo; [|apply nth_error_None in Eo; lia].
      destruct (IH (upd ret (fst e) (sdadd old (cellScore nearest p trans h c)))) as (ret' & E & S).
      { revert HF. apply Forall_impl. intros a [A1 A2]. rewrite length_upd. auto. }
      exists ret'. split.
      + cbn [foldM]. unfold vget, vset at 1. rewrite Ec. cbn [bind]. rewrite Eo. cbn [bind].
        unfold vset. apply Nat.ltb_lt in H2. rewrite H2. cbn [bind]. exact E.
      + intro d. rewrite (S d), (sdsum_upd _ _ _ _ Eo). cbn [map].
        rewrite sdsum_cons, sdadd_assoc.
        apply (nth_error_nth source _ d) in Ec. rewrite Ec. reflexivity.
  Qed.
  Lemma nth_seq {A} (l : list A) d : map (fun i => nth i l d) (seq 0 (length l)) = l.
  Proof.
    induction l as [|a l IH]; [reflexivity|]. cbn [length seq map nth]. f_equal.
    rewrite <- seq_shift, map_map. exact IH.
  Qed.
  Theorem any_schedule p source trans h threads sched :
    schedule threads (length source) sched ->
    calcScoreSched nearest threads sched p source trans h = Ok (calcScore nearest p source trans h).
  Proof.
    intros (P & T). unfold calcScoreSched.
    assert (HF : Forall (fun e => (snd e < length source)%nat /\ (fst e < length (repeat sdzero (2 * threads)))%nat) sched).
    { rewrite Forall_forall in *. intros e He. split.
      - assert (I : In (snd e) (map snd sched)) by (apply in_map; exact He).
        apply (Permutation_in _ P), in_seq in I. lia.
      - rewrite repeat_length. specialize (T e He). cbn in T. lia. }
    destruct (sched_run p source trans h sched _ HF) as (ret' & E & S). rewrite E. cbn [bind]. f_equal.
    rewrite fold_sum, sdadd_0.
    set (d := mkG vzero mzero). rewrite (S d).
    assert (Z : forall n, sdsum (repeat sdzero n) = sdzero).
    { induction n; cbn [repeat]; [reflexivity|]. rewrite sdsum_cons, IHn. apply sdadd_0. }
    rewrite Z, sdadd_0.
    rewrite (sdsum_perm _ _ (Permutation_map _ P)).
    unfold calcScore. rewrite fold_sdadd, sdadd_0. f_equal.
    rewrite <- (nth_seq source d) at 2. rewrite map_map. reflexivity.
  Qed.

  (** ** Derivatives of the total *)
  Lemma gradient_const c q : is_gradient (fun _ => c) vzero q.
  Proof. repeat split; apply D_const. Qed.
  Lemma gradient_plus f g a b q : is_gradient f a q -> is_gradient g b q ->
    is_gradient (fun u => f u + g u) (vadd a b) q.
  Proof.
    intros (A1 & A2 & A3) (B1 & B2 & B3). unfold is_gradient. cbn [vadd vx vy vz].
    split; [|split]; apply D_plus; assumption.
  Qed.
  Lemma hessian_const c q : is_hessian (fun _ => c) mzero q.
  Proof.
    exists (fun _ => vzero), 1. split; [lra|]. split; [intros; apply gradient_const|].
    split; [|split]; apply gradient_const.
  Qed.
  Lemma hessian_plus f g a b q : is_hessian f a q -> is_hessian g b q ->
    is_hessian (fun u => f u + g u) (madd a b) q.
  Proof.
    intros (G & r & R0 & HG & A1 & A2 & A3) (G' & r' & R0' & HG' & B1 & B2 & B3).
    exists (fun u => vadd (G u) (G' u)), (Rmin r r'). split; [apply Rmin_glb_lt; assumption|]. split.
    - intros u (N1 & N2 & N3).
      pose proof (Rmin_l r r'). pose proof (Rmin_r r r').
      apply gradient_plus; [apply HG|apply HG']; repeat split; lra.
    - cbn [madd vadd m11 m12 m13 m21 m22 m23 m31 m32 m33 vx vy vz].
      split; [|split]; (eapply gradient_eq; [|apply gradient_plus; eassumption]; reflexivity).
  Qed.

  Lemma total_derivs p ms : Forall (fun m => regular_pair (fst m) (snd m)) ms ->
    let sc := sdsum (map (pairSad p true) ms) in
    sd_val sc = total_score p ms vzero /\
    is_gradient (total_score p ms) (sd_grad sc) vzero /\
    is_hessian (total_score p ms) (sd_hess sc) vzero.
  Proof.
    cbv zeta. induction ms as [|[s t] ms IH]; intro H.
    - cbn [map]. rewrite sdsum_nil. split; [reflexivity|]. split; [apply (gradient_const 0)|apply (hessian_const 0)].
    - inversion H as [|? ? H1 H2]; subst. cbn [fst snd] in H1. destruct (IH H2) as (V & G & HH).
      cbn [map]. rewrite sdsum_cons, (pair_code p s t H1). cbn [sdadd sd_val sd_grad sd_hess]. rewrite V.
      assert (N : mdet (MM s t 0) <> 0).
      { rewrite MM_0. apply inverseExists_det. apply H1. }
      destruct H1 as (S1 & S2 & _).
      split; [reflexivity|]. split.
      + apply (gradient_plus (F p s t) (total_score p ms)); [|exact G].
        apply grad_F; assumption.
      + apply (hessian_plus (F p s t) (total_score p ms)); [|exact HH].
        apply hess_F; assumption.
  Qed.
  Theorem d2d_derivs p source trans :
    Forall (fun m => regular_pair (fst m) (snd m)) (matches nearest source trans) ->
    let ms := matches nearest source trans in
    let sc := calcScore nearest p source trans true in
    sd_val sc = total_score p ms vzero /\
    is_gradient (total_score p ms) (sd_grad sc) vzero /\
    is_hessian (total_score p ms) (sd_hess sc) vzero.
  Proof. intro H. cbv zeta. rewrite calcScore_sum. apply total_derivs. exact H. Qed.
  Theorem d2d_nohess p source trans :
    let sc := calcScore nearest p source trans true in
    calcScore nearest p source trans false = mkSad mzero (sd_grad sc) (sd_val sc).
  Proof.
    cbv zeta. rewrite !calcScore_sum. induction (matches nearest source trans) as [|m ms IH]; [reflexivity|].
    cbn [map]. rewrite !sdsum_cons, IH, pair_nohess. apply sad_eq; cbn [sdadd sd_val sd_grad sd_hess]; [apply M3_eq; mcomp; ring|reflexivity|reflexivity].
  Qed.

  (** pairs that are left out *)
  Lemma usable_regular ms : Forall sym_pair ms -> Forall (fun m => regular_pair (fst m) (snd m)) (usable ms).
  Proof.
    intro H. rewrite Forall_forall in *. intros m I. unfold usable in I. apply filter_In in I.
    destruct I as (I & D). destruct (Rlt_dec _ _) as [L|L]; [|discriminate].
    destruct (H m I) as (A & B). split; [exact A|]. split; [exact B|exact L].
  Qed.
  Lemma usable_sum p h ms : sdsum (map (pairSad p h) ms) = sdsum (map (pairSad p h) (usable ms)).
  Proof.
    induction ms as [|m ms IH]; [reflexivity|]. cbn [map usable filter].
    destruct (Rlt_dec _ _) as [L|L].
    - cbn [map]. rewrite !sdsum_cons. f_equal. exact IH.
    - rewrite sdsum_cons. replace (pairSad p h m) with sdzero.
      + rewrite sdadd_0. exact IH.
      + unfold pairSad, calcSourceCellScore, inverseExists. cbv zeta.
        destruct (Rlt_dec _ _); [contradiction|]. reflexivity.
  Qed.
  Theorem d2d_derivs_all p source trans :
    let ms := matches nearest source trans in
    let sc := calcScore nearest p source trans true in
    Forall sym_pair ms ->
    sd_val sc = total_score p (usable ms) vzero /\
    is_gradient (total_score p (usable ms)) (sd_grad sc) vzero /\
    is_hessian (total_score p (usable ms)) (sd_hess sc) vzero.
  Proof.
    cbv zeta. intro H. rewrite calcScore_sum, usable_sum. apply total_derivs. apply usable_regular. exact H.
  Qed.
End Grids.
