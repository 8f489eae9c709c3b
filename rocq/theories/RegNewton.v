(** Proofs about the Newton iteration of the registrations. *)
From Coq Require Import Reals ZArith List Bool Lra Lia Psatz.
From Verif Require Import Base LinAlg3 GeoModel GeoSpec GeoProofs OptModel RegModel RegSpec RegStep.
Import ListNotations.
Open Scope R_scope.

Lemma vdot_pos a : 0 <= vdot a a.
Proof. destruct a. unfold vdot. cbn. nra. Qed.
Lemma vnorm_pos a : 0 <= vnorm a.
Proof. apply sqrt_pos. Qed.
Lemma vnorm_sq a : vnorm a * vnorm a = vdot a a.
Proof. apply sqrt_sqrt, vdot_pos. Qed.
Lemma vnorm_scale k a : vnorm (vscale k a) = Rabs k * vnorm a.
Proof.
  unfold vnorm. rewrite <- (sqrt_Rsqr_abs k), <- sqrt_mult; [|apply Rle_0_sqr|apply vdot_pos].
  f_equal. unfold Rsqr. mring.
Qed.
Lemma cauchy a b : vdot a b <= vnorm a * vnorm b.
Proof.
  destruct (Rle_lt_dec (vdot a b) 0) as [H|H].
  - pose proof (vnorm_pos a). pose proof (vnorm_pos b). nra.
  - assert (E : vdot a b * vdot a b <= vdot a a * vdot b b).
    { destruct a as [a1 a2 a3], b as [b1 b2 b3]. unfold vdot. cbn.
      pose proof (Rle_0_sqr (a1 * b2 - a2 * b1)). pose proof (Rle_0_sqr (a1 * b3 - a3 * b1)).
      pose proof (Rle_0_sqr (a2 * b3 - a3 * b2)). unfold Rsqr in *. lra. }
    unfold vnorm. rewrite <- sqrt_mult; [|apply vdot_pos|apply vdot_pos].
    rewrite <- (sqrt_square (vdot a b)) by lra. apply sqrt_le_1_alt. exact E.
Qed.
Lemma vnorm_add a b : vnorm (vadd a b) <= vnorm a + vnorm b.
Proof.
  assert (E : vnorm (vadd a b) * vnorm (vadd a b) <= (vnorm a + vnorm b) * (vnorm a + vnorm b)).
  { rewrite vnorm_sq. pose proof (cauchy a b). pose proof (vnorm_sq a). pose proof (vnorm_sq b).
    replace (vdot (vadd a b) (vadd a b)) with (vdot a a + 2 * vdot a b + vdot b b) by mring. lra. }
  pose proof (vnorm_pos a). pose proof (vnorm_pos b). pose proof (vnorm_pos (vadd a b)). nra.
Qed.
Lemma dist3_tri a b c : dist3 a c <= dist3 a b + dist3 b c.
Proof.
  unfold dist3. replace (vsub a c) with (vadd (vsub a b) (vsub b c)) by mring. apply vnorm_add.
Qed.
Lemma dist3_refl a : dist3 a a = 0.
Proof. unfold dist3, vnorm. replace (vdot _ _) with 0 by mring. apply sqrt_0. Qed.

Section Newton.
  Variable solve : M3 -> V3 -> option V3.
  Variables eps step : R.
  Variable max_iter : Z.
  Hypothesis E : 0 < eps.
  Let L := Rmax step (eps / 2).

  Lemma L_pos : 0 < L.
  Proof. unfold L. pose proof (Rmax_r step (eps / 2)). lra. Qed.

  Lemma newton_step ly xy :
    match newtonStep solve eps step ly xy with
    | None => no_direction solve ly xy
    | Some None => False
    | Some (Some (xy', a)) => dist3 xy' xy <= L /\ ~ no_direction solve ly xy
    end.
  Proof.
    unfold newtonStep, no_direction. cbv zeta.
    set (s := ly_score ly xy). destruct (solve _ _) as [d|]; [|exact I].
    destruct (Req_EM_T (vnorm d) 0) as [Z|Z]; [exact Z|].
    set (u := vscale (/ vnorm d) d).
    assert (U : vnorm u = 1).
    { unfold u. rewrite vnorm_scale, Rabs_inv, (Rabs_pos_eq (vnorm d)) by apply vnorm_pos.
      apply Rinv_l. exact Z. }
    destruct (step_length (ly_search ly) xy u (vnorm d) step (eps / 2) s) as [S0 S1]; [lra|].
    destruct (Req_dec (vdot (sd_grad s) u) 0) as [G|G].
    - rewrite (S0 G). cbn [fst snd]. split; [|exact Z].
      replace (vadd xy (vscale 0 u)) with xy by mring. rewrite dist3_refl. pose proof L_pos. lra.
    - rewrite (S1 G). cbn [fst snd]. split; [|exact Z].
      set (a := Rmax (Rmin (vnorm d) step) (eps / 2)).
      assert (A : 0 <= a <= L).
      { unfold a, L. pose proof (vnorm_pos d). split.
        - pose proof (Rmax_r (Rmin (vnorm d) step) (eps / 2)). lra.
        - apply Rmax_lub; [|apply Rmax_r].
          apply Rle_trans with step; [apply Rmin_r|apply Rmax_l]. }
      unfold dist3. replace (vsub (vadd xy (vscale a _)) xy)
        with (vscale a (if Rlt_dec 0 (vdot (sd_grad s) u) then u else vscale (-1) u)) by mring.
      rewrite vnorm_scale, (Rabs_pos_eq a) by lra.
      replace (vnorm (if Rlt_dec 0 (vdot (sd_grad s) u) then u else vscale (-1) u)) with 1; [lra|].
      destruct (Rlt_dec _ _); [auto|]. rewrite vnorm_scale, Rabs_left by lra. lra.
  Qed.

  (** what one layer does *)
  Definition layer_ok (N : nat) (ly : layer) (xy : V3) (r : lres) : Prop :=
    match r with
    | LFail i => (i <= N)%nat /\ exists q, no_direction solve ly q
    | LOk p i sc => (1 <= i <= N)%nat /\ dist3 p xy <= INR N * L /\
                    exists q, sc = ly_score ly q /\ ~ no_direction solve ly q /\ dist3 q xy <= INR N * L
    | LLost => False
    end.
  Lemma INR_le_L i n : (i <= n)%nat -> INR i * L <= INR n * L.
  Proof. intro H. apply Rmult_le_compat_r; [pose proof L_pos; lra|]. apply le_INR. exact H. Qed.

  Lemma d2d_loop ly xy0 : forall fuel xy iter,
    (iter < d2d_rounds max_iter)%nat -> (d2d_rounds max_iter <= fuel + iter)%nat ->
    dist3 xy xy0 <= INR iter * L ->
    exists r, d2dLoop solve eps step max_iter fuel ly xy iter = Some r /\
      layer_ok (d2d_rounds max_iter) ly xy0 r.
  Proof.
    induction fuel as [|k IH]; intros xy iter I F D; [lia|]. cbn [d2dLoop].
    pose proof (newton_step ly xy) as NS.
    destruct (newtonStep solve eps step ly xy) as [[[xy' a]|]|].
    - destruct NS as [NS ND].
      assert (D' : dist3 xy' xy0 <= INR (S iter) * L).
      { rewrite S_INR. pose proof (dist3_tri xy' xy xy0). lra. }
      destruct (_ || _) eqn:B.
      + eexists; split; [reflexivity|]. cbn. split; [lia|]. split.
        * apply Rle_trans with (INR (S iter) * L); [auto|]. apply INR_le_L. lia.
        * exists xy. split; [auto|]. split; [auto|].
          apply Rle_trans with (INR iter * L); [auto|]. apply INR_le_L. lia.
      + apply orb_false_iff in B. destruct B as [B _]. apply Z.leb_gt in B.
        apply IH; [unfold d2d_rounds in *; lia|lia|auto].
    - contradiction.
    - eexists; split; [reflexivity|]. cbn. split; [lia|]. exists xy. exact NS.
  Qed.
  Lemma p2d_loop ly xy0 : forall fuel xy iter,
    (iter < p2d_rounds max_iter)%nat -> (p2d_rounds max_iter <= fuel + iter)%nat ->
    dist3 xy xy0 <= INR iter * L ->
    exists r, p2dLoop solve eps step max_iter fuel ly xy iter = Some r /\
      layer_ok (p2d_rounds max_iter) ly xy0 r.
  Proof.
    induction fuel as [|k IH]; intros xy iter I F D; [lia|]. cbn [p2dLoop].
    pose proof (newton_step ly xy) as NS.
    destruct (newtonStep solve eps step ly xy) as [[[xy' a]|]|].
    - destruct NS as [NS ND].
      assert (D' : dist3 xy' xy0 <= INR (S iter) * L).
      { rewrite S_INR. pose proof (dist3_tri xy' xy xy0). lra. }
      destruct (_ || _) eqn:B.
      + eexists; split; [reflexivity|]. cbn. split; [lia|]. split.
        * apply Rle_trans with (INR (S iter) * L); [auto|]. apply INR_le_L. lia.
        * exists xy. split; [auto|]. split; [auto|].
          apply Rle_trans with (INR iter * L); [auto|]. apply INR_le_L. lia.
      + apply orb_false_iff in B. destruct B as [B _]. apply Z.ltb_ge in B.
        apply IH; [unfold p2d_rounds in *; lia|lia|auto].
    - contradiction.
    - eexists; split; [reflexivity|]. cbn. split; [lia|]. exists xy. exact NS.
  Qed.

  (** The vector read back from a transform differs from the one it was made of
      by full turns of the angle. *)
  Lemma back_and_forth g : exists k : Z,
    matToVec (vecToMat g) = vadd g (mkV 0 0 (IZR k * (2 * PI))).
  Proof.
    unfold matToVec, vecOfT, vecToMat. rewrite pose_of_trans. cbn [px py pth poseOf].
    destruct (normalize_wrapped (vz g)) as [_ [k K]]. exists k. rewrite K.
    destruct g. unfold vadd. cbn. f_equal; ring.
  Qed.
  Lemma turns p k : vecToMat (vadd p (mkV 0 0 (IZR k * (2 * PI)))) = vecToMat p.
  Proof.
    unfold vecToMat, getTransFromPose, poseOf, vadd. cbn [px py pth vx vy vz].
    destruct (period_Z (vz p) k) as [-> ->]. apply T2_eq; cbn; ring.
  Qed.
  Lemma unturn g p B : dist3 p (matToVec (vecToMat g)) <= B ->
    exists v, vecToMat v = vecToMat p /\ dist3 v g <= B.
  Proof.
    destruct (back_and_forth g) as [k K]. rewrite K. intro H.
    exists (vadd p (mkV 0 0 (IZR (- k) * (2 * PI)))). split; [apply turns|].
    replace (dist3 _ g) with (dist3 p (vadd g (mkV 0 0 (IZR k * (2 * PI))))); [exact H|].
    unfold dist3. f_equal. rewrite opp_IZR. mring.
  Qed.

  (** the layers one after the other *)
  Lemma run_layers loop N :
    (forall ly xy, exists r, loop ly xy 0%nat = Some r /\ layer_ok N ly xy r) ->
    forall ls g s,
    exists r, runLayers loop ls (vecToMat g) s = Some (Some r) /\
      (exists v, rs_final r = vecToMat v /\ dist3 v g <= INR (length ls) * (INR N * L)) /\
      ((rs_iter s <= N)%nat -> (rs_iter r <= N)%nat) /\
      (rs_conv r = false -> rs_cov r = mid /\ rs_inf r = mid /\
         exists ly q, In ly ls /\ no_direction solve ly q) /\
      (rs_conv r = true ->
         (ls = [] -> rs_cov r = rs_cov s /\ rs_inf r = rs_inf s) /\
         (forall pre ly, ls = pre ++ [ly] ->
            exists q, rs_cov r = sd_hess (ly_score ly q) /\ rs_inf r = minv (rs_cov r))).
  Proof.
    intro LO. assert (NL : 0 <= INR N * L).
    { apply Rmult_le_pos; [apply pos_INR|pose proof L_pos; lra]. }
    induction ls as [|ly ls IH]; intros g s; cbn [runLayers].
    - eexists. split; [reflexivity|]. cbn [rs_final rs_iter rs_conv rs_cov rs_inf length].
      split. { exists g. rewrite dist3_refl. cbn. split; [auto|lra]. }
      split; [auto|]. split; [discriminate|]. intros _. split; [auto|].
      intros pre ly H. destruct pre; discriminate H.
    - destruct (LO ly (matToVec (vecToMat g))) as (r & -> & OK). destruct r as [i|p i sc|]; cbn in OK.
      + eexists. split; [reflexivity|]. cbn [rs_final rs_iter rs_conv rs_cov rs_inf].
        split. { exists g. rewrite dist3_refl. split; [auto|]. apply Rmult_le_pos; [apply pos_INR|auto]. }
        split; [tauto|]. split; [|discriminate]. intros _. split; [auto|]. split; [auto|].
        destruct OK as [_ [q Q]]. exists ly, q. split; [left; auto|auto].
      + destruct OK as (Hi & D & (q & Q & ND & DQ)).
        destruct (unturn g p _ D) as (v0 & V0 & DV).
        destruct (IH v0 (mkRS false (vecToMat p) i (sd_hess sc) (minv (sd_hess sc)))) as (r & R & (v & FV & DD) & RI & RF & RT).
        rewrite V0 in R. exists r. split; [exact R|].
        split. { exists v. split; [exact FV|]. change (length (ly :: ls)) with (S (length ls)). rewrite S_INR.
                 pose proof (dist3_tri v v0 g). lra. }
        split; [intros _; apply RI; cbn; lia|].
        split. { intro C. destruct (RF C) as (A & B & ly' & q' & I' & ND'). repeat (split; [assumption|]).
                 exists ly', q'. split; [right; auto|auto]. }
        intro C. destruct (RT C) as [R0 R1]. split; [discriminate|].
        intros pre ly' H. destruct pre as [|p0 pre]; cbn in H.
        * injection H as H1 H2. subst ly' ls. destruct (R0 eq_refl) as [X Y]. cbn in X, Y.
          exists q. rewrite X, Y, Q. auto.
        * injection H as H1 H2. apply (R1 pre). exact H2.
      + contradiction.
  Qed.

  Definition run_ok (N : nat) (ls : list layer) (g : V3) (r : rstate) : Prop :=
    (exists v, rs_final r = vecToMat v /\ dist3 v g <= INR (length ls) * (INR N * L)) /\
    (rs_conv r = false -> rs_cov r = mid /\ rs_inf r = mid /\
       exists ly q, In ly ls /\ no_direction solve ly q) /\
    (rs_conv r = true -> forall pre ly, ls = pre ++ [ly] ->
       (rs_iter r <= N)%nat /\
       exists q, rs_cov r = sd_hess (ly_score ly q) /\ rs_inf r = minv (rs_cov r)).

  Lemma run_ok_of loop N ls g s :
    (forall ly xy, exists r, loop ly xy 0%nat = Some r /\ layer_ok N ly xy r) ->
    exists r, runLayers loop ls (vecToMat g) s = Some (Some r) /\ run_ok N ls g r.
  Proof.
    intro LO.
    assert (RI : forall ls g s, exists r, runLayers loop ls (vecToMat g) s = Some (Some r) /\
       (ls <> [] -> (rs_iter r <= N)%nat)).
    { intros ls' g' s'. destruct ls' as [|ly ls']; cbn [runLayers].
      - eexists. split; [reflexivity|]. congruence.
      - destruct (LO ly (matToVec (vecToMat g'))) as (r & -> & OK). destruct r as [i|p i sc|]; cbn in OK.
        + eexists. split; [reflexivity|]. cbn. tauto.
        + destruct (run_layers loop N LO ls' p (mkRS false (vecToMat p) i (sd_hess sc) (minv (sd_hess sc))))
            as (r & R & _ & I & _). exists r. split; [exact R|]. intros _. apply I. cbn. lia.
        + contradiction. }
    destruct (run_layers loop N LO ls g s) as (r & R & A & _ & B & C).
    exists r. split; [exact R|]. split; [exact A|]. split; [exact B|].
    intros T pre ly H. split; [|apply (proj2 (C T) pre ly H)].
    destruct (RI ls g s) as (r' & R' & I). rewrite R in R'. injection R' as <-.
    apply I. rewrite H. destruct pre; discriminate.
  Qed.

  Theorem d2d_align fuel ls g s : (d2d_rounds max_iter <= fuel)%nat ->
    exists r, d2dAlign solve eps step max_iter fuel true ls (vecToMat g) s = Some (Some r) /\
      run_ok (d2d_rounds max_iter) ls g r.
  Proof.
    intro F. unfold d2dAlign. apply run_ok_of. intros ly xy.
    apply d2d_loop; [unfold d2d_rounds; lia|lia|rewrite dist3_refl; cbn; lra].
  Qed.
  Theorem p2d_align fuel ls g s : (p2d_rounds max_iter <= fuel)%nat ->
    exists r, p2dAlign solve eps step max_iter fuel true ls (vecToMat g) s = Some (Some r) /\
      run_ok (p2d_rounds max_iter) ls g r.
  Proof.
    intro F. unfold p2dAlign. apply run_ok_of. intros ly xy.
    apply p2d_loop; [unfold p2d_rounds; lia|lia|rewrite dist3_refl; cbn; lra].
  Qed.

  (** already at a stationary point: failure *)
  Lemma stuck_layer ly q : no_direction solve ly q -> newtonStep solve eps step ly q = None.
  Proof.
    unfold no_direction, newtonStep. cbv zeta. destruct (solve _ _) as [d|]; [|auto].
    intro H. destruct (Req_EM_T (vnorm d) 0); [auto|contradiction].
  Qed.
  Lemma stuck_d2d fuel ly ls guess s : no_direction solve ly (matToVec guess) ->
    d2dAlign solve eps step max_iter (S fuel) true (ly :: ls) guess s =
      Some (Some (mkRS false guess 0 mid mid)).
  Proof.
    intro H. unfold d2dAlign. cbn [runLayers d2dLoop]. rewrite stuck_layer by exact H. reflexivity.
  Qed.
End Newton.
