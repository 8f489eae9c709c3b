(** C144: the occupancy of a cell with rounded numbers. *)
From Coq Require Import Reals Qreals Lra List ZArith QArith Qabs Qminmax Bool Lia Psatz.
From Flocq Require Import Core.
From Verif Require Import Base VoxelModel FloatModel FloatIEEE FloatErr FloatProofs FloatOccModel FloatOccSpec FloatOcc.
Import ListNotations.
Open Scope Q_scope.

(** The occupancy is a float between -1 and 1, whatever happened to the cell. *)
Theorem C144_range (l : list occ_op) : -(1) <= foccups l <= 1 /\ f32 (foccups l) == foccups l.
Proof.
  pose proof (range_f l) as [A B]. split; [split; apply Rle_Qle; rewrite ?Q2R_m1, ?Q2R_1; assumption|].
  apply eqR_Qeq. rewrite f32_ieee. apply float_f.
Qed.
Print Assumptions C144_range.

(** It is that of exact numbers but for 2^-22 (a quarter of a millionth) for each update. *)
Theorem C144_error (l : list occ_op) :
  Qabs (foccups l - occupancy l) <= inject_Z (Z.of_nat (length l)) * (1 # 4194304).
Proof.
  pose proof (error_f l) as E. apply Rle_Qle. rewrite Qabs_R, Q2R_minus, Q2R_mult.
  change (inject_Z (Z.of_nat (length l))) with (qn (length l)). rewrite qn_R.
  eapply Rle_trans; [exact E|]. apply Rmult_le_compat_l; [apply pos_INR|]. rewrite B23, B25. unfold Q2R. cbn. Lra.lra.
Qed.
Print Assumptions C144_error.

(** An update that should lower the occupancy never raises it, and the other way round. *)
Theorem C144_direction (l : list occ_op) (o : occ_op) :
  (gain o <= 0 -> foccups (l ++ [o]) <= foccups l) /\ (0 <= gain o -> foccups l <= foccups (l ++ [o])).
Proof.
  destruct (added_sign o) as (A & C). split; intro H; apply Qle_Rle in H; rewrite RMicromega.Q2R_0 in H; apply Rle_Qle.
  - apply less_f, A, H.
  - apply more_f, C, H.
Qed.
Print Assumptions C144_direction.

(** With exact numbers any evidence against a full cell empties it in the end.  With rounded
    ones evidence of at most 2^-25 is lost for ever. *)
Lemma still (ev : Q) (t : list occ_op) l : -(1#33554432) <= ev -> ev <= 0 -> foccups l == 1 ->
  Forall (eq (OBeam ev)) t -> foccups (l ++ t) == 1.
Proof.
  intros A N E F. induction t as [|o t IH] using rev_ind; [rewrite app_nil_r; exact E|].
  apply Forall_app in F as [F G]. specialize (IH F). inversion G; subst. rewrite app_assoc.
  apply Qle_antisym; [apply (proj1 (C144_range _))|].
  apply Rle_Qle. rewrite snoc_f, add_R, Q2R_1. cbn [added]. rewrite (Qeq_eqR _ _ IH), Q2R_1.
  apply Rle_trans with (clip (R32 (1 + Q2R (f32 (-(1#33554432)))))).
  - replace (1 + Q2R (f32 (-(1#33554432))))%R with (Q2R (1 + f32 (-(1#33554432)))) by (rewrite Q2R_plus, Q2R_1; reflexivity).
    rewrite <- f32_ieee. replace (Q2R (f32 (1 + f32 (-(1#33554432))))) with 1%R.
    + unfold clip, Rmax, Rmin. repeat destruct (Rle_dec _ _); Lra.lra.
    + rewrite <- Q2R_1. apply Qeq_eqR. vm_compute. reflexivity.
  - apply clip_mono, r32_mono. apply Rplus_le_compat_l. rewrite !f32_ieee. apply r32_mono. apply Qle_Rle, A.
Qed.
Theorem C144_lost_refuted (ev : Q) : -(1#33554432) <= ev -> ev < 0 ->
  (forall k, foccups (OEnd :: repeat (OBeam ev) k) == 1) /\
  exists k, forall m, (k <= m)%nat -> occupancy (OEnd :: repeat (OBeam ev) m) == -(1).
Proof.
  intros A N. split.
  - intro k. apply (still ev (repeat (OBeam ev) k) [OEnd] A); [apply Qlt_le_weak, N|vm_compute; reflexivity|].
    apply Forall_forall. intros o I. symmetry. exact (repeat_spec _ _ _ I).
  - assert (NR : (Q2R ev < 0)%R) by (apply Qlt_Rlt in N; rewrite RMicromega.Q2R_0 in N; exact N).
    assert (K : forall m, (Q2R (occupancy (OEnd :: repeat (OBeam ev) m)) <= Rmax (-1) (1 + INR m * Q2R ev))%R).
    { induction m as [|m IH].
      - cbn [repeat]. replace (Q2R (occupancy [OEnd])) with 1%R by (rewrite <- Q2R_1; apply Qeq_eqR; vm_compute; reflexivity).
        cbn. unfold Rmax. destruct (Rle_dec _ _); Lra.lra.
      - replace (OEnd :: repeat (OBeam ev) (S m)) with ((OEnd :: repeat (OBeam ev) m) ++ [OBeam ev]) by (cbn; rewrite <- repeat_cons; reflexivity).
        rewrite snoc_o, S_INR. cbn [gain]. unfold clip, Rmax, Rmin in *. repeat destruct (Rle_dec _ _); Lra.lra. }
    exists (Z.to_nat (up (2 / - Q2R ev))). intros m L.
    apply Qle_antisym; apply Rle_Qle; rewrite Q2R_m1; [|apply range_o]. eapply Rle_trans; [apply K|].
    assert (2 / - Q2R ev <= INR m)%R.
    { apply Rle_trans with (IZR (up (2 / - Q2R ev))); [left; apply archimed|]. rewrite INR_IZR_INZ. apply IZR_le. lia. }
    assert (2 <= INR m * - Q2R ev)%R.
    { apply Rmult_le_reg_r with (/ - Q2R ev)%R; [apply Rinv_0_lt_compat; Lra.lra|]. rewrite Rmult_assoc, Rinv_r by Lra.lra. Lra.lra. }
    unfold Rmax. destruct (Rle_dec _ _); Lra.lra.
Qed.
Print Assumptions C144_lost_refuted.

(** Evidence of 2^-24 or more in each beam is enough: every beam takes at least half of it, and
    the cell is empty after 2^26 of them at the latest. *)
Theorem C144_enough (l t : list occ_op) : Forall (fun o => exists ev, o = OBeam ev /\ ev <= -(1#16777216)) t ->
  foccups (l ++ t) <= Qmax (-(1)) (foccups l - inject_Z (Z.of_nat (length t)) * (1#33554432)).
Proof.
  intro F. apply Rle_Qle. rewrite max_R, Q2R_m1, Q2R_minus, Q2R_mult.
  change (inject_Z (Z.of_nat (length t))) with (qn (length t)). rewrite qn_R.
  replace (Q2R (1#33554432)) with (2 * B (-25) - B (-25))%R by (rewrite <- B25; Lra.lra).
  apply downs; [pose proof (B_pos (-25)); Lra.lra|]. eapply Forall_impl; [|exact F]. intros o (ev & -> & H). cbn [added].
  apply Rle_trans with (Q2R (f32 (-(1#16777216)))).
  - rewrite !f32_ieee. apply r32_mono. apply Qle_Rle, H.
  - rewrite B25. replace (Q2R (f32 (-(1#16777216)))) with (Q2R (-(1#16777216))) by (apply Qeq_eqR; vm_compute; reflexivity).
    unfold Q2R. cbn. Lra.lra.
Qed.
Print Assumptions C144_enough.

(** Eleven readings through a cell without distribution empty it, whatever it was. *)
Theorem C144_eleven (l t : list occ_op) : (11 <= length t)%nat ->
  Forall (fun o => exists n, o = OPass n /\ (1 <= n)%nat) t -> foccups (l ++ t) == -(1).
Proof.
  intros L F. apply Qle_antisym; [|apply (proj1 (C144_range _))]. apply Rle_Qle. rewrite Q2R_m1.
  eapply Rle_trans; [apply (downs l t (19/100))|].
  - rewrite B25. unfold Q2R. cbn. Lra.lra.
  - eapply Forall_impl; [|exact F]. intros o (n & -> & H). cbn [added].
    pose proof (float_count 1 n H ltac:(cbn; lia)) as C. pose proof float_pass as P. cbn in C.
    assert (X : (Q2R (f32 (f32 (-(1#5)))) <= -(19/100))%R).
    { replace (Q2R (f32 (f32 (-(1#5))))) with (Q2R (f32 (-(1#5)))) by (apply Qeq_eqR; vm_compute; reflexivity). Lra.lra. }
    eapply Rle_trans; [|exact X]. rewrite (f32_ieee (_ * _)), (f32_ieee (f32 _)). apply r32_mono. rewrite Q2R_mult. nra.
  - apply le_INR in L. replace (INR 11) with 11%R in L by (cbn; Lra.lra). pose proof (range_f l) as R.
    assert (B (-25) <= 1/1000)%R by (rewrite B25; unfold Q2R; cbn; Lra.lra).
    unfold Rmax. destruct (Rle_dec _ _); nra.
Qed.
Print Assumptions C144_eleven.

(** Five points fill it. *)
Theorem C144_five (l t : list occ_op) : (5 <= length t)%nat ->
  Forall (fun o => exists n, o = OPoints n /\ (1 <= n)%nat) t -> foccups (l ++ t) == 1.
Proof.
  intros L F. apply Qle_antisym; [apply (proj1 (C144_range _))|]. apply Rle_Qle. rewrite Q2R_1.
  eapply Rle_trans; [|apply (ups l t (401/1000))].
  - apply le_INR in L. replace (INR 5) with 5%R in L by (cbn; Lra.lra). pose proof (range_f l) as R.
    assert (B (-25) <= 1/10000)%R by (rewrite B25; unfold Q2R; cbn; Lra.lra).
    unfold Rmin. destruct (Rle_dec _ _); nra.
  - rewrite B25. unfold Q2R. cbn. Lra.lra.
  - eapply Forall_impl; [|exact F]. intros o (n & -> & H). cbn [added].
    pose proof (float_count 1 n H ltac:(cbn; lia)) as C. cbn in C.
    assert (P : (401/1000 <= Q2R (f32 (405465108#1000000000)))%R).
    { assert (Q : (401#1000) <= f32 (405465108#1000000000)) by (apply Qle_bool_iff; vm_compute; reflexivity).
      apply Qle_Rle in Q. replace (Q2R (401#1000)) with (401/1000)%R in Q by (unfold Q2R; cbn; Lra.lra). exact Q. }
    apply Rle_trans with (Q2R (f32 (f32 (405465108#1000000000)))).
    { replace (Q2R (f32 (f32 (405465108#1000000000)))) with (Q2R (f32 (405465108#1000000000))) by (apply Qeq_eqR; vm_compute; reflexivity). exact P. }
    rewrite (f32_ieee (_ * _)), (f32_ieee (f32 _)). apply r32_mono. rewrite Q2R_mult. nra.
Qed.
Print Assumptions C144_five.

(** A point and a reading through the cell; six points and a beam; with the digits of floats. *)
Example C144_case :
  foccups [OPoints 1; OPass 1] == 13788529 # 67108864 /\ occupancy [OPoints 1; OPass 1] == 205465108 # 1000000000 /\
  foccups [OPoints 6; OBeam (-(7#10))] == 10066330 # 33554432.
Proof. vm_compute. repeat split; reflexivity. Qed.
