(** What the message of a cell tells. *)
From Coq Require Import Reals Lra List ZArith Lia Bool.
From Verif Require Import Base LinAlg3 CellModel CellSpec CellProofs CellCases.
Import ListNotations.
Open Scope R_scope.

Section E.
Variable eig : M3 -> M3 * V3.
Hypothesis EIG : eigen_solver eig.
Notation reach := (reach eig).
Set Default Proof Using "EIG".

Lemma clamp_pos x : 0 < x -> 0 < clampOcc x.
Proof. clear EIG. intro H. unfold clampOcc, MAX_OCC, MIN_OCC. destruct (Rlt_dec 1 x); destruct (Rlt_dec _ (-1)); lra. Qed.
Lemma clamp_neg x : x <= 0 -> clampOcc x <= 0.
Proof. clear EIG. intro H. unfold clampOcc, MAX_OCC, MIN_OCC. destruct (Rlt_dec 1 x); destruct (Rlt_dec _ (-1)); lra. Qed.

Lemma occ_le0_true x : occ_le0 (Some x) = true -> x <= 0.
Proof. clear EIG. unfold occ_le0. destruct (Rle_dec x 0); [auto|discriminate]. Qed.

Definition flag (c : cell) : Prop :=
  (c_gauss c = true -> (6 <= c_points c)%Z /\ exists x, c_occ c = Some x /\ 0 < x) /\
  (c_gauss c = false -> (6 <= c_points c)%Z -> exists x, c_occ c = Some x /\ x <= 0).

Lemma occ_some_proper o : occ_some properBeam o -> exists x, o = Some x.
Proof. clear EIG. intro H. destruct o as [x|]; [eauto|]. exfalso. apply H; [|reflexivity]. intros s e P. exact P. Qed.

Lemma few_flag c : flag c -> CI properBeam c -> flag (computeGaussian eig c) \/ (MAX_POINTS < Z.of_nat (length (c_pts c)))%Z.
Proof.
  intros [F1 F2] [CO CN CP CG]. destruct (Z_lt_le_dec MAX_POINTS (Z.of_nat (length (c_pts c)))) as [|LE]; [auto|]. left.
  destruct (occ_some_proper _ CN) as (x & OX).
  unfold computeGaussian. rewrite OX. cbn [set_occ c_occ addOcc option_map].
  destruct (occ_le0 (Some _)) eqn:O.
  - apply occ_le0_true in O. split; cbn [c_gauss c_points c_occ]; [discriminate|].
    intros _ _. eexists. split; [reflexivity|exact O].
  - apply occ_le0_false in O. unfold set_occ. cbn [c_gauss c_points c_pts c_mean c_cov c_icov c_cent].
    destruct (Nat.ltb_spec (length (c_pts c)) 6) as [LT|GE].
    + split; cbn [c_gauss c_points c_occ]; [discriminate|]. intros _ H. lia.
    + destruct (c_gauss c) eqn:G; unfold rescaleCovar; cbn [negb c_gauss c_points c_occ c_cov].
      * split; cbn [c_gauss c_points c_occ]; [|discriminate]. intros _. split; [|eauto].
        destruct (F1 eq_refl) as [P6 _]. unfold MAX_POINTS in *. rewrite (u64_id (c_points c + _)) by lia.
        destruct (Z.ltb_spec 1000000000 (c_points c + Z.of_nat (length (c_pts c)))); lia.
      * split; cbn [c_gauss c_points c_occ]; [|discriminate]. intros _. split; [lia|eauto].
Qed.

Lemma reach_flag c : reach properBeam c -> flag c.
Proof.
  induction 1 as [|c p R IH|c R IH LE|a b RA IA RB IB|c s e j n R IH N HB|c t R IH RT|c p R IH|c p R IH].
  - split; cbn; [discriminate|lia].
  - exact IH.
  - destruct (few_flag c IH (reach_CI eig EIG _ _ R)) as [F|F]; [exact F|lia].
  - pose proof (reach_CI eig EIG _ _ RA) as CA. pose proof (reach_CI eig EIG _ _ RB) as CB.
    destruct (c_gauss b) eqn:GB.
    + destruct (proj1 IB GB) as [B6 (xb & OB & PB)]. destruct (c_gauss a) eqn:GA.
      * rewrite (merge_gauss eig _ _ _ CA CB GA GB). destruct (proj1 IA GA) as [A6 (xa & OA & PA)].
        split; unfold rescaleCovar; cbn [c_gauss c_points c_occ]; [|discriminate]. intros _.
        destruct CA as [_ _ PPA _], CB as [_ _ PPB _]. unfold MAX_POINTS in *. split; [lia|].
        rewrite OA. cbn. eexists. split; [reflexivity|]. apply clamp_pos. unfold LOG_LIKE.
        assert (6 <= IZR (c_points b)) by (apply IZR_le in B6; exact B6). lra.
      * unfold merge. destruct (Z.leb_spec (c_points b) 2); [exact IA|]. rewrite GB, GA. cbn [negb].
        split; cbn [c_gauss c_points c_occ]; [|discriminate]. intros _. split; [exact B6|eauto].
    + unfold merge. destruct (c_points b <=? 2)%Z; [exact IA|]. rewrite GB. exact IA.
  - pose proof (reach_CI eig EIG _ _ R) as CI0. unfold updateOccupancy. destruct (c_gauss c) eqn:G; cbn [negb].
    + destruct (proj1 IH G) as [P6 (x & OX & PX)].
      destruct (at_end c e).
      * rewrite OX. split; cbn; [|rewrite G; discriminate]. intros _. split; [exact P6|].
        eexists. split; [reflexivity|]. apply clamp_pos. unfold MAX_OCC. lra.
      * destruct (beamLogOdd c s e j) as [v|] eqn:BL.
        -- rewrite OX. cbn [addOcc option_map]. destruct (occ_le0 (Some _)) eqn:O.
           ++ apply occ_le0_true in O. split; cbn; [discriminate|].
              intros _ _. eexists. split; [reflexivity|exact O].
           ++ apply occ_le0_false in O. split; cbn; [|rewrite G; discriminate]. intros _. split; [exact P6|eauto].
        -- exfalso. apply HB. exact (beam_none eig EIG c properBeam s e j CI0 G BL).
    + destruct (occ_some_proper _ (ci_nan _ _ CI0)) as (x & OX).
      assert (F : forall b, b = false -> flag (set_gauss (set_occ c (addOcc (c_occ c) (NO_GAUSS_OCC * IZR n))) b)).
      { intros b ->. split; cbn; [discriminate|]. intros _ H6. destruct (proj2 IH G H6) as (y & OY & LY). rewrite OY. cbn.
        eexists. split; [reflexivity|]. apply clamp_neg. unfold NO_GAUSS_OCC.
        assert (0 <= IZR n) by (apply IZR_le; exact N). lra. }
      destruct (occ_le0 _); [apply F; reflexivity|]. specialize (F (c_gauss c) G). 
      destruct c. exact F.
  - unfold ctransform. destruct (c_gauss c) eqn:G; [|exact IH]. destruct (proj1 IH G) as [P6 E].
    split; unfold rescaleCovar; cbn [c_gauss c_points c_occ]; [|discriminate]. intros _. auto.
  - exact IH.
  - exact IH.
Qed.

(** A receiver gets exactly the distribution, and knows whether there is one. *)
Lemma message_faithful c : reach properBeam c ->
  read_mean (cellMsg c) = c_mean c /\ read_cov (cellMsg c) = Some (c_cov c) /\ read_gauss (cellMsg c) = c_gauss c.
Proof.
  intro R. split; [destruct c as [[] ? ? ? ? ? ? ?]; reflexivity|]. split; [destruct c as [? [] ? ? ? ? ? ?]; reflexivity|].
  destruct (reach_flag c R) as [F1 F2]. unfold read_gauss. cbn [cellMsg cm_n cm_occ].
  destruct (c_gauss c).
  - destruct (F1 eq_refl) as [P (x & -> & X)]. destruct (Z.leb_spec 6 (c_points c)); [|lia].
    destruct (Rlt_dec 0 x); [reflexivity|contradiction].
  - destruct (Z.leb_spec 6 (c_points c)) as [P|]; [|reflexivity]. destruct (F2 eq_refl P) as (x & -> & X).
    destruct (Rlt_dec 0 x); [lra|reflexivity].
Qed.

Lemma message_nan : exists c, reach (fun _ _ => True) c /\ c_gauss c = true /\ read_gauss (cellMsg c) = false.
Proof.
  exists (updateOccupancy (many eig vzero 6) (mkV 5 5 0) (mkV 5 5 0) vzero 1). split.
  { apply reach_beam; [apply reach_six; exact EIG|lia|exact I]. }
  pose proof (nan_occupancy eig EIG vzero) as N. split.
  - revert N. unfold updateOccupancy. rewrite (many_six eig EIG). cbn [c_gauss negb].
    destruct (at_end _ _); [discriminate|]. destruct (beamLogOdd _ _ _ _); [|intros _; reflexivity].
    destruct (occ_le0 _); discriminate.
  - unfold read_gauss. cbn [cellMsg cm_occ]. rewrite N. apply andb_false_r.
Qed.
Lemma message_case p : reach properBeam (many eig p 6) /\
  read_mean (cellMsg (many eig p 6)) = p /\ read_gauss (cellMsg (many eig p 6)) = true /\ read_gauss (cellMsg cell_new) = false.
Proof.
  assert (R : reach properBeam (many eig p 6)) by (apply reach_six; exact EIG).
  destruct (message_faithful _ R) as (A & _ & B). split; [exact R|].
  rewrite A, B, (many_six eig EIG). cbn [c_mean c_gauss]. split; [reflexivity|]. split; [reflexivity|]. reflexivity.
Qed.
End E.
