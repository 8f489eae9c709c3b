(** The robot of SysCases.v meets the hypotheses about the size of the window. *)
From Coq Require Import Reals Qreals List ZArith QArith Bool Lia Arith Lqa.
From Verif Require Import Base LinAlg3 GeoModel GeoSpec.
From Verif Require Import GraphModel LoopModel SlamModel AlgModel AlgSpec AlgCases.
From Verif Require Import VoxelModel VoxelSpec GridModel GridSpec ScanSpec ScanInit MapModel MapSpec.
From Verif Require Import SysModel SysSpec SysCases WinSpec WinSize.
Import ListNotations.
Open Scope nat_scope.

Definition inbox_b (r : Q) (p : point) : bool :=
  Qle_bool (- r) (fst p) && Qle_bool (fst p) r && Qle_bool (- r) (snd p) && Qle_bool (snd p) r.
Lemma inbox_b_ok r p : inbox_b r p = true -> inbox r p.
Proof.
  unfold inbox_b. rewrite !andb_true_iff, !Qle_bool_iff. unfold inbox. tauto.
Qed.
Lemma zscan_box f : (forall p, peq (f p) p) -> forall p, In (Some p) zscan -> inbox 4 (f p).
Proof.
  intros F p I.
  assert (B : forallb (fun o => match o with Some p => inbox_b 4 p | None => true end) zscan = true) by (vm_compute; reflexivity).
  rewrite forallb_forall in B. specialize (B _ I). cbn beta iota in B. apply inbox_b_ok in B.
  eapply inbox_peq; [|exact B]. destruct (F p) as [F1 F2]. split; symmetry; assumption.
Qed.
Lemma ztp_zero t p : peq (ztp (mkTr t 0 0) p) p.
Proof. unfold ztp, peq. cbn [fst snd tr_x tr_y]. split; ring. Qed.
Lemma zmodest d m addr ts evs : (m = None \/ m = Some 1%R \/ m = Some 2%R) -> modest ztp zdbl 4 2 (mkYE (zin d m addr) ts evs).
Proof.
  intro H. unfold modest. cbn [v_in zin i_scan i_match].
  split; [apply (zscan_box (fun p => p)); intro p; split; reflexivity|]. intros reg E. split.
  - destruct H as [->|[->| ->]]; [discriminate|injection E as <-|injection E as <-]; cbn [along tx ty];
      rewrite ?(zdbl_int 1), ?(zdbl_int 2), (zdbl_int 0); apply inbox_b_ok; reflexivity.
  - apply (zscan_box (ztp (mkTr reg 0 0))). apply ztp_zero.
Qed.
Lemma zcase116 : exists y g, zreach zh y /\ a_win (y_alg y) = Some (Ok g) /\
  (forall e, In e zh -> modest ztp zdbl 4 2 e) /\
  isInside (n_vox g) (3, 1)%Q = true /\ isInside (n_vox g) (7, 0)%Q = false.
Proof.
  destruct zreach_h as (y & R & _ & _ & _ & _ & _ & W & _). exists y, zw2. split; [exact R|]. split; [exact W|].
  split; [|split; vm_compute; reflexivity].
  intros e I. unfold zh in I. destruct I as [<-|[<-|[<-|[<-|[]]]]]; apply zmodest; auto.
Qed.
Lemma zmixes : mixes pmerge.
Proof.
  intros a b. unfold pmerge. destruct (nc_gauss b) eqn:GB.
  2:{ exists 1%Q. split; [lra|]. split; cbn [fst snd]; ring. }
  destruct (nc_gauss a) eqn:GA.
  2:{ exists 0%Q. split; [lra|]. split; cbn [fst snd nc_mean]; ring. }
  set (m := inject_Z (Z.of_nat (length (nc_rest a)))). set (n := inject_Z (Z.of_nat (length (nc_rest b)))).
  exists (m / (m + n))%Q. split; [|split; reflexivity].
  assert (M : (0 <= m)%Q) by (unfold m; change 0%Q with (inject_Z 0); rewrite <- Zle_Qle; lia).
  assert (N : (0 <= n)%Q) by (unfold n; change 0%Q with (inject_Z 0); rewrite <- Zle_Qle; lia).
  destruct (Qlt_le_dec 0 (m + n)) as [P|P].
  - split; [apply Qle_shift_div_l; [exact P|lra]|apply Qle_shift_div_r; [exact P|lra]].
  - assert (Z : (m == 0)%Q) by lra. rewrite Z. split; unfold Qdiv; rewrite Qmult_0_l; lra.
Qed.
Lemma zbare : bare pdflt padd pcompute.
Proof.
  intro ps. cbv zeta. destruct (nc_gauss (pcompute (fold_left padd ps pdflt))) eqn:G; [left; apply pmeans; exact G|right].
  split; [exact G|]. rewrite padd_all in *. unfold pcompute in *. cbn [nc_rest nc_gauss nc_mean pdflt app] in *.
  destruct (Nat.leb 6 (length ps)); [discriminate|]. split; reflexivity.
Qed.
Lemma zhyps116 : occ_only pray /\ nc_gauss pdflt = false /\ bare pdflt padd pcompute /\
  (forall t c, nc_gauss (ztrans t c) = nc_gauss c) /\
  (forall t c, nc_mean (ztrans t c) = if nc_gauss c then ztp t (nc_mean c) else nc_mean c) /\
  mixes pmerge /\ (forall t, affine (ztp t)) /\ shifts zbtw ztp /\ slides t2id zorigin.
Proof.
  split; [exact pray_occ_only|]. split; [reflexivity|]. split; [exact zbare|]. split; [exact zgauss|].
  split; [|split; [exact zmixes|]; split; [exact zaffine|]; split; [exact zshifts|exact zslides]].
  intros t c. unfold ztrans. destruct (nc_gauss c); reflexivity.
Qed.
