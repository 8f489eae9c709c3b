(** C141: the map of known poses and its picture (property statements; model in
    KnownModel.v, vocabulary in KnownSpec.v, proofs in KnownProofs.v). *)
From Coq Require Import Reals Ascii List ZArith QArith Bool Lia Lra Lqa Arith.
From Verif Require Import Base LinAlg3 GeoModel GeoSpec VoxelModel VoxelSpec VoxelProofs GridModel GridSpec GridCases ScanSpec ScanProofs ScanInit
  BeamSpec BeamProofs BeamScan EvalModel EvalSpec EvalProofs PropsEval TextModel PrintModel PrintSpec PrintProofs PropsPrint
  KnownModel KnownSpec KnownProofs.
Import ListNotations.
Open Scope nat_scope.

(** With 17000 + k scans, a pose for each that is used, and no used recording with something
    on a border between squares, the map comes about in k steps from an empty one, one for
    each scan from number 7000 on.  In a step the distributions of the scan, seen from where
    the first pose sees the one of the scan, replace what is in their squares; every other
    square gets one free-space update for each beam of the scan through it, provided that the
    sensor is in the window so far.  What is printed shows for each square of the window of
    the last map whether it has a distribution (W), a cell (.) or none. *)
Theorem C141_map {X L} (merge : ncell X -> ncell X -> ncell X) dflt addPt compute tcell occRay
  (btw : qpose -> qpose -> qtrans L) tp toQ poses scans k :
  means_average dflt addPt compute ->
  (Z.of_nat (length scans) < 2 ^ 64)%Z -> Z.of_nat (length scans) = (17000 + Z.of_nat k)%Z ->
  (forall j, j < k -> exists r s, recorded poses scans (Z.to_nat 7000 + j) r s /\
     recording_ok dflt addPt compute btw tp toQ r s) ->
  let eye := eye btw tp toQ in let ahead := ahead btw tp toQ in
  exists gs : nat -> ngrid X,
    gs 0 = emptyMap dflt /\
    mappingKnownPoses (emptyMap dflt) (mergeAt merge dflt addPt compute tcell occRay btw tp toQ) poses scans = Ok (gs k) /\
    (forall j r s, j < k -> recorded poses scans (Z.to_nat 7000 + j) r s ->
       grows (n_vox (gs j)) (n_vox (gs (S j))) /\
       exists bs, scan_beams dflt addPt compute (1#4) (ahead r s) bs /\
       forall c c0 hit, in_cell (1#4) c0 (eye r) -> seen_through (n_vox (gs j)) (eye r) bs c hit ->
         content (n_vox (gs (S j))) c =
         match scan_cell dflt addPt compute (1#4) (ahead r s) c with
         | Some x => Some x
         | None => if in_box (n_vox (gs j)) c0
                   then evidence dflt occRay (eye r) (filter hit bs) (content (n_vox (gs j)) c)
                   else content (n_vox (gs j)) c
         end) /\
    exists t, knownText merge dflt addPt compute tcell occRay btw tp toQ poses scans = Ok t /\
      lines_of t =
        map (fun r => map (fun c => match shown (n_vox (gs k)) r c with
                                    | None => " " | Some v => if nc_gauss v then "W" else "." end%char)
                          (seq 0 (width (n_vox (gs k))))) (seq 0 (height (n_vox (gs k)))) ++ [[]; []].
Proof.
  intros MA LT LEN H eye ahead.
  destruct (merge_steps merge dflt addPt compute tcell occRay btw tp toQ MA poses scans k (Z.to_nat 7000) (emptyMap dflt))
    as (gs & G0 & M & W & _ & _ & ST); try reflexivity; try exact H.
  { split; [split; reflexivity|reflexivity]. }
  assert (E : mappingKnownPoses (emptyMap dflt) (mergeAt merge dflt addPt compute tcell occRay btw tp toQ) poses scans = Ok (gs k))
    by (apply (C132_map_partial _ _ _ _ poses scans k); assumption).
  exists gs. split; [exact G0|]. split; [exact E|]. split; [exact ST|].
  eexists. unfold knownText. rewrite E. cbn [bind]. split; [reflexivity|].
  pose proof (C137_picture _ (@nc_gauss X) (n_vox (gs k)) (proj1 W)) as P.
  rewrite lines_snoc, P. rewrite <- app_assoc. reflexivity.
Qed.
Print Assumptions C141_map.

(** Two recordings two metres apart of the scan of C88's example, a quarter of its size. *)
Definition kscan : list (option point) := map (option_map (fun p => (fst p / 4, snd p / 4)%Q)) pscan.
Definition kposes : list pose := repeat (mkP 0 0 0) (Z.to_nat 7001) ++ [mkP 2 0 0].
Definition kscans : list (list (option point)) := repeat kscan (Z.to_nat 17002).
Definition kq (p : pose) : qpose := if Req_EM_T (px p) 0 then mkPose 0 0 0 else mkPose 2 0 0.
Example C141_case :
  means_average pdflt ScanInit.padd pcompute /\ (Z.of_nat (length kscans) < 2 ^ 64)%Z /\
  Z.of_nat (length kscans) = (17000 + Z.of_nat 2)%Z /\
  (forall j, j < 2 -> exists r s, recorded kposes kscans (Z.to_nat 7000 + j) r s /\
     recording_ok pdflt ScanInit.padd pcompute xbtw xtp kq r s) /\
  recorded kposes kscans (Z.to_nat 7000 + 1) (mkP 2 0 0) kscan /\
  (exists x, scan_cell pdflt ScanInit.padd pcompute (1#4) (ahead xbtw xtp kq (mkP 0 0 0) kscan) (3, 1)%Z = Some x) /\
  exists x, scan_cell pdflt ScanInit.padd pcompute (1#4) (ahead xbtw xtp kq (mkP 2 0 0) kscan) (11, 1)%Z = Some x.
Proof.
  assert (LEN : Z.of_nat (length kscans) = 17002%Z) by (unfold kscans; rewrite repeat_length; lia).
  assert (K0 : kq (mkP 0 0 0) = mkPose 0 0 0) by (unfold kq; cbn [px]; destruct (Req_EM_T 0 0); [reflexivity|Lra.lra]).
  assert (K2 : kq (mkP 2 0 0) = mkPose 2 0 0) by (unfold kq; cbn [px]; destruct (Req_EM_T 2 0); [Lra.lra|reflexivity]).
  assert (SC : forall i, i < Z.to_nat 17002 -> nth_error kscans i = Some kscan).
  { intros i I. unfold kscans. apply nth_error_repeat. exact I. }
  assert (P0 : forall i, i < Z.to_nat 7001 -> nth_error kposes i = Some (mkP 0 0 0)).
  { intros i I. unfold kposes. rewrite nth_error_app1 by (rewrite repeat_length; exact I). apply nth_error_repeat. exact I. }
  assert (P1 : nth_error kposes (Z.to_nat 7000 + 1) = Some (mkP 2 0 0)).
  { unfold kposes. rewrite nth_error_app2 by (rewrite repeat_length; lia). rewrite repeat_length.
    replace (Z.to_nat 7000 + 1 - Z.to_nat 7001) with 0 by lia. reflexivity. }
  assert (SEE : forall x, sees (mkP 0 0 0) (mkP x 0 0) (mkP x 0 0)).
  { intro x. split; [unfold GeoSpec.seen_from; cbn; rewrite cos_0, sin_0; f_equal; ring|].
    pose proof PI_RGT_0. split; [cbn; Lra.lra|]. exists 0%Z. cbn. ring. }
  assert (R0 : recorded kposes kscans (Z.to_nat 7000 + 0) (mkP 0 0 0) kscan).
  { exists (mkP 0 0 0), (mkP 0 0 0). split; [apply SC; lia|]. split; [apply P0; lia|]. split; [apply P0; lia|apply SEE]. }
  assert (R1 : recorded kposes kscans (Z.to_nat 7000 + 1) (mkP 2 0 0) kscan).
  { exists (mkP 0 0 0), (mkP 2 0 0). split; [apply SC; lia|]. split; [apply P0; lia|]. split; [exact P1|apply SEE]. }
  assert (OK : forall p, p = mkP 0 0 0 \/ p = mkP 2 0 0 -> recording_ok pdflt ScanInit.padd pcompute xbtw xtp kq p kscan).
  { intros p Hp. unfold recording_ok, eye, ahead.
    assert (RAYS : scan_rays pdflt ScanInit.padd pcompute (1#4) (xtp (xbtw (kq p) home) (0, 0)%Q) (map (option_map (xtp (xbtw (kq p) home))) kscan)).
    { destruct Hp as [->| ->]; rewrite ?K0, ?K2; (apply scan_rays_ok; [reflexivity|vm_compute; reflexivity]). }
    split; [|split].
    - destruct Hp as [->| ->]; rewrite ?K0, ?K2; (apply off_b_ok; [reflexivity|vm_compute; reflexivity]).
    - destruct Hp as [->| ->]; rewrite ?K0, ?K2; (apply scan_off_ok; [reflexivity|vm_compute; reflexivity]).
    - intros c x E. destruct (RAYS c x E). lra. }
  split; [exact pmeans|]. split; [rewrite LEN; reflexivity|]. split; [exact LEN|]. split.
  { intros j J. assert (j = 0 \/ j = 1) as [-> | ->] by lia; eexists; eexists; (split; [eassumption|apply OK; auto]). }
  split; [exact R1|]. split; unfold ahead; rewrite ?K0, ?K2; eexists; vm_compute; reflexivity.
Qed.
