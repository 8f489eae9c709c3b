(** Proofs for C141. *)
From Coq Require Import Reals List ZArith QArith Bool Lia Arith.
From Verif Require Import Base LinAlg3 GeoModel GeoSpec VoxelModel VoxelSpec VoxelProofs GridModel GridSpec GridProofs GridOps ScanSpec ScanProofs
  BeamSpec BeamProofs BeamScan EvalModel EvalSpec EvalProofs TextModel PrintModel PrintSpec KnownModel KnownSpec.
Import ListNotations.
Open Scope nat_scope.

Section Known.
Context {X L : Type}.
Variable merge : ncell X -> ncell X -> ncell X.
Variable dflt : ncell X.
Variable addPt : ncell X -> point -> ncell X.
Variable compute : ncell X -> ncell X.
Variable tcell : qtrans L -> ncell X -> ncell X.
Variable occRay : ncell X -> point -> ncell X -> ncell X.
Variable btw : qpose -> qpose -> qtrans L.
Variable tp : qtrans L -> point -> point.
Variable toQ : pose -> qpose.
Hypothesis MA : means_average dflt addPt compute.
Notation mergeAt := (mergeAt merge dflt addPt compute tcell occRay btw tp toQ).
Notation scan_cell := (scan_cell dflt addPt compute (1#4)).
Notation eye := (eye btw tp toQ).
Notation ahead := (ahead btw tp toQ).
Notation grid := (ngrid X).

Definition step_ok (g g' : grid) (r : pose) (s : list (option point)) : Prop :=
  grows (n_vox g) (n_vox g') /\ exists bs, scan_beams dflt addPt compute (1#4) (ahead r s) bs /\
  forall c c0 hit, in_cell (1#4) c0 (eye r) -> seen_through (n_vox g) (eye r) bs c hit ->
    content (n_vox g') c =
    match scan_cell (ahead r s) c with
    | Some x => Some x
    | None => if in_box (n_vox g) c0 then evidence dflt occRay (eye r) (filter hit bs) (content (n_vox g) c)
              else content (n_vox g) c
    end.

Lemma merge_step (g : grid) r s : nwf g -> n_pose g = home -> n_cs g = (1#4)%Q ->
  recording_ok dflt addPt compute btw tp toQ r s ->
  exists g', mergeAt g s r = Ok g' /\ nwf g' /\ n_pose g' = home /\ n_cs g' = (1#4)%Q /\ cloud_current g' /\ step_ok g g' r s.
Proof using MA.
  intros W P S (O1 & O2 & R).
  assert (CS : cell_size (n_vox g) = (1#4)%Q) by (destruct W; congruence).
  assert (IB : isInside (n_vox g) (eye r) = in_box (n_vox g) (cell_of (1#4) (eye r))).
  { rewrite <- CS. apply off_box; [apply W|]. rewrite CS. exact O1. }
  assert (IC : in_cell (1#4) (cell_of (1#4) (eye r)) (eye r)) by (apply cell_of_in; reflexivity).
  assert (UN : forall c0, in_cell (1#4) c0 (eye r) -> cell_of (1#4) (eye r) = c0)
    by (intros c0 H; apply in_cell_unique; [reflexivity|exact H]).
  assert (SF : seen_from btw tp g (toQ r) s = ahead r s) by (unfold seen_from, KnownSpec.ahead; rewrite P; reflexivity).
  assert (ST : tp (btw (toQ r) (n_pose g)) (0, 0)%Q = eye r) by (unfold KnownSpec.eye; rewrite P; reflexivity).
  assert (O : forall p, In (Some p) (seen_from btw tp g (toQ r) s) -> off_border (n_cs g) p) by (rewrite SF, S; exact O2).
  destruct (in_box (n_vox g) (cell_of (1#4) (eye r))) eqn:B.
  - destruct (scan_exact_replace merge dflt occRay tcell btw tp addPt compute MA g s (toQ r) W O true (cell_of (1#4) (eye r)) (or_introl eq_refl))
      as (g' & bs & E & W' & (H1 & H2 & _) & GR & CC & SB & CT); rewrite ?ST, ?SF, ?S in *; try assumption.
    exists g'. split; [exact E|]. split; [exact W'|]. split; [congruence|]. split; [congruence|]. split; [exact CC|].
    split; [exact GR|]. exists bs. split; [exact SB|]. intros c c0 hit I H. rewrite <- (UN c0 I), B. apply CT. exact H.
  - destruct (scan_plain merge dflt tcell addPt compute btw tp MA g s (toQ r) W O true)
      as (g' & E & W' & (H1 & H2 & _) & GR & CC & CT).
    assert (HC : (0 < n_cs g)%Q) by (rewrite S; reflexivity).
    destruct (scan_list merge dflt addPt compute MA g (seen_from btw tp g (toQ r) s) HC O) as (l & EL & SB & _).
    exists g'. split.
    { unfold KnownModel.mergeAt, mergeInTracedPcl. unfold mergeInPcl in E.
      change (transPcl tp (btw (toQ r) (n_pose g)) s) with (seen_from btw tp g (toQ r) s) in *. rewrite EL in *. cbn [bind] in *.
      rewrite outside_plain; [exact E|]. cbn [n_pose n_setOrigin]. rewrite ST. exact IB. }
    split; [exact W'|]. split; [congruence|]. split; [congruence|]. split; [exact CC|].
    split; [exact GR|]. rewrite SF, S in SB. eexists. split; [exact SB|].
    intros c c0 hit I H. rewrite <- (UN c0 I), B, CT. cbn [orb]. rewrite SF, S. reflexivity.
Qed.

Lemma recorded_unique poses scans i r s r' s' : recorded poses scans i r s -> recorded poses scans i r' s' -> r = r' /\ s = s'.
Proof.
  clear. intros (p & q & A & B & C & D) (p' & q' & A' & B' & C' & D').
  rewrite A in A'. rewrite B in B'. rewrite C in C'. injection A' as <-. injection B' as <-. injection C' as <-.
  split; [|reflexivity]. apply (sees_unique _ _ _ _ D D').
Qed.

Lemma merge_steps poses scans : forall k i (g : grid), nwf g -> n_pose g = home -> n_cs g = (1#4)%Q ->
  (forall j, j < k -> exists r s, recorded poses scans (i + j) r s /\ recording_ok dflt addPt compute btw tp toQ r s) ->
  exists gs : nat -> grid, gs 0 = g /\ merged mergeAt poses scans k i g (gs k) /\ nwf (gs k) /\
    (0 < k -> cloud_current (gs k)) /\ n_pose (gs k) = home /\
    forall j r s, j < k -> recorded poses scans (i + j) r s -> step_ok (gs j) (gs (S j)) r s.
Proof using MA.
  induction k as [|k IH]; intros i g W P S H.
  - exists (fun _ => g). split; [reflexivity|]. split; [constructor|]. split; [exact W|]. split; [lia|]. split; [exact P|]. lia.
  - destruct (H 0 ltac:(lia)) as (r & s & RC & RO). rewrite Nat.add_0_r in RC.
    destruct (merge_step g r s W P S RO) as (g1 & E1 & W1 & P1 & S1 & C1 & ST1).
    destruct (IH (Datatypes.S i) g1 W1 P1 S1) as (gs & G0 & M & WK & CK & PK & ST).
    { intros j J. destruct (H (Datatypes.S j) ltac:(lia)) as (r' & s' & RC' & RO'). exists r', s'. split; [|exact RO'].
      replace (Datatypes.S i + j) with (i + Datatypes.S j) by lia. exact RC'. }
    exists (fun j => match j with 0 => g | Datatypes.S j => gs j end). split; [reflexivity|]. split.
    { destruct RC as (p & q & A & B & C & D). eapply merged_cons; eassumption. }
    split; [exact WK|]. split; [|split; [exact PK|]].
    { intros _. destruct k; [rewrite G0; exact C1|apply CK; lia]. }
    intros [|j] r' s' J RC'.
    + rewrite Nat.add_0_r in RC'. destruct (recorded_unique _ _ _ _ _ _ _ RC RC') as [<- <-]. rewrite G0. exact ST1.
    + apply ST; [lia|]. replace (Datatypes.S i + j) with (i + Datatypes.S j) by lia. exact RC'.
Qed.
End Known.

Lemma lines_some t : exists l r, lines_of t = l :: r.
Proof.
  induction t as [|a t (l & r & E)]; [exists [], []; reflexivity|]. cbn [lines_of].
  destruct (Ascii.eqb a (Ascii.ascii_of_nat 10)); [eauto|]. rewrite E. eauto.
Qed.
Lemma lines_snoc t : lines_of (t ++ [newline]) = lines_of t ++ [[]].
Proof.
  induction t as [|a t IH]; [reflexivity|]. cbn [lines_of app].
  destruct (Ascii.eqb a (Ascii.ascii_of_nat 10)); [rewrite IH; reflexivity|].
  rewrite IH. destruct (lines_some t) as (l & r & ->). reflexivity.
Qed.
