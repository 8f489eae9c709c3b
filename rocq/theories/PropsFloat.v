(** C123-C125: rounding in the voxel grid (property statements; model in FloatModel.v,
    vocabulary in FloatSpec.v, proofs in FloatIEEE.v, FloatErr.v, FloatProofs.v,
    FloatMove.v).

    The other theorems about the grid compute with exact numbers.  Here points are double
    and the sizes are float, and every operation is rounded.  The squares have a size that
    is a power of two, such as the 0.25 m of the program.  [reaches n g p]: window and
    point are at most 2^n cells away from the origin; [off_lines d g p]: the point is
    farther than d cells from every line between cells. *)
From Coq Require Import Reals Qreals List ZArith QArith Qabs Bool Arith Lia Lqa.
From Flocq Require Import Core.
From Verif Require Import Base VoxelModel VoxelSpec GridModel FloatModel FloatSpec FloatIEEE FloatProofs FloatMove.
Import ListNotations.
Open Scope nat_scope.

(** The rounding of the model is that of IEEE 754 (as in Flocq). *)
Theorem C123_ieee : forall q,
  Q2R (f64 q) = round radix2 (FLT_exp (-1074) 53) ZnearestE (Q2R q) /\
  Q2R (f32 q) = round radix2 (FLT_exp (-149) 24) ZnearestE (Q2R q).
Proof. intro q. split; [exact (f64_ieee q)|exact (f32_ieee q)]. Qed.
Print Assumptions C123_ieee.

(** The test whether a point is in the window is exact. *)
Theorem C123_inside : forall C n (g : vgrid C) p, (0 <= n <= 18)%Z -> binary_cells g -> reaches n g p ->
  fisInside g p = isInside g p.
Proof. intros C n g p NN (e & EE & CS) R. exact (inside_exact e n EE NN g p CS R). Qed.
Print Assumptions C123_inside.

(** A point is looked up in its own square, or in the next one (never in a lower one);
    in its own one if it is farther than 2^(n-48) cells from the borders of the squares. *)
Theorem C123_square_partial : forall C n (g : vgrid C) p, (0 <= n <= 18)%Z -> binary_cells g -> reaches n g p ->
  (forall c r, calcCoordinates g p = Ok (c, r) ->
     exists c' r', fcalcCoordinates g p = Ok (c', r') /\ c <= c' <= c + 1 /\ r <= r' <= r + 1) /\
  (off_lines (two (n - 48)) g p -> fcalcCoordinates g p = calcCoordinates g p).
Proof.
  intros C n g p NN (e & EE & CS) R. split.
  - intros c r. exact (square_near e n EE NN g p c r CS R).
  - exact (square_exact e n EE NN g p CS R).
Qed.
Print Assumptions C123_square_partial.

(** Not always in its own: a point just inside the right border of a fresh grid is looked
    up beyond the end of the storage, although it is strictly inside. *)
Theorem C123_square_refuted : exists p : point, strictly_inside (vempty 0%nat) p /\
  (f64 (fst p) == fst p)%Q /\ (f64 (snd p) == snd p)%Q /\ fisInside (vempty 0%nat) p = true /\
  cellExists (vempty 0%nat) p = Ok true /\ fcellExists (vempty 0%nat) p = UB.
Proof.
  exists (((1#8) - two (-56))%Q, 0%Q). split; [unfold strictly_inside; repeat split; vm_compute; reflexivity|].
  repeat split; vm_compute; reflexivity.
Qed.
Print Assumptions C123_square_refuted.

(** Farther than 2^(n-20) cells from the lines adding, finding, reading and removing cells
    do what they do with exact numbers. *)
Theorem C124_operations_partial : forall C (merge : C -> C -> C) n (g : vgrid C) p, (0 <= n <= 17)%Z ->
  binary_cells g -> reaches n g p -> off_lines (two (n - 20)) g p ->
  (forall c merging, faddCell merge g p c merging = addCell merge g p c merging) /\
  fremoveCell g p = removeCell g p /\ fcellExists g p = cellExists g p /\ fgetCellPtr g p = getCellPtr g p.
Proof. intros C merge n g p NN (e & EE & CS) R O. exact (operations_exact merge e n EE NN g p CS R O). Qed.
Print Assumptions C124_operations_partial.

(** So what is added there is found again, in a window grown to hold it. *)
Theorem C124_added_is_found_partial : forall C (merge : C -> C -> C) n (g : vgrid C) p c v merging, (0 <= n <= 17)%Z ->
  wf g -> binary_cells g -> reaches n g p -> off_lines (two (n - 20)) g p -> in_cell (cell_size g) c p ->
  exists g', faddCell merge g p v merging = Ok g' /\ fcellExists g' p = Ok true /\
    fgetCellPtr g' p = Ok (Some (match content g c with
                                 | Some old => if merging then merge old v else v
                                 | None => v end)).
Proof. exact @added_found. Qed.
Print Assumptions C124_added_is_found_partial.

(** Closer to the lines not: positions are made float before the window is grown, so that
    a point less than a nanometre outside of it is not seen to be outside.  The window is
    not grown and the cell written beyond the end of the storage. *)
Theorem C124_added_refuted : exists p : point, (f64 (fst p) == fst p)%Q /\ (f64 (snd p) == snd p)%Q /\
  fisInside (vempty 0%nat) p = false /\ fenlargeToFit (vempty 0%nat) p = Ok (vempty 0%nat) /\
  (forall v merging, exists g', addCell Nat.add (vempty 0%nat) p v merging = Ok g' /\ getCellPtr g' p = Ok (Some v)) /\
  (forall v merging, faddCell Nat.add (vempty 0%nat) p v merging = UB).
Proof.
  exists (((1#8) + two (-31))%Q, 0%Q). split; [vm_compute; reflexivity|]. split; [vm_compute; reflexivity|].
  split; [vm_compute; reflexivity|]. split; [vm_compute; reflexivity|]. split; intros v [|].
  1-2: eexists; split; [vm_compute; reflexivity|]; vm_compute; reflexivity.
  all: vm_compute; reflexivity.
Qed.
Print Assumptions C124_added_refuted.

(** A point of the program's resolution, less than 16 cells away from the origin: the
    double nearest to (3.3, -1.2). *)
Definition fp : point := (Qred (f64 (33#10)), Qred (f64 (-12#10))).
Lemma fp_off : off_lines (two (-16)) (vempty 0%nat) fp.
Proof.
  intro k. cbn [cell_size vempty fst snd fp].
  set (x := Qred (f64 (33#10))). set (y := Qred (f64 (-12#10))). set (d := (two (-16) * (1#4))%Q).
  assert (XL : (d + (13 - (1#2)) * (1#4) < x)%Q) by (vm_compute; reflexivity).
  assert (XU : (x + d < (13 + (1#2)) * (1#4))%Q) by (vm_compute; reflexivity).
  assert (YL : (d + (- (5) - (1#2)) * (1#4) < y)%Q) by (vm_compute; reflexivity).
  assert (YU : (y + d < (- (5) + (1#2)) * (1#4))%Q) by (vm_compute; reflexivity).
  clearbody x y d. split.
  - destruct (Z_le_gt_dec k 12) as [L|L].
    + assert (K : (inject_Z k <= 12)%Q) by (rewrite Zle_Qle in L; exact L). eapply Qlt_le_trans; [|apply Qle_Qabs]. lra.
    + assert (K : (13 <= inject_Z k)%Q) by (change 13%Q with (inject_Z 13); rewrite <- Zle_Qle; lia). rewrite <- Qabs_opp. eapply Qlt_le_trans; [|apply Qle_Qabs]. lra.
  - destruct (Z_le_gt_dec k (-6)) as [L|L].
    + assert (K : (inject_Z k <= - (6))%Q) by (rewrite Zle_Qle in L; exact L). eapply Qlt_le_trans; [|apply Qle_Qabs]. lra.
    + assert (K : (- (5) <= inject_Z k)%Q) by (change (- (5))%Q with (inject_Z (-5)); rewrite <- Zle_Qle; lia). rewrite <- Qabs_opp. eapply Qlt_le_trans; [|apply Qle_Qabs]. lra.
Qed.
Example C124_case : wf (vempty 0%nat) /\ binary_cells (vempty 0%nat) /\ reaches 4 (vempty 0%nat) fp /\
  off_lines (two (4 - 20)) (vempty 0%nat) fp /\ in_cell (cell_size (vempty 0%nat)) (13, -5)%Z fp /\
  ~ (fst fp == 33#10)%Q /\ exists g', faddCell Nat.add (vempty 0%nat) fp 7 true = Ok g' /\ width g' = 14.
Proof.
  split; [split; [vm_compute; reflexivity|reflexivity]|]. split; [exists (-2)%Z; split; [lia|vm_compute; reflexivity]|].
  split; [unfold reaches; repeat split; vm_compute; discriminate|]. split; [exact fp_off|].
  split; [unfold in_cell; repeat split; vm_compute; first [reflexivity|discriminate]|].
  split; [vm_compute; discriminate|]. eexists. split; [vm_compute; reflexivity|]. reflexivity.
Qed.

(** When the window follows the robot, whole cells and remainder are exactly what they are
    without rounding, so that no motion is lost or made up, and a window whose origin is a
    whole number of cells away from where it started stays at such a place.  (Cells of at
    most a metre; moves of at most 2^23 cells.) *)
Theorem C125_split_exact : forall cs e t, (-90 <= e <= 0)%Z -> (cs == two e)%Q -> is_double t -> (Qabs t <= two 23 * cs)%Q ->
  faxisMove cs t = axisMove cs t /\
  forall o, faxisMove cs t = Ok o -> (faxisRest cs t o == axisRest cs t o)%Q /\
    (inject_Z (steps o) * cs + faxisRest cs t o == t)%Q /\
    forall a, (Z.abs a <= 2 ^ 50)%Z -> (forigin cs (inject_Z a * cs) o == inject_Z (a + steps o) * cs)%Q.
Proof.
  intros cs e t EE CS TD TB. pose proof (move_exact cs t e EE CS TD TB) as ME. split; [exact ME|].
  intros o A. rewrite ME in A. pose proof (rest_exact cs t e EE CS TD TB o A) as RE. split; [exact RE|]. split.
  - rewrite RE. destruct o as [k|]; cbn [steps axisRest]; [ring|]. change (inject_Z 0) with 0%Q. ring.
  - intros a AB. apply (origin_exact cs e a o EE CS AB). intros k ->. apply (steps_bound cs t e EE CS TB k A).
Qed.
Print Assumptions C125_split_exact.

(** The double nearest to -1.37: five cells back and the rest. *)
Example C125_case : let t := Qred (f64 (-137#100)) in is_double t /\ (Qabs t <= two 23 * (1#4))%Q /\ ((1#4) == two (-2))%Q /\
  faxisMove (1#4) t = Ok (Some (-5)%Z) /\ ~ (t == -137#100)%Q /\
  (faxisRest (1#4) t (Some (-5)%Z) == t + (5#4))%Q.
Proof. cbv zeta. repeat split; vm_compute; first [reflexivity|discriminate]. Qed.
(** With cells of 0.2 (the float nearest to it) the rest is rounded. *)
Theorem C125_other_sizes_refuted : exists cs t, (f32 cs == cs)%Q /\ is_double t /\ faxisMove cs t = Ok (Some 3%Z) /\
  ~ (faxisRest cs t (Some 3%Z) == axisRest cs t (Some 3%Z))%Q.
Proof. exists (Qred (f32 (2#10))), (Qred (f64 (7#10))). repeat split; vm_compute; first [reflexivity|discriminate]. Qed.
Print Assumptions C125_other_sizes_refuted.
