(** C130: free-space evidence is counted once per beam (property statements; vocabulary in
    BeamSpec.v, proofs in BeamProofs.v and BeamScan.v). *)
From Coq Require Import Reals List ZArith QArith Qround Lqa Lia Bool Sorted.
From Verif Require Import Base LinAlg3 CellModel BeamCell VoxelModel VoxelSpec VoxelProofs GridModel GridSpec GridProofs GridOps GridCases
  ScanSpec ScanProofs ScanInit BeamSpec BeamProofs BeamScan.
Import ListNotations.
Open Scope nat_scope.

(** Merging a grid into the window, window kept: every square gets one free-space update
    for each incoming distribution whose beam crosses it, in the order of the
    distributions, and no other; then the distributions are merged. *)
Theorem C130_merge {X L} (mrg : ncell X -> ncell X -> ncell X) (dflt : ncell X)
  (occRay : ncell X -> point -> ncell X -> ncell X) (tcell : qtrans L -> ncell X -> ncell X)
  (btw : qpose -> qpose -> qtrans L) (tp : qtrans L -> point -> point)
  (g other : ngrid X) (transform : bool) (c0 : pcell) :
  let l := (if transform then map (tcell (btw (n_pose other) (n_pose g)))
                                  (getValidCells (n_vox other))
            else getValidCells (n_vox other)) in
  let start := tp (btw (n_pose other) (n_pose g)) (0, 0)%Q in
  nwf g -> n_init g = true -> in_cell (n_cs g) c0 start -> in_box (n_vox g) c0 = true ->
  beams_ok (n_cs g) start l -> off_borders (n_cs g) l ->
  exists g', mergeInTraced mrg dflt tcell occRay btw tp g other transform false = Ok g' /\
    nwf g' /\ same_header g g' /\ same_window (n_vox g) (n_vox g') /\ cloud_current g' /\
    forall c hit, seen_through (n_vox g) start l c hit -> content (n_vox g') c =
      if in_box (n_vox g) c
      then accumulate mrg (evidence dflt occRay start (filter hit l) (content (n_vox g) c)) (landing (n_cs g) c l)
      else None.
Proof. exact (beams_keep mrg dflt occRay tcell btw tp g other transform c0). Qed.
Print Assumptions C130_merge.

(** With resize, or on a grid not in use yet: the beams are followed in the old window,
    then the window grows and the last distribution of a square replaces its cell. *)
Theorem C130_merge_resize {X L} (mrg : ncell X -> ncell X -> ncell X) (dflt : ncell X)
  (occRay : ncell X -> point -> ncell X -> ncell X) (tcell : qtrans L -> ncell X -> ncell X)
  (btw : qpose -> qpose -> qtrans L) (tp : qtrans L -> point -> point)
  (g other : ngrid X) (transform resize : bool) (c0 : pcell) :
  let l := (if transform then map (tcell (btw (n_pose other) (n_pose g)))
                                  (getValidCells (n_vox other))
            else getValidCells (n_vox other)) in
  let start := tp (btw (n_pose other) (n_pose g)) (0, 0)%Q in
  nwf g -> resize = true \/ n_init g = false -> in_cell (n_cs g) c0 start -> in_box (n_vox g) c0 = true ->
  beams_ok (n_cs g) start l -> off_borders (n_cs g) l ->
  exists g', mergeInTraced mrg dflt tcell occRay btw tp g other transform resize = Ok g' /\
    nwf g' /\ same_header g g' /\ grows (n_vox g) (n_vox g') /\ cloud_current g' /\
    forall c hit, seen_through (n_vox g) start l c hit -> content (n_vox g') c =
      latest (evidence dflt occRay start (filter hit l) (content (n_vox g) c)) (landing (n_cs g) c l).
Proof. exact (beams_replace mrg dflt occRay tcell btw tp g other transform resize c0). Qed.
Print Assumptions C130_merge_resize.

(** From a sensor outside the window nothing is traced. *)
Theorem C130_outside {X L} (mrg : ncell X -> ncell X -> ncell X) (dflt : ncell X)
  (occRay : ncell X -> point -> ncell X -> ncell X) (tcell : qtrans L -> ncell X -> ncell X)
  (btw : qpose -> qpose -> qtrans L) (tp : qtrans L -> point -> point)
  (g other : ngrid X) (transform resize : bool) :
  isInside (n_vox g) (tp (btw (n_pose other) (n_pose g)) (0, 0)%Q) = false ->
  mergeInTraced mrg dflt tcell occRay btw tp g other transform resize =
  mergeInGrid mrg tcell btw g other transform resize.
Proof. exact (outside_plain mrg dflt tcell occRay btw tp g other transform resize). Qed.
Print Assumptions C130_outside.

(** A scan merged into a frame: its distributions are taken in reading order of their
    squares (the list [bs] is determined by that). *)
Theorem C130_scan {X L} (mrg : ncell X -> ncell X -> ncell X) dflt addPt compute
  tcell occRay (btw : qpose -> qpose -> qtrans L) tp (g : ngrid X) pcl o c0 :
  nwf g -> n_init g = true -> means_average dflt addPt compute ->
  let scan := seen_from btw tp g o pcl in
  let start := tp (btw o (n_pose g)) (0, 0)%Q in
  in_cell (n_cs g) c0 start -> in_box (n_vox g) c0 = true ->
  (forall p, In (Some p) scan -> off_border (n_cs g) p) ->
  scan_lengths dflt addPt compute (n_cs g) start scan ->
  exists g' bs, mergeInTracedPcl mrg dflt addPt compute tcell occRay btw tp g pcl o false = Ok g' /\
    nwf g' /\ same_header g g' /\ same_window (n_vox g) (n_vox g') /\ cloud_current g' /\
    scan_beams dflt addPt compute (n_cs g) scan bs /\
    forall c hit, seen_through (n_vox g) start bs c hit -> content (n_vox g') c =
      if in_box (n_vox g) c then
        match scan_cell dflt addPt compute (n_cs g) scan c, evidence dflt occRay start (filter hit bs) (content (n_vox g) c) with
        | Some x, Some y => Some (mrg y x)
        | Some x, None => Some x
        | None, m => m
        end
      else None.
Proof. exact (fun W I MA IC B O R => scan_exact_keep mrg dflt occRay tcell btw tp addPt compute MA g pcl o W O c0 I IC B R). Qed.
Print Assumptions C130_scan.
Theorem C130_scan_resize {X L} (mrg : ncell X -> ncell X -> ncell X) dflt addPt compute
  tcell occRay (btw : qpose -> qpose -> qtrans L) tp (g : ngrid X) pcl o resize c0 :
  nwf g -> resize = true \/ n_init g = false -> means_average dflt addPt compute ->
  let scan := seen_from btw tp g o pcl in
  let start := tp (btw o (n_pose g)) (0, 0)%Q in
  in_cell (n_cs g) c0 start -> in_box (n_vox g) c0 = true ->
  (forall p, In (Some p) scan -> off_border (n_cs g) p) ->
  scan_lengths dflt addPt compute (n_cs g) start scan ->
  exists g' bs, mergeInTracedPcl mrg dflt addPt compute tcell occRay btw tp g pcl o resize = Ok g' /\
    nwf g' /\ same_header g g' /\ grows (n_vox g) (n_vox g') /\ cloud_current g' /\
    scan_beams dflt addPt compute (n_cs g) scan bs /\
    forall c hit, seen_through (n_vox g) start bs c hit -> content (n_vox g') c =
      match scan_cell dflt addPt compute (n_cs g) scan c with
      | Some x => Some x
      | None => evidence dflt occRay start (filter hit bs) (content (n_vox g) c)
      end.
Proof. exact (fun W I MA IC B O R => scan_exact_replace mrg dflt occRay tcell btw tp addPt compute MA g pcl o W O resize c0 I IC B R). Qed.
Print Assumptions C130_scan_resize.

(** A frame started from a scan. *)
Theorem C130_start {X L} (mrg : ncell X -> ncell X -> ncell X) dflt addPt compute
  tcell occRay (btw : qpose -> qpose -> qtrans L) tp (g : ngrid X) pcl :
  nwf g -> means_average dflt addPt compute ->
  let scan := seen_from btw tp g (n_pose g) pcl in
  let start := tp (btw (n_pose g) (n_pose g)) (0, 0)%Q in
  peq start (0, 0)%Q ->
  (forall p, In (Some p) scan -> off_border (n_cs g) p) ->
  scan_lengths dflt addPt compute (n_cs g) start scan ->
  exists g' bs, n_initialize mrg dflt addPt compute tcell occRay btw tp g pcl = Ok g' /\ nwf g' /\
    same_header g g' /\ grows (n_vox g) (n_vox g') /\ cloud_current g' /\
    scan_beams dflt addPt compute (n_cs g) scan bs /\
    forall c hit, seen_through (n_vox g) start bs c hit -> content (n_vox g') c =
      match scan_cell dflt addPt compute (n_cs g) scan c with
      | Some x => Some x
      | None => evidence dflt occRay start (filter hit bs) None
      end.
Proof. exact (start_exact mrg dflt addPt compute tcell occRay btw tp g pcl). Qed.
Print Assumptions C130_start.
(** If the frame is new, its window being the one square around the sensor, that is the
    only square in which free space is noted, once for every distribution of the scan. *)
Theorem C130_new_frame {X L} (mrg : ncell X -> ncell X -> ncell X) dflt addPt compute
  tcell occRay (btw : qpose -> qpose -> qtrans L) tp (g : ngrid X) pcl :
  nwf g -> means_average dflt addPt compute ->
  w_left (n_vox g) = 0 -> w_right (n_vox g) = 0 -> h_up (n_vox g) = 0 -> h_down (n_vox g) = 0 ->
  let scan := seen_from btw tp g (n_pose g) pcl in
  let start := tp (btw (n_pose g) (n_pose g)) (0, 0)%Q in
  peq start (0, 0)%Q ->
  (forall p, In (Some p) scan -> off_border (n_cs g) p) ->
  scan_lengths dflt addPt compute (n_cs g) start scan ->
  exists g' bs, n_initialize mrg dflt addPt compute tcell occRay btw tp g pcl = Ok g' /\
    scan_beams dflt addPt compute (n_cs g) scan bs /\
    forall c, content (n_vox g') c =
      match scan_cell dflt addPt compute (n_cs g) scan c with
      | Some x => Some x
      | None => if pcell_eqb c (0, 0)%Z then evidence dflt occRay start bs None else None
      end.
Proof. exact (start_new mrg dflt addPt compute tcell occRay btw tp g pcl). Qed.
Print Assumptions C130_new_frame.

(** Which squares a beam crosses: it can be told for every beam and square; the square of
    the sensor always; beams of at least a cell stop a cell before their end, so only
    squares of the segment strictly before its end are crossed; shorter ones take 2^64-1
    half-cell steps (until they leave the window). *)
Theorem C130_decided {X} (v : vgrid (ncell X)) s l c : exists hit, seen_through v s l c hit.
Proof. exists (fun e => nc_gauss e && crosses_b v s (nc_mean e) c). intros e _. rewrite andb_true_iff, crosses_b_iff. reflexivity. Qed.
Print Assumptions C130_decided.
Theorem C130_reach : forall len : Q, (0 <= len)%Q -> (len < inject_Z (2^63))%Q ->
  beam_steps len = if Qlt_le_dec len 1 then (2^64 - 1)%Z else (2 * Qfloor len - 1)%Z.
Proof.
  intros len A B. unfold beam_steps. destruct (Qlt_le_dec len 1) as [S|G].
  - assert (Z0 : Qfloor len = 0%Z).
    { pose proof (Qfloor_le len) as F1. pose proof (Qlt_floor len) as F2.
      assert (N : (0 <= Qfloor len)%Z) by (apply (Qfloor_resp_le 0 len A)).
      assert (P : (Qfloor len < 1)%Z); [|lia]. rewrite Zlt_Qlt. change (inject_Z 1) with 1%Q. lra. }
    rewrite Z0. reflexivity.
  - assert (N : (1 <= Qfloor len)%Z) by (apply (Qfloor_resp_le 1 len G)).
    assert (P : (Qfloor len < 2^63)%Z). { rewrite Zlt_Qlt. pose proof (Qfloor_le len). lra. }
    apply Z.mod_small. change (2^64)%Z with (2 * 2^63)%Z. lia.
Qed.
Print Assumptions C130_reach.
Theorem C130_segment {X} (v : vgrid (ncell X)) s e c :
  (1 <= seg_len (cell_size v) s e)%Q -> (seg_len (cell_size v) s e < inject_Z (2^63))%Q ->
  crosses v s e c -> exists t, (0 <= t < 1)%Q /\ in_cell (cell_size v) c (seg_point s e t).
Proof.
  intros A B (k & K & I & _). rewrite C130_reach in K; [|lra|exact B].
  destruct (Qlt_le_dec (seg_len (cell_size v) s e) 1) as [S|_]; [exfalso; lra|].
  exists (inject_Z (Z.of_nat k) / (2 * seg_len (cell_size v) s e))%Q. split; [|exact I].
  set (len := seg_len (cell_size v) s e) in *.
  assert (KZ : (Z.of_nat k < 2 * Qfloor len)%Z) by lia. rewrite Zlt_Qlt, inject_Z_mult in KZ. change (inject_Z 2) with 2%Q in KZ.
  pose proof (Qfloor_le len) as F. split.
  - apply Qle_shift_div_l; [lra|]. rewrite Qmult_0_l. change 0%Q with (inject_Z 0). rewrite <- Zle_Qle. lia.
  - apply Qlt_shift_div_r; lra.
Qed.
Print Assumptions C130_segment.

(** What that adds up to in a cell without a distribution: its raw occupancy falls by 0.2
    for every point of every distribution seen through it, down to -1, and nothing else
    of it changes.  A beam: start, end, an unused value, number of points. *)
Theorem C130_adds_up : forall (bs : list (V3 * V3 * V3 * Z)) c o,
  (forall b, In b bs -> (0 <= snd b)%Z) ->
  c_gauss c = false -> c_occ c = Some o -> (-1 <= o <= 1)%R ->
  fold_left (fun x b => updateOccupancy x (fst (fst (fst b))) (snd (fst (fst b))) (snd (fst b)) (snd b)) bs c =
  set_occ c (Some (Rmax (-1) (o - 2 / 10 * IZR (fold_right Z.add 0%Z (map snd bs)))))%R.
Proof. exact (fun bs c o N => beams_add_up bs N c o). Qed.
Print Assumptions C130_adds_up.
Example C130_case_cell : c_gauss cell_new = false /\ c_occ cell_new = Some 0%R /\
  forall b, In b [((vzero, vzero, vzero), 3%Z); ((vzero, vzero, vzero), 6%Z)] -> (0 <= snd b)%Z.
Proof. split; [reflexivity|]. split; [reflexivity|]. intros b [<- | [<- | []]]; cbn; lia. Qed.

(** The grids of C76's example: the sensor is in square (1,0), one of the beams goes on
    through square (0,0). *)
Example C130_case :
  let l := map (xtcell (xbtw (n_pose xother) (n_pose xgrid))) (getValidCells (n_vox xother)) in
  let start := xtp (xbtw (n_pose xother) (n_pose xgrid)) (0, 0)%Q in
  nwf xgrid /\ n_init xgrid = true /\ in_cell (n_cs xgrid) (1, 0)%Z start /\ in_box (n_vox xgrid) (1, 0)%Z = true /\
  beams_ok (n_cs xgrid) start l /\ off_borders (n_cs xgrid) l /\
  seen_through (n_vox xgrid) start l (0, 0)%Z (fun e => if nc_gauss e then crosses_b (n_vox xgrid) start (nc_mean e) (0, 0)%Z else false) /\
  map (fun c => map (fun e => if nc_gauss e then crosses_b (n_vox xgrid) start (nc_mean e) c else false) l)
    [(1, 0); (0, 0); (2, 1)]%Z =
    [[true; true; false]; [true; false; false]; [false; false; false]].
Proof.
  cbv zeta. split; [exact xgrid_nwf|]. split; [reflexivity|].
  split; [vm_compute; repeat split; discriminate|]. split; [reflexivity|].
  split; [intros e I G; destruct (xother_rays e I G); lra|]. split; [exact xother_off|].
  split.
  - intros e _. destruct (nc_gauss e); [rewrite crosses_b_iff; tauto|]. split; [discriminate|intros [Q _]; discriminate].
  - vm_compute. reflexivity.
Qed.
(** A new frame and the scan of C88's example. *)
Example C130_case_scan :
  nwf pfresh /\ means_average pdflt padd pcompute /\
  (w_left (n_vox pfresh), w_right (n_vox pfresh), h_up (n_vox pfresh), h_down (n_vox pfresh)) = (0, 0, 0, 0) /\
  let scan := seen_from xbtw xtp pfresh (n_pose pfresh) pscan in
  let start := xtp (xbtw (n_pose pfresh) (n_pose pfresh)) (0, 0)%Q in
  peq start (0, 0)%Q /\ (forall p, In (Some p) scan -> off_border (n_cs pfresh) p) /\
  scan_lengths pdflt padd pcompute (n_cs pfresh) start scan /\
  (exists x, scan_cell pdflt padd pcompute (n_cs pfresh) scan (3, 1)%Z = Some x) /\
  exists x, content (n_vox pgrid) (0, 0)%Z = Some x /\ nc_gauss x = false.
Proof.
  split; [vm_compute; repeat split|]. split; [exact pmeans|]. split; [reflexivity|]. cbv zeta.
  split; [vm_compute; split; reflexivity|].
  split; [apply scan_off_ok; [reflexivity|vm_compute; reflexivity]|].
  assert (R : scan_rays pdflt padd pcompute (n_cs pfresh) (xtp (xbtw (n_pose pfresh) (n_pose pfresh)) (0, 0)%Q)
                (seen_from xbtw xtp pfresh (n_pose pfresh) pscan))
    by (apply scan_rays_ok; [reflexivity|vm_compute; reflexivity]).
  split; [intros c x E; destruct (R c x E); lra|].
  split; [eexists; vm_compute; reflexivity|]. eexists. vm_compute. split; reflexivity.
Qed.
