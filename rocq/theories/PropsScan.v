(** Frames made from scans: C88-C91.  Only statements, non-vacuity examples and
    [Print Assumptions]. *)
From Coq Require Import List ZArith QArith Qround Qabs Bool Lia.
From Verif Require Import Base VoxelModel VoxelSpec GridModel GridSpec GridProofs GridOps
  GridCases ScanSpec ScanProofs ScanInit.
Import ListNotations.
Open Scope nat_scope.

(** ** C88 *)
(** Starting a frame from a scan.  Whatever the frame held before is gone; its
    distributions are those of the scan and the other cells lie on its beams.
    Missing for the full property: points exactly on a border between two
    squares and distributions less than a cell away from the sensor. *)
Theorem C88_initialize_partial {X L} (mrg : ncell X -> ncell X -> ncell X) dflt addPt compute
  tcell occRay (btw : qpose -> qpose -> qtrans L) tp (g : ngrid X) pcl :
  nwf g -> nc_gauss dflt = false -> means_average dflt addPt compute -> occ_only occRay ->
  let scan := seen_from btw tp g (n_pose g) pcl in
  let start := tp (btw (n_pose g) (n_pose g)) (0, 0)%Q in
  peq start (0, 0)%Q ->
  (forall p, In (Some p) scan -> off_border (n_cs g) p) ->
  scan_rays dflt addPt compute (n_cs g) start scan ->
  exists g', n_initialize mrg dflt addPt compute tcell occRay btw tp g pcl = Ok g' /\ nwf g' /\
    same_header g g' /\ n_init g' = true /\ grows (n_vox g) (n_vox g') /\ cloud_current g' /\
    (forall c x, content (n_vox g') c = Some x /\ nc_gauss x = true <->
                 scan_cell dflt addPt compute (n_cs g) scan c = Some x) /\
    (forall c x, content (n_vox g') c = Some x -> nc_gauss x = false ->
                 on_beam dflt addPt compute (n_cs g) start scan c).
Proof. exact (initialize_spec mrg dflt addPt compute tcell occRay btw tp g pcl). Qed.
Print Assumptions C88_initialize_partial.
Example C88_example :
  nwf pfresh /\ means_average pdflt padd pcompute /\ occ_only pray /\
  (let scan := seen_from xbtw xtp pfresh (n_pose pfresh) pscan in
   let start := xtp (xbtw (n_pose pfresh) (n_pose pfresh)) (0, 0)%Q in
   peq start (0, 0)%Q /\
   (forall p, In (Some p) scan -> off_border (n_cs pfresh) p) /\
   scan_rays pdflt padd pcompute (n_cs pfresh) start scan /\
   (exists x, scan_cell pdflt padd pcompute (n_cs pfresh) scan (3, 1)%Z = Some x) /\
   scan_cell pdflt padd pcompute (n_cs pfresh) scan (-2, 0)%Z = None) /\
  (exists x, content (n_vox pgrid) (0, 0)%Z = Some x /\ nc_gauss x = false).
Proof.
  split; [vm_compute; repeat split|]. split; [exact pmeans|]. split; [exact pray_occ_only|].
  split.
  - split; [vm_compute; split; reflexivity|].
    split; [apply scan_off_ok; [reflexivity|vm_compute; reflexivity]|].
    split; [apply scan_rays_ok; [reflexivity|vm_compute; reflexivity]|].
    split; [eexists; vm_compute; reflexivity|vm_compute; reflexivity].
  - eexists. vm_compute. split; reflexivity.
Qed.

(** The converse, that the squares crossed by a beam become known free space, is
    false: the beams are followed before the window grows, so for a new frame they
    end at the border of its single square.  Square (1,0) lies between the sensor
    and the obstacle. *)
Theorem C88_free_space_refuted :
  n_initialize pmerge pdflt padd pcompute ptrans pray xbtw xtp pfresh pscan = Ok pgrid /\
  on_beam pdflt padd pcompute (n_cs pfresh) (xtp (xbtw (n_pose pfresh) (n_pose pfresh)) (0, 0)%Q)
    (seen_from xbtw xtp pfresh (n_pose pfresh) pscan) (1, 0)%Z /\
  in_box (n_vox pgrid) (1, 0)%Z = true /\ content (n_vox pgrid) (1, 0)%Z = None.
Proof.
  split; [exact pgrid_reachable|]. split; [|split; vm_compute; reflexivity].
  exists (3, 1)%Z. eexists. exists (1#3)%Q. split; [vm_compute; reflexivity|].
  split; [split; [discriminate|reflexivity]|]. apply in_cell_b_iff. vm_compute. reflexivity.
Qed.
Print Assumptions C88_free_space_refuted.

(** ** C89 *)
(** Adding a scan to a frame that is in use, window kept: inside the window each
    distribution of the scan is merged into what is there, the rest of the window
    only sees the free-space update, and nothing outside appears. *)
Theorem C89_add_scan_partial {X L} (mrg : ncell X -> ncell X -> ncell X) dflt addPt compute
  tcell occRay (btw : qpose -> qpose -> qtrans L) tp (g : ngrid X) pcl o c0 :
  nwf g -> n_init g = true -> means_average dflt addPt compute -> occ_only occRay ->
  let scan := seen_from btw tp g o pcl in
  let start := tp (btw o (n_pose g)) (0, 0)%Q in
  in_cell (n_cs g) c0 start -> in_box (n_vox g) c0 = true ->
  (forall p, In (Some p) scan -> off_border (n_cs g) p) ->
  scan_rays dflt addPt compute (n_cs g) start scan ->
  exists g' mid, mergeInTracedPcl mrg dflt addPt compute tcell occRay btw tp g pcl o false = Ok g' /\
    nwf g' /\ same_header g g' /\ same_window (n_vox g) (n_vox g') /\ cloud_current g' /\
    freed dflt addPt compute (n_cs g) start scan (content (n_vox g)) mid /\
    forall c, content (n_vox g') c =
      if in_box (n_vox g) c then
        match scan_cell dflt addPt compute (n_cs g) scan c, mid c with
        | Some x, Some y => Some (mrg y x)
        | Some x, None => Some x
        | None, m => m
        end
      else None.
Proof. exact (fun W I MA OO IC B O R =>
  scan_merge mrg dflt tcell addPt compute occRay btw tp MA g pcl o W O c0 I OO IC B R). Qed.
Print Assumptions C89_add_scan_partial.

(** With resize, or on a frame not in use yet, the window grows instead and a
    distribution of the scan replaces what was in its square. *)
Theorem C89_add_scan_resize_partial {X L} (mrg : ncell X -> ncell X -> ncell X) dflt addPt compute
  tcell occRay (btw : qpose -> qpose -> qtrans L) tp (g : ngrid X) pcl o resize c0 :
  nwf g -> resize = true \/ n_init g = false ->
  means_average dflt addPt compute -> occ_only occRay ->
  let scan := seen_from btw tp g o pcl in
  let start := tp (btw o (n_pose g)) (0, 0)%Q in
  in_cell (n_cs g) c0 start -> in_box (n_vox g) c0 = true ->
  (forall p, In (Some p) scan -> off_border (n_cs g) p) ->
  scan_rays dflt addPt compute (n_cs g) start scan ->
  exists g' mid, mergeInTracedPcl mrg dflt addPt compute tcell occRay btw tp g pcl o resize = Ok g' /\
    nwf g' /\ same_header g g' /\ grows (n_vox g) (n_vox g') /\ cloud_current g' /\
    freed dflt addPt compute (n_cs g) start scan (content (n_vox g)) mid /\
    forall c, content (n_vox g') c =
      match scan_cell dflt addPt compute (n_cs g) scan c with Some x => Some x | None => mid c end.
Proof. exact (fun W I MA OO IC B O R =>
  scan_replace mrg dflt tcell addPt compute occRay btw tp MA g pcl o W O resize c0 I OO IC B R). Qed.
Print Assumptions C89_add_scan_resize_partial.

(** Without the free-space update. *)
Theorem C89_add_scan_plain_partial {X L} (mrg : ncell X -> ncell X -> ncell X) dflt addPt compute
  tcell (btw : qpose -> qpose -> qtrans L) tp (g : ngrid X) pcl o resize :
  nwf g -> means_average dflt addPt compute ->
  let scan := seen_from btw tp g o pcl in
  (forall p, In (Some p) scan -> off_border (n_cs g) p) ->
  exists g', mergeInPcl mrg dflt addPt compute tcell btw tp g pcl o resize = Ok g' /\
    nwf g' /\ same_header g g' /\ grows (n_vox g) (n_vox g') /\ cloud_current g' /\
    forall c, content (n_vox g') c =
      if resize || negb (n_init g) then
        match scan_cell dflt addPt compute (n_cs g) scan c with
        | Some x => Some x | None => content (n_vox g) c end
      else if in_box (n_vox g) c then
        match scan_cell dflt addPt compute (n_cs g) scan c, content (n_vox g) c with
        | Some x, Some y => Some (mrg y x)
        | Some x, None => Some x
        | None, m => m
        end
      else None.
Proof. exact (fun W MA O =>
  scan_plain mrg dflt tcell addPt compute btw tp MA g pcl o W O resize). Qed.
Print Assumptions C89_add_scan_plain_partial.

(** The frame of C88 sees the same obstacle again from 0.2 to the left. *)
Example C89_example :
  nwf pgrid /\ n_init pgrid = true /\
  let o := mkPose (-(2#10)) 0 0 in
  let scan := seen_from xbtw xtp pgrid o pscan in
  let start := xtp (xbtw o (n_pose pgrid)) (0, 0)%Q in
  in_cell (n_cs pgrid) (0, 0)%Z start /\ in_box (n_vox pgrid) (0, 0)%Z = true /\
  (forall p, In (Some p) scan -> off_border (n_cs pgrid) p) /\
  scan_rays pdflt padd pcompute (n_cs pgrid) start scan /\
  exists x y, scan_cell pdflt padd pcompute (n_cs pgrid) scan (3, 1)%Z = Some x /\
    content (n_vox pgrid) (3, 1)%Z = Some y /\ nc_gauss y = true /\
    length (nc_rest (pmerge y x)) = 12.
Proof.
  split; [exact pgrid_nwf|]. split; [reflexivity|].
  split; [vm_compute; repeat split; discriminate|]. split; [reflexivity|].
  split; [apply scan_off_ok; [reflexivity|vm_compute; reflexivity]|].
  split; [apply scan_rays_ok; [reflexivity|vm_compute; reflexivity]|].
  eexists. eexists. split; [vm_compute; reflexivity|]. split; [vm_compute; reflexivity|].
  split; vm_compute; reflexivity.
Qed.

(** ** C90 *)
(** Transforming a frame rotates its distributions about its origin and moves the
    origin by the translation; distributions that meet in a square are merged, no
    distribution is lost and free-space cells are. *)
Theorem C90_transform_partial {X L} (mrg : ncell X -> ncell X -> ncell X)
  (tcell : qtrans L -> ncell X -> ncell X) noLin moveOrigin (g : ngrid X) (t : qtrans L) :
  nwf g ->
  off_borders (n_cs g) (map (tcell (mkTr (tr_lin t) 0 0)) (getValidCells (n_vox g))) ->
  exists g', n_transform mrg tcell noLin moveOrigin g t = Ok g' /\ nwf g' /\
    n_pose g' = moveOrigin (n_pose g) (mkTr noLin (tr_x t) (tr_y t)) /\
    n_cs g' = n_cs g /\ n_init g' = n_init g /\ n_time g' = n_time g /\
    grows (n_vox g) (n_vox g') /\ cloud_current g' /\
    forall c, content (n_vox g') c =
      merged mrg (landing (n_cs g) c
        (map (tcell (mkTr (tr_lin t) 0 0)) (getValidCells (n_vox g)))).
Proof. exact (transform_spec mrg tcell noLin moveOrigin g t). Qed.
Print Assumptions C90_transform_partial.

(** A turn by the angle with cosine 3/5 brings two of the three distributions of
    the frame into one square. *)
Example C90_example : nwf rgrid /\
  (let l := map (rtcell (mkTr (3#5, 4#5) 0 0)%Q) (getValidCells (n_vox rgrid)) in
   off_borders (n_cs rgrid) l /\ length (landing (n_cs rgrid) (0, 2)%Z l) = 2 /\
   length (landing (n_cs rgrid) (-2, -2)%Z l) = 1) /\
  exists g' x, n_transform xmerge rtcell (1, 0)%Q rmove rgrid (mkTr (3#5, 4#5) 2 1)%Q = Ok g' /\
    content (n_vox g') (0, 2)%Z = Some x /\ fst (nc_rest x) = 13%positive /\
    p_x (n_pose g') = 2%Q /\ p_th (n_pose g') = 0%Q.
Proof.
  split; [exact rgrid_nwf|]. split.
  - split; [apply offs_b_ok; [reflexivity|vm_compute; reflexivity]|].
    split; vm_compute; reflexivity.
  - eexists. eexists. split; [vm_compute; reflexivity|]. vm_compute. repeat split.
Qed.

(** ** C91 *)
(** The reported centroid is twice as far from the origin of the frame as the
    centre of its window. *)
Theorem C91_centroid_double {X} (g : ngrid X) :
  (exists p, window_centre g p) /\
  forall p, window_centre g p ->
    (fst (getCentroid g) == 2 * fst p)%Q /\ (snd (getCentroid g) == 2 * snd p)%Q.
Proof. exact (conj (ex_intro _ _ (window_centre_ok g)) (centroid_double g)). Qed.
Print Assumptions C91_centroid_double.
Theorem C91_centroid_refuted :
  nwf xgrid /\ ~ window_centre xgrid (getCentroid xgrid).
Proof.
  split; [exact xgrid_nwf|]. intro H.
  destruct (centroid_double xgrid _ H) as [A _]. vm_compute in A. discriminate.
Qed.
Print Assumptions C91_centroid_refuted.

(** The reported radius reaches every cell from the reported centroid, and from
    the centre of the window, when the window is at least 15/8 times as wide as
    it is high.  Missing: the other windows, where it does not have to. *)
Theorem C91_radius_partial {X} (g : ngrid X) : (0 <= n_cs g)%Q ->
  15 * height (n_vox g) <= 8 * width (n_vox g) ->
  reaches g (getCentroid g) (getRadius g) /\
  forall p, window_centre g p -> reaches g p (getRadius g).
Proof. exact (radius_both g). Qed.
Print Assumptions C91_radius_partial.
Example C91_example : exists g, mergeInCells xmerge xfresh [xc (4#10) 0 6; xc 3 0 6] true = Ok g /\
  width (n_vox g) = 4 /\ height (n_vox g) = 1.
Proof. eexists. split; [vm_compute; reflexivity|]. split; reflexivity. Qed.

Theorem C91_radius_refuted :
  mergeInCells xmerge xfresh [xc 0 10 6] true = Ok tall /\
  ~ reaches tall (getCentroid tall) (getRadius tall) /\
  forall p, window_centre tall p -> ~ reaches tall p (getRadius tall).
Proof. exact (conj tall_reachable tall_short). Qed.
Print Assumptions C91_radius_refuted.
