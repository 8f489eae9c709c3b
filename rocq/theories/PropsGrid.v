(** NDT grid properties C25-C30 and C72-C76.  Only statements, non-vacuity
    examples and [Print Assumptions]. *)
From Coq Require Import List ZArith QArith Qround Qabs Bool Lia.
From Verif Require Import Base VoxelModel VoxelSpec GridModel GridSpec GridProofs GridOps
  GridCases.
Import ListNotations.
Open Scope nat_scope.

(** ** C25 *)
(** The returned transform is the requested one minus a whole number of cells per
    axis, by which the origin of the grid moved; it is shorter than a cell and
    does not point backwards.  The bound excludes motions of 2^31 cells. *)
Theorem C25_move_split {X L} (g : ngrid X) (t : qtrans L) : nwf g ->
  (Qabs (p_th (n_pose g)) <= 1 # 10000000)%Q ->
  (Qabs (tr_x t) < inject_Z (2^31) * n_cs g)%Q -> (Qabs (tr_y t) < inject_Z (2^31) * n_cs g)%Q ->
  exists g' rx ry kx ky,
    n_move g t = Ok (g', mkTr (tr_lin t) rx ry) /\ nwf g' /\
    same_window (n_vox g) (n_vox g') /\
    n_cs g' = n_cs g /\ n_init g' = n_init g /\ n_time g' = n_time g /\
    (p_x (n_pose g') == p_x (n_pose g) + inject_Z kx * n_cs g)%Q /\
    (p_y (n_pose g') == p_y (n_pose g) + inject_Z ky * n_cs g)%Q /\
    p_th (n_pose g') = p_th (n_pose g) /\
    (rx == tr_x t - inject_Z kx * n_cs g)%Q /\ (ry == tr_y t - inject_Z ky * n_cs g)%Q /\
    (Qabs rx < n_cs g)%Q /\ (Qabs ry < n_cs g)%Q /\
    (((0 <= tr_x t)%Q -> (0 <= rx)%Q) /\ ((tr_x t <= 0)%Q -> (rx <= 0)%Q)) /\
    (((0 <= tr_y t)%Q -> (0 <= ry)%Q) /\ ((tr_y t <= 0)%Q -> (ry <= 0)%Q)) /\
    (((kx = 0 /\ ky = 0)%Z /\ g' = g) \/
     (n_means g' = Some (map nc_mean (gaussians g')) /\
      forall c, content (n_vox g') c =
       if in_box (n_vox g) c
       then option_map (shiftMean (inject_Z kx * n_cs g) (inject_Z ky * n_cs g))
              (content (n_vox g) (fst c + kx, snd c + ky)%Z)
       else None)).
Proof. exact (move_ok g t). Qed.
Print Assumptions C25_move_split.

Theorem C25_move_rotated {X L} (g : ngrid X) (t : qtrans L) :
  (1 # 10000000 < Qabs (p_th (n_pose g)))%Q -> n_move g t = Ok (g, t).
Proof. exact (move_rotated g t). Qed.
Print Assumptions C25_move_rotated.

Example C25_example :
  nwf xgrid /\ (Qabs (p_th (n_pose xgrid)) <= 1 # 10000000)%Q /\
  (Qabs (-(23#10)) < inject_Z (2^31) * n_cs xgrid)%Q /\
  exists g', n_move xgrid (mkTr tt (-(23#10)) (12#10)) =
               Ok (g', mkTr tt (-(3#10)) (2#10))%Q /\
             p_x (n_pose g') = (-(2))%Q /\ p_y (n_pose g') = 1%Q.
Proof.
  split; [exact xgrid_nwf|]. split; [vm_compute; discriminate|].
  split; [vm_compute; reflexivity|]. eexists. vm_compute. repeat split.
Qed.

(** ** C26 *)
(** World positions refer to a grid whose axes are the world's axes, which is
    when the code moves at all (up to its tolerance on the angle). *)
Theorem C26_move_keeps_map {X L} (g : ngrid X) (t : qtrans L) g' r : nwf g ->
  (Qabs (p_th (n_pose g)) <= 1 # 10000000)%Q ->
  (Qabs (tr_x t) < inject_Z (2^31) * n_cs g)%Q -> (Qabs (tr_y t) < inject_Z (2^31) * n_cs g)%Q ->
  n_move g t = Ok (g', r) ->
  exists kx ky : Z,
    (p_x (n_pose g') == p_x (n_pose g) + inject_Z kx * n_cs g)%Q /\
    (p_y (n_pose g') == p_y (n_pose g) + inject_Z ky * n_cs g)%Q /\
    same_window (n_vox g) (n_vox g') /\
    (forall c v, content (n_vox g) c = Some v ->
       if in_box (n_vox g) (fst c - kx, snd c - ky)%Z
       then exists v', content (n_vox g') (fst c - kx, snd c - ky)%Z = Some v' /\
              nc_gauss v' = nc_gauss v /\ nc_rest v' = nc_rest v /\
              (nc_gauss v = true -> peq (world_pos g' v') (world_pos g v)) /\
              (nc_gauss v = false -> v' = v)
       else content (n_vox g') (fst c - kx, snd c - ky)%Z = None) /\
    (forall d v', content (n_vox g') d = Some v' ->
       exists v, content (n_vox g) (fst d + kx, snd d + ky)%Z = Some v).
Proof. exact (move_world g t g' r). Qed.
Print Assumptions C26_move_keeps_map.
Example C26_example : (* one gaussian moves from square (2,1) to (1,0), one falls out *)
  exists g' r, n_move xgrid (mkTr tt (12#10) (12#10)) = Ok (g', r) /\
    content (n_vox xgrid) (2, 1)%Z = Some (xc (23#10) (12#10) 7) /\
    (exists v', content (n_vox g') (1, 0)%Z = Some v' /\ nc_gauss v' = true) /\
    content (n_vox xgrid) (-2, 0)%Z = Some (xc (-16#10) (3#10) 8) /\
    in_box (n_vox xgrid) (-3, -1)%Z = false.
Proof.
  eexists. eexists. split; [vm_compute; reflexivity|]. split; [vm_compute; reflexivity|].
  split; [|split; [vm_compute; reflexivity|vm_compute; reflexivity]].
  eexists. split; vm_compute; reflexivity.
Qed.

(** ** C27 *)
(** Full property: the same for both values of resize and for grids not yet
    initialised.  False there, see below. *)
Theorem C27_merge_accumulates_partial {X} (mrg : ncell X -> ncell X -> ncell X)
  (g : ngrid X) l : nwf g -> n_init g = true -> off_borders (n_cs g) l ->
  exists g', mergeInCells mrg g l false = Ok g' /\ nwf g' /\ same_header g g' /\
    n_init g' = true /\ same_window (n_vox g) (n_vox g') /\
    n_means g' = Some (map nc_mean (gaussians g')) /\
    forall c, content (n_vox g') c =
      if in_box (n_vox g) c
      then accumulate mrg (content (n_vox g) c) (landing (n_cs g) c l) else None.
Proof. exact (merge_keep mrg g l). Qed.
Print Assumptions C27_merge_accumulates_partial.
Example C27_example : off_borders (n_cs xgrid) [xc (1#10) (1#10) 5; xc (-1#10) (2#10) 4; xc 90 0 6] /\
  n_init xgrid = true /\
  length (landing (n_cs xgrid) (0, 0)%Z [xc (1#10) (1#10) 5; xc (-1#10) (2#10) 4; xc 90 0 6]) = 2.
Proof.
  split; [apply offs_b_ok; vm_compute; reflexivity|]. split; vm_compute; reflexivity.
Qed.

(** With resize, or on a grid that was never filled or was cleared, the window
    grows to hold every mean, but what was there is replaced: the last gaussian
    cell landing in a square wins. *)
Theorem C27_merge_resize_replaces {X} (mrg : ncell X -> ncell X -> ncell X)
  (g : ngrid X) l resize : nwf g -> resize = true \/ n_init g = false ->
  off_borders (n_cs g) l ->
  exists g', mergeInCells mrg g l resize = Ok g' /\ nwf g' /\ same_header g g' /\
    n_init g' = true /\ grows (n_vox g) (n_vox g') /\
    n_means g' = Some (map nc_mean (gaussians g')) /\
    (forall v, In v l -> isInside (n_vox g') (nc_mean v) = true) /\
    forall c, content (n_vox g') c =
      latest (content (n_vox g) c) (landing (n_cs g) c l).
Proof. exact (merge_replace mrg g l resize). Qed.
Print Assumptions C27_merge_resize_replaces.

Theorem C27_merge_accumulates_refuted :
  (* resize = true on an initialised grid loses the six points that were there *)
  (n_init xgrid = true /\ content (n_vox xgrid) (0, 0)%Z = Some (xc (2#10) (1#10) 6) /\
   exists g', mergeInCells xmerge xgrid [xc (1#10) (1#10) 5] true = Ok g' /\
     content (n_vox g') (0, 0)%Z = Some (xc (1#10) (1#10) 5) /\
     option_map (fun v => fst (nc_rest v))
       (accumulate xmerge (content (n_vox xgrid) (0, 0)%Z) [xc (1#10) (1#10) 5])
     = Some 11%positive) /\
  (* resize = false on a new grid: the first of two cells is lost and the window grows *)
  (n_init xfresh = false /\
   exists g', mergeInCells xmerge xfresh [xc (2#10) (1#10) 6; xc (1#10) (1#10) 5; xc 3 0 7] false
                = Ok g' /\
     content (n_vox g') (0, 0)%Z = Some (xc (1#10) (1#10) 5) /\
     in_box (n_vox xfresh) (3, 0)%Z = false /\
     content (n_vox g') (3, 0)%Z = Some (xc 3 0 7)).
Proof.
  split.
  - split; [reflexivity|]. split; [vm_compute; reflexivity|].
    eexists. split; [vm_compute; reflexivity|]. split; vm_compute; reflexivity.
  - split; [reflexivity|].
    eexists. split; [vm_compute; reflexivity|]. repeat split; vm_compute; reflexivity.
Qed.
Print Assumptions C27_merge_accumulates_refuted.

(** ** C28 *)
(** What createCoarserGrid computes, for any cell size. *)
Theorem C28_coarser_exact {X} (mrg : ncell X -> ncell X -> ncell X) (dflt : ncell X)
  (g : ngrid X) cs : (0 < n_cs g)%Q ->
  let s := if Qlt_b cs (n_cs g) then n_cs g else cs in
  off_borders s (getValidCells (n_vox g)) ->
  exists g', createCoarserGrid mrg dflt g cs = Ok g' /\ nwf g' /\ n_cs g' = s /\
    n_means g' = Some (map nc_mean (gaussians g')) /\
    forall c, content (n_vox g') c =
      latest (if pcell_eqb c (0, 0)%Z then Some dflt else None)
             (landing s c (getValidCells (n_vox g))).
Proof. exact (coarser_spec mrg dflt g cs). Qed.
Print Assumptions C28_coarser_exact.

(** Full property: without the bound on the number of cells landing in [c]. *)
Theorem C28_coarser_merges_partial {X} (mrg : ncell X -> ncell X -> ncell X) (dflt : ncell X)
  (g g' : ngrid X) cs c : (0 < n_cs g)%Q -> (n_cs g <= cs)%Q ->
  off_borders cs (getValidCells (n_vox g)) ->
  createCoarserGrid mrg dflt g cs = Ok g' ->
  length (landing cs c (getValidCells (n_vox g))) <= 1 ->
  content (n_vox g') c =
  match merged mrg (landing cs c (getValidCells (n_vox g))) with
  | Some v => Some v
  | None => if pcell_eqb c (0, 0)%Z then Some dflt else None
  end.
Proof.
  exact (fun HC HS O E LE =>
    coarser_small mrg dflt g g' cs c HC HS O E LE).
Qed.
Print Assumptions C28_coarser_merges_partial.
Example C28_example : exists g', createCoarserGrid xmerge xdflt xgrid 2 = Ok g' /\
  length (landing 2 (1, 1)%Z (getValidCells (n_vox xgrid))) = 1 /\
  content (n_vox g') (1, 1)%Z = Some (xc (23#10) (12#10) 7).
Proof.
  eexists. split; [vm_compute; reflexivity|]. split; vm_compute; reflexivity.
Qed.
(** Three gaussian cells land in one coarse cell, which then holds only the last. *)
Theorem C28_coarser_merges_refuted :
  exists g', createCoarserGrid xmerge xdflt xgrid 8 = Ok g' /\
    landing 8 (0, 0)%Z (getValidCells (n_vox xgrid)) =
      [xc (23#10) (12#10) 7; xc (-16#10) (3#10) 8; xc (2#10) (1#10) 6] /\
    content (n_vox g') (0, 0)%Z = Some (xc (2#10) (1#10) 6) /\
    option_map (fun v => fst (nc_rest v))
      (merged xmerge (landing 8 (0, 0)%Z (getValidCells (n_vox xgrid)))) = Some 21%positive.
Proof.
  eexists. split; [vm_compute; reflexivity|]. repeat split; vm_compute; reflexivity.
Qed.
Print Assumptions C28_coarser_merges_refuted.

(** ** C29 *)
Theorem C29_occupancy_export {X L} (raw : ncell X -> Q) (btw : qpose -> qpose -> qtrans L)
  (tp : qtrans L -> point -> point) (g : ngrid X) : wf (n_vox g) ->
  let o := createOccupancyGrid raw btw tp g in
  length (oc_cells o) = oc_width o * oc_height o /\
  oc_width o = width (n_vox g) /\ oc_height o = height (n_vox g) /\
  oc_origin o = tp (btw (n_pose g) (mkPose 0 0 0))
                   (inject_Z (- Z.of_nat (w_left (n_vox g))) * n_cs g,
                    inject_Z (Z.of_nat (h_up (n_vox g))) * n_cs g)%Q /\
  oc_theta o = p_th (n_pose g) /\ oc_res o = n_cs g /\
  forall col row, col < oc_width o -> row < oc_height o ->
    nth_error (oc_cells o) (row * oc_width o + col) =
    Some (match content (n_vox g) (Z.of_nat col - Z.of_nat (w_left (n_vox g)),
                                   Z.of_nat (h_up (n_vox g)) - Z.of_nat row)%Z with
          | None => (-1)%Z
          | Some c => if Qlt_b (8#10) (raw c) then 99%Z else 0%Z
          end).
Proof. exact (occ_cells_spec raw btw tp g). Qed.
Print Assumptions C29_occupancy_export.
Example C29_example : wf (n_vox xgrid) /\
  oc_cells (createOccupancyGrid (fun v : xcell => snd (nc_rest v)) xbtw xtp xsmall) =
    [99; -1; -1; -1; 0; 0]%Z /\ oc_width (createOccupancyGrid
      (fun v : xcell => snd (nc_rest v)) xbtw xtp xsmall) = 3.
Proof. split; [exact (proj1 xgrid_nwf)|]. split; vm_compute; reflexivity. Qed.

(** ** C30 *)
(** With no column left of the centre the reported origin is the world position
    of the centre of the left upper cell. *)
Theorem C30_serialized_origin_partial {X L} (btw : qpose -> qpose -> qtrans L)
  (tp : qtrans L -> point -> point) (g : ngrid X) : w_left (n_vox g) = 0 ->
  gm_origin (n_serialize btw tp g) =
  tp (btw (n_pose g) (mkPose 0 0 0)) (inject_Z 0 * n_cs g, qn (h_up (n_vox g)) * n_cs g)%Q.
Proof. exact (serialize_origin btw tp g). Qed.
Print Assumptions C30_serialized_origin_partial.
(** Every other grid reports a place 2^64 cells to the right of it. *)
Theorem C30_serialized_origin_refuted {X L} (btw : qpose -> qpose -> qtrans L)
  (tp : qtrans L -> point -> point) (g : ngrid X) : 0 < w_left (n_vox g) ->
  (Z.of_nat (w_left (n_vox g)) < 2 ^ 64)%Z ->
  gm_origin (n_serialize btw tp g) =
  tp (btw (n_pose g) (mkPose 0 0 0))
     (inject_Z (2 ^ 64 - Z.of_nat (w_left (n_vox g))) * n_cs g, qn (h_up (n_vox g)) * n_cs g)%Q.
Proof. exact (serialize_wrapped btw tp g). Qed.
Print Assumptions C30_serialized_origin_refuted.
Example C30_example : w_left (n_vox xgrid) = 2 /\ w_left (n_vox xfresh) = 0.
Proof. split; reflexivity. Qed.

(** ** C72 *)
(** For a point inside the window and a positive radius, the radius search
    returns exactly the gaussian cells whose mean is within the radius. *)
Theorem C72_radius_search_partial {X} (g : ngrid X) p c r : nwf g -> anchored g ->
  in_cell (n_cs g) c p -> in_box (n_vox g) c = true -> (0 < r)%Q ->
  exists l, n_getNeighbors g p r = Ok (map (slot_of (n_vox g)) l) /\ NoDup l /\
    forall d, In d l <->
      exists v, content (n_vox g) d = Some v /\ nc_gauss v = true /\
        ((fst (nc_mean v) - fst p) * (fst (nc_mean v) - fst p) +
         (snd (nc_mean v) - snd p) * (snd (nc_mean v) - snd p) <= r * r)%Q.
Proof. exact (radius_exact g p c r). Qed.
Print Assumptions C72_radius_search_partial.
Theorem C72_own_cell {X} (g : ngrid X) p c r : nwf g ->
  in_cell (n_cs g) c p -> in_box (n_vox g) c = true -> (r <= 0)%Q ->
  n_getNeighbors g p r =
  Ok (match content (n_vox g) c with
      | Some v => if nc_gauss v then [slot_of (n_vox g) c] else []
      | None => [] end).
Proof. exact (radius_zero g p c r). Qed.
Print Assumptions C72_own_cell.
(** Outside the window nothing is found, however near the cells are. *)
Theorem C72_radius_search_refuted :
  n_getNeighbors xgrid (-26#10, 3#10)%Q 3 = Ok [] /\
  content (n_vox xgrid) (-2, 0)%Z = Some (xc (-16#10) (3#10) 8).
Proof. split; vm_compute; reflexivity. Qed.
Print Assumptions C72_radius_search_refuted.
Example C72_example : nwf xgrid /\ anchored xgrid /\
  in_cell (n_cs xgrid) (0, 0)%Z (1#10, 1#10)%Q /\ in_box (n_vox xgrid) (0, 0)%Z = true /\
  n_getNeighbors xgrid (1#10, 1#10)%Q 2 =
    Ok (map (slot_of (n_vox xgrid)) [(-2, 0); (0, 0)]%Z).
Proof.
  split; [exact xgrid_nwf|]. split; [exact xgrid_anchored|].
  split; [vm_compute; repeat split; discriminate|]. split; vm_compute; reflexivity.
Qed.

(** ** C73 *)
(** Any history of merging, moving, enlarging, clearing and relabelling a new
    grid is defined, keeps every gaussian cell in the square its mean lies in,
    and (without clear) keeps the cloud of means up to date. *)
Theorem C73_history {X L} (mrg : ncell X -> ncell X -> ncell X) (dflt : ncell X)
  ts cs (ops : list (gop X L)) : (0 < cs)%Q -> nc_gauss dflt = false ->
  merge_stays mrg -> (forall o, In o ops -> gop_ok cs o) ->
  exists g, grun mrg (n_setCellSize (n_new dflt ts) cs) ops = Ok g /\
    nwf g /\ n_cs g = cs /\ anchored g /\ (~ In GClear ops -> cloud_current g).
Proof. exact (history mrg dflt ts cs ops). Qed.
Print Assumptions C73_history.
Example C73_example : nc_gauss xdflt = false /\ merge_stays xmerge /\
  (forall o, In o xops -> gop_ok 1 o) /\ ~ In GClear xops /\
  exists g, grun xmerge (n_setCellSize (n_new xdflt 0) 1) xops = Ok g /\
            length (gaussians g) = 3.
Proof.
  split; [reflexivity|]. split; [exact xmerge_stays|]. split; [exact xops_ok|].
  split; [intros [H|[H|[H|[]]]]; discriminate|].
  eexists. split; vm_compute; reflexivity.
Qed.
(** clear() leaves the old cloud behind: the neighbour search then returns null. *)
Theorem C73_cloud_after_clear_refuted :
  exists g, gstep (L := unit) xmerge xgrid GClear = Ok g /\
    gaussians g = [] /\ n_means g = Some [(23#10, 12#10); (-16#10, 3#10); (2#10, 1#10)]%Q /\
    getKNearest (fun _ _ _ => [0]) g (0, 0)%Q 1 = Ok [None].
Proof. eexists. split; [reflexivity|]. repeat split; vm_compute; reflexivity. Qed.
Print Assumptions C73_cloud_after_clear_refuted.

(** ** C74 *)
(** Whatever indices the kd-tree answers, the neighbours returned are existing
    gaussian cells whose mean is the point of the cloud with that index. *)
Theorem C74_nearest {X} search (g : ngrid X) p K : nwf g -> anchored g -> cloud_current g ->
  exists ms, n_means g = Some ms /\
  ((forall i, In i (search ms p K) -> i < length ms) ->
   exists cs, getKNearest search g p K = Ok (map Some cs) /\
    Forall2 (fun i v => nth_error ms i = Some (nc_mean v) /\ nc_gauss v = true /\
                        exists c, content (n_vox g) c = Some v) (search ms p K) cs).
Proof. exact (knn_spec search g p K). Qed.
Print Assumptions C74_nearest.
Example C74_example : nwf xgrid /\ anchored xgrid /\ cloud_current xgrid /\
  getKNearest (fun _ _ _ => [2; 0]) xgrid (0, 0)%Q 2 =
    Ok [Some (xc (2#10) (1#10) 6); Some (xc (23#10) (12#10) 7)].
Proof.
  split; [exact xgrid_nwf|]. split; [exact xgrid_anchored|]. split; [exact xgrid_cloud|].
  vm_compute. reflexivity.
Qed.

(** ** C75 *)
(** Every point of a scan is added to exactly the square it lies in, points with
    NaN are dropped, and the square around the sensor exists even when empty. *)
Theorem C75_scan_partition {X} (mrg : ncell X -> ncell X -> ncell X) (dflt : ncell X)
  (addPt : ncell X -> point -> ncell X) (compute : ncell X -> ncell X)
  (g : ngrid X) pcl : (0 < n_cs g)%Q ->
  (forall p, In (Some p) pcl -> off_border (n_cs g) p) ->
  exists g', createGrid mrg dflt addPt compute g pcl = Ok g' /\ nwf g' /\
    n_cs g' = n_cs g /\ n_pose g' = n_pose g /\
    forall c, content (n_vox g') c =
      match points_in (n_cs g) c pcl with
      | [] => if pcell_eqb c (0, 0)%Z then Some (compute dflt) else None
      | ps => Some (compute (fold_left addPt ps dflt))
      end.
Proof. exact (createGrid_spec mrg dflt addPt compute g pcl). Qed.
Print Assumptions C75_scan_partition.
Example C75_example :
  (forall p, In (Some p) xscan -> off_border (n_cs xfresh) p) /\
  points_in (n_cs xfresh) (3, 1)%Z xscan = [(31#10, 12#10); (28#10, 7#10)]%Q.
Proof. split; [exact xscan_off|vm_compute; reflexivity]. Qed.

(** ** C76 *)
(** Merging a grid with free-space tracing: only cells on the segments from the
    sensor to the incoming gaussian cells, strictly before their end, are
    touched; they keep their mean and get no distribution, but may lose theirs; then the cells are merged as in C27.
    Proved for rays of at least one cell starting inside the window. *)
Theorem C76_traced_merge_partial {X L} (mrg : ncell X -> ncell X -> ncell X) (dflt : ncell X)
  (occRay : ncell X -> point -> ncell X -> ncell X) (tcell : qtrans L -> ncell X -> ncell X)
  (btw : qpose -> qpose -> qtrans L) (tp : qtrans L -> point -> point)
  (g other : ngrid X) (transform : bool) (c0 : pcell) :
  let l := (if transform then map (tcell (btw (n_pose other) (n_pose g)))
                                  (getValidCells (n_vox other))
            else getValidCells (n_vox other)) in
  let start := tp (btw (n_pose other) (n_pose g)) (0, 0)%Q in
  nwf g -> n_init g = true -> occ_only occRay ->
  in_cell (n_cs g) c0 start -> in_box (n_vox g) c0 = true ->
  rays_ok (n_cs g) start l -> off_borders (n_cs g) l ->
  exists g' mid, mergeInTraced mrg dflt tcell occRay btw tp g other transform false = Ok g' /\
    nwf g' /\ same_header g g' /\ same_window (n_vox g) (n_vox g') /\ cloud_current g' /\
    traced dflt (n_cs g) start l (content (n_vox g)) mid /\
    forall c, content (n_vox g') c =
      if in_box (n_vox g) c then accumulate mrg (mid c) (landing (n_cs g) c l) else None.
Proof. exact (mergeInTraced_keep mrg dflt occRay tcell btw tp g other transform c0). Qed.
Print Assumptions C76_traced_merge_partial.
Theorem C76_traced_resize_partial {X L} (mrg : ncell X -> ncell X -> ncell X) (dflt : ncell X)
  (occRay : ncell X -> point -> ncell X -> ncell X) (tcell : qtrans L -> ncell X -> ncell X)
  (btw : qpose -> qpose -> qtrans L) (tp : qtrans L -> point -> point)
  (g other : ngrid X) (transform resize : bool) (c0 : pcell) :
  let l := (if transform then map (tcell (btw (n_pose other) (n_pose g)))
                                  (getValidCells (n_vox other))
            else getValidCells (n_vox other)) in
  let start := tp (btw (n_pose other) (n_pose g)) (0, 0)%Q in
  nwf g -> resize = true \/ n_init g = false -> occ_only occRay ->
  in_cell (n_cs g) c0 start -> in_box (n_vox g) c0 = true ->
  rays_ok (n_cs g) start l -> off_borders (n_cs g) l ->
  exists g' mid, mergeInTraced mrg dflt tcell occRay btw tp g other transform resize = Ok g' /\
    nwf g' /\ same_header g g' /\ grows (n_vox g) (n_vox g') /\ cloud_current g' /\
    traced dflt (n_cs g) start l (content (n_vox g)) mid /\
    forall c, content (n_vox g') c = latest (mid c) (landing (n_cs g) c l).
Proof. exact (mergeInTraced_replace mrg dflt occRay tcell btw tp g other transform resize c0). Qed.
Print Assumptions C76_traced_resize_partial.
Example C76_example :
  let l := map (xtcell (xbtw (n_pose xother) (n_pose xgrid))) (getValidCells (n_vox xother)) in
  let start := xtp (xbtw (n_pose xother) (n_pose xgrid)) (0, 0)%Q in
  nwf xgrid /\ n_init xgrid = true /\ occ_only xray /\
  in_cell (n_cs xgrid) (1, 0)%Z start /\ in_box (n_vox xgrid) (1, 0)%Z = true /\
  rays_ok (n_cs xgrid) start l /\ off_borders (n_cs xgrid) l /\
  exists g', mergeInTraced xmerge xdflt xtcell xray xbtw xtp xgrid xother true false = Ok g' /\
    option_map (fun v => fst (nc_rest v)) (content (n_vox g') (2, 1)%Z) = Some 13%positive /\
    option_map (fun v => (Qred (snd (nc_rest v)))) (content (n_vox g') (0, 0)%Z)
      = Some (4#5)%Q.
Proof.
  cbv zeta. split; [exact xgrid_nwf|]. split; [reflexivity|]. split; [exact xray_occ_only|].
  split; [vm_compute; repeat split; discriminate|]. split; [reflexivity|].
  split; [exact xother_rays|]. split; [exact xother_off|].
  eexists. split; [vm_compute; reflexivity|]. split; vm_compute; reflexivity.
Qed.
