(** Model of NDTGrid2D (INC/ndt/ndt_grid2d.h) on top of the voxel grid.

    A cell is its planar mean, its has-gaussian flag and an arbitrary rest
    (covariance, occupancy, points, ...).  The operations of the cell type
    (merge, default value, adding a point, computeGaussian, transform,
    updateOccupancy, raw occupancy) are parameters: CellModel.v models the ones
    of NDTCell.  Simplifications: coordinates are exact rationals, NaN points of
    a scan are [None], the z coordinate is part of the rest, and the kd-tree is
    an arbitrary function from the cloud of means to indices. *)
From Coq Require Import List ZArith QArith Qround Qabs Bool.
From Verif Require Import Base VoxelModel.
Import ListNotations.
Open Scope nat_scope.

Record ncell (X : Type) := mkC { nc_mean : point; nc_gauss : bool; nc_rest : X }.
Arguments mkC {X}. Arguments nc_mean {X}. Arguments nc_gauss {X}. Arguments nc_rest {X}.

(** x, y, theta *)
Record qpose := mkPose { p_x : Q; p_y : Q; p_th : Q }.

(** A planar transform: an uninterpreted linear part and a translation *)
Record qtrans (L : Type) := mkTr { tr_lin : L; tr_x : Q; tr_y : Q }.
Arguments mkTr {L}. Arguments tr_lin {L}. Arguments tr_x {L}. Arguments tr_y {L}.

(** ndt_grid2d.h:410-416 (fields).  [n_means] is [None] while the shared pointer
    is null; the kd-tree always indexes the same cloud (427-431). *)
Record ngrid (X : Type) := mkN {
  n_pose : qpose;
  n_cs : Q;
  n_init : bool;
  n_time : Q;
  n_vox : vgrid (ncell X);
  n_means : option (list point)
}.
Arguments mkN {X}. Arguments n_pose {X}. Arguments n_cs {X}. Arguments n_init {X}.
Arguments n_time {X}. Arguments n_vox {X}. Arguments n_means {X}.

(** point_cloud_tools.h:36-46 and 53-64: bounding box of a list of positions,
    starting from the origin: (minx, miny, maxx, maxy) *)
Definition bbox_step (b : Q * Q * Q * Q) (p : point) : Q * Q * Q * Q :=
  let '(x0, y0, x1, y1) := b in
  (if Qlt_b (fst p) x0 then fst p else x0,
   if Qlt_b (snd p) y0 then snd p else y0,
   if Qlt_b x1 (fst p) then fst p else x1,
   if Qlt_b y1 (snd p) then snd p else y1).
Definition bbox (l : list point) : Q * Q * Q * Q := fold_left bbox_step l (0, 0, 0, 0)%Q.

Section Grid.
Context {X L : Type}.
Notation cell := (ncell X).
Notation grid := (ngrid X).
Variable merge : cell -> cell -> cell.                 (* NDTCell::operator+= *)
Variable dflt : cell.                                  (* NDTCell() *)
Variable addPt : cell -> point -> cell.                (* NDTCell::addPoint *)
Variable compute : cell -> cell.                       (* NDTCell::computeGaussian *)
Variable tcell : qtrans L -> cell -> cell.             (* NDTCell::transform *)
Variable occRay : cell -> point -> cell -> cell.       (* updateOccupancy(start, end cell) *)
Variable rawOcc : cell -> Q.                           (* getOccupancyRaw *)
Variable btwFrames : qpose -> qpose -> qtrans L.       (* eigt::transBtwFrames *)
Variable tpoint : qtrans L -> point -> point.          (* Transform * Vector2d *)
Variable noLin : L.                                    (* identity linear part *)
Variable moveOrigin : qpose -> qtrans L -> qpose.      (* eigt::transformPose *)

Definition with_vox (g : grid) (v : vgrid cell) : grid :=
  mkN (n_pose g) (n_cs g) (n_init g) (n_time g) v (n_means g).

(** ndt_grid2d.h:439-450 *)
Definition n_new (ts : Q) : grid :=
  mkN (mkPose 0 0 0) (1#4) false ts (setCellSize (vempty dflt) (1#4)) (Some []).

(** ndt_grid2d.h:452-462: [means_] stays a null pointer *)
Definition n_new_at (o : qpose) (ts : Q) : grid :=
  mkN o (1#4) false ts (setCellSize (vempty dflt) (1#4)) None.

(** ndt_grid2d.h:156-160 *)
Definition n_setCellSize (g : grid) (cs : Q) : grid :=
  mkN (n_pose g) cs (n_init g) (n_time g) (setCellSize (n_vox g) cs) (n_means g).

(** ndt_grid2d.h:187-190 *)
Definition n_setOrigin (g : grid) (o : qpose) : grid :=
  mkN o (n_cs g) (n_init g) (n_time g) (n_vox g) (n_means g).

(** ndt_grid2d.h:212-215 *)
Definition n_setTimestamp (g : grid) (ts : Q) : grid :=
  mkN (n_pose g) (n_cs g) (n_init g) ts (n_vox g) (n_means g).

(** ndt_grid2d.h:120-123 *)
Definition n_enlarge (g : grid) (lft dwn rgt upp : Q) : res grid :=
  do v <- enlarge (n_vox g) lft dwn rgt upp; Ok (with_vox g v).

(** ndt_grid2d.h:754-765: the gaussian cells in storage order *)
Definition getGaussianCells (g : grid) : list cell :=
  filter nc_gauss (getValidCells (n_vox g)).

(** ndt_grid2d.h:981-993 followed by 427-431 *)
Definition updateMeans (g : grid) : grid :=
  mkN (n_pose g) (n_cs g) (n_init g) (n_time g) (n_vox g)
      (Some (map nc_mean (getGaussianCells g))).

(** ndt_grid2d.h:492-519 *)
Definition mergeInCells (g : grid) (cs : list cell) (resize : bool) : res grid :=
  if resize || negb (n_init g) then
    let '(x0, y0, x1, y1) := bbox (map nc_mean cs) in
    do v0 <- enlarge (n_vox g) x0 y0 x1 y1;
    do v1 <- foldM (fun v c => if nc_gauss c then addCell merge v (nc_mean c) c false
                               else Ok v) cs v0;
    Ok (updateMeans (mkN (n_pose g) (n_cs g) true (n_time g) v1 (n_means g)))
  else
    do v1 <- foldM (fun v c => if nc_gauss c then
                                 if isInside v (nc_mean c)
                                 then addCell merge v (nc_mean c) c true else Ok v
                               else Ok v) cs (n_vox g);
    Ok (updateMeans (with_vox g v1)).

(** ndt_grid2d.h:922-930 *)
Definition transformNDTCells (cs : list cell) (t : qtrans L) : list cell := map (tcell t) cs.

(** ndt_grid2d.h:477-490 *)
Definition mergeInGrid (g other : grid) (transform resize : bool) : res grid :=
  let occupied := getValidCells (n_vox other) in
  let occupied := if transform
                  then transformNDTCells occupied (btwFrames (n_pose other) (n_pose g))
                  else occupied in
  mergeInCells g occupied resize.

(** ndt_grid2d.h:583-586: apply updateOccupancy to every cell on the ray.  The
    ray's cells exist, so a missing one would be a null dereference. *)
Definition occSlots (v : vgrid cell) (start : point) (e : cell) (slots : list nat)
  : res (vgrid cell) :=
  do l <- foldM (fun l i => do o <- vget l i;
                            match o with
                            | Some c => vset l i (Some (occRay c start e))
                            | None => UB
                            end) slots (cells v);
  Ok (with_cells v l).

(** ndt_grid2d.h:576-588 *)
Definition traceCell (start : point) (v : vgrid cell) (e : cell) : res (vgrid cell) :=
  if nc_gauss e then
    do r <- rayTrace dflt v start (nc_mean e);
    occSlots (fst r) start e (snd r)
  else Ok v.

(** ndt_grid2d.h:560-595 *)
Definition mergeInTraced (g other : grid) (transform resize : bool) : res grid :=
  let occupied := getValidCells (n_vox other) in
  let trans := btwFrames (n_pose other) (n_pose g) in
  let start := tpoint trans (0, 0)%Q in
  let occupied := if transform then transformNDTCells occupied trans else occupied in
  do v <- foldM (traceCell start) occupied (n_vox g);
  mergeInCells (with_vox g v) occupied resize.

(** ndt_grid2d.h:611-623 ([grid_[p]] dereferences the slot of p) *)
Definition updAt (v : vgrid cell) (p : point) (f : cell -> cell) : res (vgrid cell) :=
  do i <- calcIndex v p;
  do o <- vget (cells v) i;
  match o with
  | Some c => Ok (with_cells v (upd (cells v) i (Some (f c))))
  | None => UB
  end.
Definition addPoint (v : vgrid cell) (p : point) : res (vgrid cell) :=
  do e <- cellExists v p;
  if e then updAt v p (fun c => addPt c p)
  else do v1 <- addCell merge v p dflt false; updAt v1 p (fun c => addPt c p).

(** ndt_grid2d.h:625-631 *)
Definition computeNDTCells (v : vgrid cell) : vgrid cell :=
  with_cells v (map (option_map compute) (cells v)).

(** ndt_grid2d.h:899-920.  A point with a NaN coordinate is [None]; it takes no
    part in the comparisons of getMinMax2D either. *)
Definition reals (pcl : list (option point)) : list point :=
  flat_map (fun o => match o with Some p => [p] | None => [] end) pcl.
Definition createGrid (g : grid) (pcl : list (option point)) : res grid :=
  let l := n_setOrigin (n_setCellSize (n_new 0) (n_cs g)) (n_pose g) in
  let '(x0, y0, x1, y1) := bbox (reals pcl) in
  do v0 <- enlarge (n_vox l) x0 y0 x1 y1;
  do v1 <- foldM (fun v o => match o with Some p => addPoint v p | None => Ok v end) pcl v0;
  Ok (with_vox l (computeNDTCells v1)).

(** ndt_grid2d.h:464-475 *)
Definition transPcl (t : qtrans L) (pcl : list (option point)) : list (option point) :=
  map (option_map (tpoint t)) pcl.
Definition mergeInPcl (g : grid) (pcl : list (option point)) (o : qpose) (resize : bool)
  : res grid :=
  do l <- createGrid g (transPcl (btwFrames o (n_pose g)) pcl);
  mergeInGrid g l false resize.

(** ndt_grid2d.h:546-558 *)
Definition mergeInTracedPcl (g : grid) (pcl : list (option point)) (o : qpose) (resize : bool)
  : res grid :=
  do l <- createGrid g (transPcl (btwFrames o (n_pose g)) pcl);
  mergeInTraced g (n_setOrigin l o) false resize.

(** ndt_grid2d.h:394-398 *)
Definition n_clear (g : grid) : grid :=
  mkN (n_pose g) (n_cs g) false (n_time g) (clear (n_vox g)) (n_means g).

(** ndt_grid2d.h:597-602 ([initialized_] is not reset here) *)
Definition n_initialize (g : grid) (pcl : list (option point)) : res grid :=
  mergeInTracedPcl (with_vox g (clear (n_vox g))) pcl (n_pose g) true.
(** ndt_grid2d.h:604-609 *)
Definition n_initializeSimple (g : grid) (pcl : list (option point)) : res grid :=
  mergeInPcl (with_vox g (clear (n_vox g))) pcl (n_pose g) true.

(** ndt_grid2d.h:633-658.  norm <= radius is compared through the squares, which
    is the same for radius > 0.  Returns slot indices. *)
Definition sq_dist (a b : point) : Q :=
  ((fst a - fst b) * (fst a - fst b) + (snd a - snd b) * (snd a - snd b))%Q.
Definition slotCell (v : vgrid cell) (i : nat) : option cell := nth i (cells v) None.
Definition n_getNeighbors (g : grid) (p : point) (radius : Q) : res (list nat) :=
  if Qle_bool radius 0 then
    do l <- getNeighbors (n_vox g) p 0;
    Ok (filter (fun i => match slotCell (n_vox g) i with
                         | Some c => nc_gauss c | None => false end) l)
  else
    do l <- getNeighbors (n_vox g) p (Z.to_nat (Qceiling (radius / n_cs g)));
    Ok (filter (fun i => match slotCell (n_vox g) i with
                         | Some c => nc_gauss c && Qle_bool (sq_dist (nc_mean c) p)
                                                            (radius * radius)
                         | None => false end) l).

(** ndt_grid2d.h:960-979: [search] stands for the kd-tree *)
Definition getKNearest (search : list point -> point -> nat -> list nat)
  (g : grid) (p : point) (K : nat) : res (list (option cell)) :=
  match n_means g with
  | None => UB
  | Some ms =>
      foldM (fun acc i => do m <- vget ms i;          (* means_->at(i) *)
                          do c <- getCellPtr (n_vox g) m;
                          Ok (acc ++ [c])) (search ms p K) []
  end.

(** ndt_grid2d.h:698-710 *)
Definition n_isInside (g : grid) (p : point) : res bool := cellExists (n_vox g) p.

(** ndt_grid2d.h:712-738 (the world transform is eigt::transBtwFrames(origin, 0)) *)
Record occ_grid := mkOcc {
  oc_origin : point; oc_theta : Q; oc_centroid : point;
  oc_width : nat; oc_height : nat; oc_res : Q; oc_cells : list Z
}.
Definition occ_entry (o : option cell) : Z :=
  match o with
  | None => (-1)%Z
  | Some c => if Qlt_b (8#10) (rawOcc c) then 99%Z else 0%Z
  end.
Definition createOccupancyGrid (g : grid) : occ_grid :=
  let v := n_vox g in
  let corner := (- qn (w_left v) * n_cs g, qn (h_up v) * n_cs g)%Q in
  mkOcc (tpoint (btwFrames (n_pose g) (mkPose 0 0 0)) corner) (p_th (n_pose g))
        (qn (w_left v) * n_cs g, qn (h_up v) * n_cs g)%Q
        (width v) (height v) (n_cs g)
        (fold_left (fun acc o => acc ++ [occ_entry o]) (cells v) []).

(** ndt_grid2d.h:740-752 *)
Definition createCoarserGrid (g : grid) (cs : Q) : res grid :=
  let cs' := if Qlt_b cs (n_cs g) then n_cs g else cs in
  mergeInCells (n_setCellSize (n_new 0) cs') (getValidCells (n_vox g)) true.

(** ndt_grid2d.h:767-787 *)
Definition n_transform (g : grid) (t : qtrans L) : res grid :=
  let cs := transformNDTCells (getValidCells (n_vox g)) (mkTr (tr_lin t) 0 0) in
  do v <- foldM (fun v c => if nc_gauss c then addCell merge v (nc_mean c) c true else Ok v)
                cs (clear (n_vox g));
  Ok (updateMeans (mkN (moveOrigin (n_pose g) (mkTr noLin (tr_x t) (tr_y t)))
                       (n_cs g) (n_init g) (n_time g) v (n_means g))).

(** ndt_grid2d.h:809-832: whole cells moved along one axis.  The conversion to
    int and the later negation are undefined outside of the int range. *)
Definition to_int (z : Z) : res Z :=
  if ((- 2 ^ 31 <? z) && (z <? 2 ^ 31))%Z then Ok z else UB.
Definition axisMove (cs t : Q) : res (option Z) :=
  if (0 <? Qfloor (Qabs t / cs))%Z then
    do k <- to_int (if Qlt_b (t / cs) 0 then Qceiling (t / cs) else Qfloor (t / cs));
    Ok (Some k)
  else Ok None.
Definition steps (o : option Z) : Z := match o with Some k => k | None => 0%Z end.
Definition axisRest (cs t : Q) (o : option Z) : Q :=
  match o with Some k => (t - inject_Z k * cs)%Q | None => t end.

(** ndt_grid2d.h:844-850: every gaussian cell is visited once *)
Definition shiftMean (dx dy : Q) (c : cell) : cell :=
  if nc_gauss c
  then mkC (fst (nc_mean c) + - dx, snd (nc_mean c) + - dy)%Q (nc_gauss c) (nc_rest c)
  else c.

(** ndt_grid2d.h:789-857 *)
Definition n_move (g : grid) (t : qtrans L) : res (grid * qtrans L) :=
  if Qlt_b (1 # 10000000) (Qabs (p_th (n_pose g))) then Ok (g, t)
  else
    do kx <- axisMove (n_cs g) (tr_x t);
    do ky <- axisMove (n_cs g) (tr_y t);
    let out := mkTr (tr_lin t) (axisRest (n_cs g) (tr_x t) kx)
                               (axisRest (n_cs g) (tr_y t) ky) in
    match kx, ky with
    | None, None => Ok (g, out)
    | _, _ =>
        let dx := (inject_Z (steps kx) * n_cs g)%Q in
        let dy := (inject_Z (steps ky) * n_cs g)%Q in
        do v <- translate (n_vox g) (- steps kx) (- steps ky) true;
        let v' := with_cells v (map (option_map (shiftMean dx dy)) (cells v)) in
        let o := n_pose g in
        Ok (updateMeans (mkN (mkPose (p_x o + dx) (p_y o + dy) (p_th o)) (n_cs g)
                             (n_init g) (n_time g) v' (n_means g)), out)
    end.

(** ndt_grid2d.h:859-874.  [-grid_.left()] negates a size_t. *)
Record grid_msg := mkMsg {
  gm_origin : point; gm_size : Q * Q; gm_cell : Q; gm_cells : list cell
}.
Definition n_serialize (g : grid) : grid_msg :=
  let v := n_vox g in
  let corner := (inject_Z (u64 (- Z.of_nat (w_left v))) * n_cs g,
                 qn (h_up v) * n_cs g)%Q in
  mkMsg (tpoint (btwFrames (n_pose g) (mkPose 0 0 0)) corner)
        (qn (width v) * n_cs g, qn (height v) * n_cs g)%Q (n_cs g)
        (getValidCells v).

(** ndt_grid2d.h:375-378 and 384-389 *)
Definition getRadius (g : grid) : Q :=
  (qn (width (n_vox g)) * n_cs g + qn (height (n_vox g)) * n_cs g / 4)%Q.
Definition getCentroid (g : grid) : point :=
  (qn (w_right (n_vox g)) * n_cs g - qn (w_left (n_vox g)) * n_cs g,
   qn (h_up (n_vox g)) * n_cs g - qn (h_down (n_vox g)) * n_cs g)%Q.

End Grid.
