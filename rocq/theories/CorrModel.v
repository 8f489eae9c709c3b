(** Model of the correlative registration:
    registration/correlative_estimation_tools.h (smoothing kernel, lookup table)
    and registration/correlative_estimation2d.h (the search), both under
    ndt_gslam/include/ndt_gslam.

    Numbers are reals; float rounding and overflow of the table dimensions are
    not modelled.  Table indexes are integers; an index outside the storage is
    undefined.  The code computes them modulo 2^64, which takes an index that
    would be negative far outside the storage as well. *)
From Coq Require Import Reals ZArith List Bool.
From Verif Require Import Base LinAlg3 GeoModel OptModel RegModel.
Import ListNotations.
Open Scope R_scope.

(** std::floor, std::ceil, std::lround *)
Definition floorR (x : R) : Z := Int_part x.
Definition ceilR (x : R) : Z := (- Int_part (- x))%Z.
Definition lroundR (x : R) : Z :=
  if Rle_dec 0 x then Int_part (x + 1 / 2) else (- Int_part (- x + 1 / 2))%Z.
(** for (int i = a; i <= b; ++i) *)
Definition zrange (a b : Z) : list Z := map (fun i => (a + Z.of_nat i)%Z) (seq 0 (Z.to_nat (b - a + 1))).
(** vector access with an integer index *)
Definition zget {A} (l : list A) (i : Z) : res A := if (i <? 0)%Z then UB else vget l (Z.to_nat i).
Definition zset {A} (l : list A) (i : Z) (v : A) : res (list A) :=
  if (i <? 0)%Z then UB else vset l (Z.to_nat i) v.

(** ** Smoothing kernel *)
Record kernel := mkK { k_half : Z; k_vals : list Z }.
Definition k_size (k : kernel) : Z := (2 * k_half k + 1)%Z.
(** correlative_estimation_tools.h:95-120, initKernel.  The assertion of line 116
    (values below 255) is not modelled: the value is at most [occupancy]. *)
Definition initKernel (resolution : R) (occupancy : Z) (std_deviation : R) : kernel :=
  let sd0 := if Rlt_dec std_deviation (1 / 2 * resolution) then 1 / 2 * resolution else std_deviation in
  let sd := if Rlt_dec (10 * resolution) std_deviation then 10 * resolution else sd0 in
  let half := lroundR (2 * sd / resolution) in
  mkK half
    (flat_map (fun row => map (fun col =>
        let euclidean_dist := sqrt ((IZR col * resolution) ^ 2 + (IZR row * resolution) ^ 2) in
        lroundR (exp (- (1 / 2) * (euclidean_dist / sd) ^ 2) * IZR occupancy))
      (zrange (- half) half)) (zrange (- half) half)).
(** correlative_estimation_tools.h:80-84, operator() *)
Definition kAt (k : kernel) (row col : Z) : res Z :=
  zget (k_vals k) ((row + k_half k) * k_size k + col + k_half k).

(** ** Lookup table *)
(** correlative_estimation_tools.h:223-234; cell_count_row_ is the length of a
    row, cell_count_col_ the length of a column *)
Record lut := mkLut { l_step : R; l_half : R; l_minx : R; l_miny : R; l_maxx : R; l_maxy : R;
                      l_row : Z; l_col : Z; l_border : Z; l_points : nat; l_table : list Z }.
Definition OCCUPIED : Z := 100.

(** correlative_estimation_tools.h:455-471, getMinMax2D *)
Definition minMaxR (pcl : list P2) : R * R * R * R :=
  fold_left (fun (b : R * R * R * R) (p : P2) =>
      let '(minx, miny, maxx, maxy) := b in
      let minx := if Rlt_dec (fst p) minx then fst p else minx in
      let maxx := if Rlt_dec maxx (fst p) then fst p else maxx in
      let miny := if Rlt_dec (snd p) miny then snd p else miny in
      let maxy := if Rlt_dec maxy (snd p) then snd p else maxy in
      (minx, miny, maxx, maxy)) pcl (0, 0, 0, 0).

(** the test of lines 385-386 and 439 *)
Definition insideBox (t : lut) (p : P2) : bool :=
  (if Rlt_dec (fst p) (l_maxx t) then true else false) && (if Rlt_dec (snd p) (l_maxy t) then true else false) &&
  (if Rlt_dec (l_minx t) (fst p) then true else false) && (if Rlt_dec (l_miny t) (snd p) then true else false).

(** correlative_estimation_tools.h:403-413, getCellIdx(pt): the column and row
    of a point and its index.  Converting a negative number to size_t is
    undefined. *)
Definition colOf (t : lut) (x : R) : Z := (floorR ((x - l_minx t + l_half t) / l_step t) + l_border t)%Z.
Definition rowOf (t : lut) (y : R) : Z := (floorR ((- y + l_maxy t + l_half t) / l_step t) + l_border t)%Z.
Definition ptIdx (t : lut) (p : P2) : res Z :=
  let x_id := colOf t (fst p) in
  let y_id := rowOf t (snd p) in
  if (x_id <? 0)%Z || (y_id <? 0)%Z then UB else Ok (y_id * l_row t + x_id)%Z.
(** correlative_estimation_tools.h:415-419, getCellIdx(row, col) *)
Definition cellIdx (t : lut) (row col : Z) : Z := (row * l_row t + col)%Z.

Definition withTable (t : lut) (tab : list Z) : lut :=
  mkLut (l_step t) (l_half t) (l_minx t) (l_miny t) (l_maxx t) (l_maxy t) (l_row t) (l_col t)
        (l_border t) (l_points t) tab.

(** correlative_estimation_tools.h:421-434, applyKernel *)
Definition applyKernel (k : kernel) (t : lut) (row col : Z) : res lut :=
  do tab <- foldM (fun tab (rc : Z * Z) =>
      let idx := cellIdx t (row + fst rc) (col + snd rc) in
      do kernel_val <- kAt k (fst rc) (snd rc);
      do old <- zget tab idx;
      if (old <? kernel_val)%Z then zset tab idx kernel_val else Ok tab)
    (list_prod (zrange (- k_half k) (k_half k)) (zrange (- k_half k) (k_half k))) (l_table t);
  Ok (withTable t tab).

(** correlative_estimation_tools.h:371-401, initGridWindowFce *)
Definition markPoints (t : lut) (target : list P2) : res lut :=
  foldM (fun t p =>
      if insideBox t p then
        do idx <- ptIdx t p;
        do tab <- zset (l_table t) idx OCCUPIED;
        Ok (withTable t tab)
      else Ok t) target t.
Definition smooth (k : kernel) (t : lut) : res lut :=
  foldM (fun t (rc : Z * Z) =>
      do v <- zget (l_table t) (cellIdx t (fst rc) (snd rc));
      if (v =? OCCUPIED)%Z then applyKernel k t (fst rc) (snd rc) else Ok t)
    (list_prod (zrange 1 (l_col t - 2)) (zrange 1 (l_row t - 2))) t.
(** correlative_estimation_tools.h:250-270, initGrid *)
Definition initGrid (target : list P2) (grid_step std_deviation : R) : res lut :=
  let k := initKernel (1 / grid_step) OCCUPIED std_deviation in
  let b := k_half k in
  let '(minx, miny, maxx, maxy) := minMaxR target in
  let row := (ceilR ((maxx - minx) / grid_step) + 1 + 2 * b)%Z in
  let col := (ceilR ((maxy - miny) / grid_step) + 1 + 2 * b)%Z in
  let t := mkLut grid_step (grid_step / 2) minx miny maxx maxy row col b (length target)
                 (repeat 0%Z (Z.to_nat (row * col))) in
  do t1 <- markPoints t target;
  smooth k t1.

(** ** Scores *)
(** correlative_estimation_tools.h:436-443, getPtScore(Vector2f) *)
Definition ptScore (t : lut) (p : P2) : res Z :=
  if insideBox t p then do idx <- ptIdx t p; zget (l_table t) idx else Ok 0%Z.
(** correlative_estimation_tools.h:445-453, getPtScore(IndexPoint) *)
Definition idxScore (t : lut) (p : Z * Z) : res Z :=
  if (fst p <? 0)%Z || (snd p <? 0)%Z || (l_row t <=? fst p)%Z || (l_col t <=? snd p)%Z then Ok 0%Z
  else zget (l_table t) (cellIdx t (snd p) (fst p)).
(** the sum over the cloud and its division, lines 272-288 and 290-312: nothing
    is divided for an empty cloud *)
Definition scoreOf {A} (sc : A -> res Z) (t : lut) (pcl : list A) : res xr :=
  do sum <- foldM (fun acc p => do v <- sc p; Ok (acc + v)%Z) pcl 0%Z;
  Ok (if (length pcl =? 0)%nat then Fin 0 else xdiv (Fin (IZR sum)) (Fin (IZR OCCUPIED * INR (l_points t)))).
Definition getScorePts (t : lut) (pcl : list P2) : res xr := scoreOf (ptScore t) t pcl.
Definition getScoreIdx (t : lut) (pcl : list (Z * Z)) : res xr := scoreOf (idxScore t) t pcl.

(** correlative_estimation_tools.h:326-340, toIndexes *)
Definition toIndexes (t : lut) (pcl : list P2) : list (Z * Z) :=
  map (fun p => (floorR ((fst p - l_minx t + l_half t) / l_step t),
                 floorR ((- snd p + l_maxy t + l_half t) / l_step t))) pcl.
(** correlative_estimation_tools.h:342-350, moveIndexes *)
Definition moveIndexes (dx dy : Z) (ps : list (Z * Z)) : list (Z * Z) :=
  map (fun p => (fst p + dx, snd p + dy)%Z) ps.
(** correlative_estimation_tools.h:352-368, transformIndexes *)
Definition transformIndexes (t : lut) (dx dy : R) (ps : list (Z * Z)) : list (Z * Z) :=
  moveIndexes (floorR (dx / l_step t)) (- floorR (dy / l_step t)) ps.
(** correlative_estimation_tools.h:486-511, rotatePointCloud *)
Definition rotateCloud (a : R) (pcl : list P2) : list P2 :=
  map (fun p => (cos a * fst p + - sin a * snd p, sin a * fst p + cos a * snd p)) pcl.

(** ** The search *)
(** for (float v = -range; v < range; v += step), for a positive step *)
Definition sweep (range step : R) : list R :=
  map (fun i => - range + INR i * step) (seq 0 (Z.to_nat (ceilR (2 * range / step)))).
(** correlative_estimation_tools.h:16-27, SearchVoxel *)
Record voxel := mkVox { vo_trans : V3; vo_score : xr }.
(** coarse_step_, coarse_rot_step_, translation_range_, rotation_range_ *)
Record corrcfg := mkCC { cc_step : R; cc_rot : R; cc_range : R; cc_rrange : R }.

(** correlative_estimation2d.h:213-232, the work for one rotation *)
Definition rotVoxels (c : corrcfg) (t : lut) (guess_pcl : list P2) (theta : R) : res (list voxel) :=
  let index_pcl := toIndexes t (rotateCloud theta guess_pcl) in
  foldM (fun acc (d : R * R) =>
      do s <- getScoreIdx t (transformIndexes t (fst d) (snd d) index_pcl);
      Ok (acc ++ [mkVox (mkV (fst d) (snd d) theta) s]))
    (list_prod (sweep (cc_range c) (cc_step c)) (sweep (cc_range c) (cc_step c))) [].

(** correlative_estimation2d.h:188-243: the voxels of all rotations, worked on in
    the order [sched] by the given threads, merged thread by thread.
    search_voxels_thread has 2 * threads entries, the first [threads] are read. *)
Definition collect (threads : nat) (sched : list (nat * nat)) (c : corrcfg) (t : lut) (guess_pcl : list P2)
  : res (list voxel) :=
  let rotations := sweep (cc_rrange c) (cc_rot c) in
  do per <- foldM (fun per (e : nat * nat) =>
      do theta <- vget rotations (snd e);
      do local <- rotVoxels c t guess_pcl theta;
      do old <- vget per (fst e);
      vset per (fst e) (old ++ local)) sched (repeat [] (2 * threads));
  Ok (concat (firstn threads per)).

(** std::sort by score, then back(): some element no score of the list exceeds *)
Definition sortedBack (l : list voxel) (best : voxel) : Prop :=
  In best l /\ forall v, In v l -> xlt (vo_score best) (vo_score v) = false.

(** correlative_estimation2d.h:155-257, computeTransformation: the possible
    outcomes.  back() of an empty list is undefined.  The scores of lines
    165-179 are computed too, but only printed. *)
Inductive corrRun (threads : nat) (sched : list (nat * nat)) (c : corrcfg) (source target : list P2)
  (guess : T2) : res (bool * T2) -> Prop :=
| CorrUB : (do t <- initGrid target (cc_step c) (1 / 2);
            do _ <- getScorePts t (map (t2apply guess) source);
            do _ <- getScorePts t target;
            do l <- collect threads sched c t (map (t2apply guess) source);
            match l with [] => UB | _ => Ok tt end) = UB ->
    corrRun threads sched c source target guess UB
| CorrOk t l best : initGrid target (cc_step c) (1 / 2) = Ok t ->
    is_ok (getScorePts t (map (t2apply guess) source)) ->
    is_ok (getScorePts t target) ->
    collect threads sched c t (map (t2apply guess) source) = Ok l ->
    sortedBack l best ->
    corrRun threads sched c source target guess (Ok (true, vecToMat (vo_trans best))).
