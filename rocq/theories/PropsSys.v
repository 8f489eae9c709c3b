(** C100 to C103: the whole system, from the calls of update() to the map. *)
From Coq Require Import Reals Qreals List ZArith QArith Bool Arith Sorting.Permutation.
From Verif Require Import Base LinAlg3 GeoModel GeoSpec.
From Verif Require Import GraphModel LoopModel SlamModel AlgModel AlgSpec AlgCases.
From Verif Require Import VoxelModel VoxelSpec GridModel GridSpec ScanSpec ScanInit MapModel MapSpec.
From Verif Require Import SysModel SysSpec SysMap SysCloud SysWindow SysHull SysFacts SysCases.
Import ListNotations.
Open Scope nat_scope.

Section Sys.
Context {X Guess D : Type}.
Notation cell := (ncell X).
Notation body := (res (ngrid X)).
(** the cells: NDTCell's operator+=, its constructor, addPoint, computeGaussian,
    transform, updateOccupancy by a ray, getOccupancyRaw *)
Variable merge : cell -> cell -> cell.
Variable dflt : cell.
Variable addPt : cell -> point -> cell.
Variable compute : cell -> cell.
Variable tcell : qtrans T2 -> cell -> cell.
Variable occRay : cell -> point -> cell -> cell.
Variable rawOcc : cell -> Q.
(** the geometry on doubles *)
Variable btw : qpose -> qpose -> qtrans T2.
Variable tp : qtrans T2 -> point -> point.
Variable noLin : T2.
Variable moveOrigin : qpose -> qtrans T2 -> qpose.
Variable moveScan : T2 -> point -> point.
Variable dbl : R -> Q.
(** window radius, loop detection, rounding to SE2, odometry information, node distance *)
Variable radius : Q.
Variable le : lenv pose (frame body) M3 Guess D.
Variable se2' : pose -> pose.
Variable odo : M3.
Variable dist : R.
Notation env := (sysEnv merge dflt addPt compute tcell occRay btw tp noLin moveOrigin moveScan dbl radius le se2' odo dist).
Notation yreach := (yreach merge dflt tcell occRay rawOcc btw tp dbl env).
Notation fill := (fill merge dflt addPt compute tcell occRay btw tp moveScan dbl).
Notation frame_of := (frame_of merge dflt addPt compute tcell occRay btw tp moveScan dbl).
Notation in_frame := (in_frame btw tp moveScan dbl).
Notation newest_cell := (newest_cell dflt addPt compute btw tp moveScan dbl).
Notation remains := (remains dflt addPt compute btw tp moveScan dbl).
Notation clean := (clean dflt addPt compute btw tp moveScan dbl).

(** C100: after any calls of update(), the published cloud and occupancy grid are those of
    a map into which exactly the frames of all nodes were drawn, each once, with the scans
    of the history and at the place where the graph has its node now; before the first
    node the map is that of a new mapper.  The frames come in the order in which the nodes
    were made if the clock went forward. *)
Theorem C100_map_current : forall h y, yreach h y ->
  exists order fs g0 g,
    Permutation order (born h) /\ (clock h -> order = born h) /\
    allOk (map (frame_of h (y_alg y)) order) = Ok fs /\
    blank dflt g0 /\ foldM (addToMap merge dflt tcell occRay btw tp) fs g0 = Ok g /\
    (fs = [] -> y_map y = m_new dflt) /\
    (fs <> [] -> getMeansTransformed btw tp g = Ok (getPclMap (y_map y)) /\
                 m_occ (y_map y) = createOccupancyGrid rawOcc btw tp g).
Proof. exact (sys_map merge dflt addPt compute tcell occRay rawOcc btw tp noLin moveOrigin moveScan dbl radius le se2' odo dist). Qed.

(** The cloud, square by square: nothing but the mean of the last distribution that the
    frames put there, and that too unless a later frame sent a beam through.  Partial:
    for frames with no position exactly on a border between squares and no distribution
    closer than a square to the sensor. *)
Theorem C100_cloud_partial : forall h y, occ_only occRay -> nc_gauss dflt = false -> yreach h y ->
  exists order fs,
    Permutation order (born h) /\ (clock h -> order = born h) /\
    allOk (map (frame_of h (y_alg y)) order) = Ok fs /\
    (fs = [] -> getPclMap (y_map y) = []) /\
    ((forall f, In f fs -> drawable tcell btw tp f) ->
     (forall p, In p (getPclMap (y_map y)) ->
       exists c q, drawn tcell btw fs c = Some q /\ p = tp (btw world world) q) /\
     (forall c q, lasting tcell btw tp fs c q -> In (tp (btw world world) q) (getPclMap (y_map y)))).
Proof.
  intros h y OO DG. exact (sys_cloud merge dflt addPt compute tcell occRay rawOcc btw tp noLin moveOrigin moveScan dbl radius le se2' odo dist OO DG h y).
Qed.

(** C101: every node's frame, and the current one, holds exactly the scans that were drawn
    into it, each moved as the front end said. *)
Theorem C101_frames : forall h y, yreach h y ->
  (forall k, getPoseData (a_slam (y_alg y)) k <> Throw <-> k < length (born h)) /\
  (forall k f, getPoseData (a_slam (y_alg y)) k = Ok f -> f_body f = fill (k =? 0) (scans_of h k)) /\
  (h <> [] -> length (strokes h) = S (length (born h)) /\
              f_body (a_frame (y_alg y)) = fill (length (born h) =? 0) (scans_of h (length (born h)))).
Proof. exact (frames_filled merge dflt addPt compute tcell occRay rawOcc btw tp noLin moveOrigin moveScan dbl radius le se2' odo dist). Qed.

(** Once it belongs to a node, the content of a frame never changes. *)
Theorem C101_frozen : forall h y h' y' k f, yreach h y -> yreach (h' ++ h) y' ->
  getPoseData (a_slam (y_alg y)) k = Ok f ->
  exists f', getPoseData (a_slam (y_alg y')) k = Ok f' /\ f_body f' = f_body f.
Proof. exact (frames_frozen merge dflt addPt compute tcell occRay rawOcc btw tp noLin moveOrigin moveScan dbl radius le se2' odo dist). Qed.

(** Square by square, a frame holds at most the distribution of the newest of its scans
    that has one there (the scans do not add up), and it does hold it if no later scan
    sends a beam through the square.  Partial: for scans with no point on a border
    between squares and no distribution closer than a square to the sensor. *)
Theorem C101_newest_partial : forall h y k, yreach h y ->
  occ_only occRay -> nc_gauss dflt = false -> (forall p, moveScan t2id p = p) -> dbl 0 = 0%Q ->
  means_average dflt addPt compute -> (forall o, peq (tp (btw o o) (0, 0)%Q) (0, 0)%Q) ->
  Forall clean (scans_of h k) ->
  exists g, fill (k =? 0) (scans_of h k) = Ok g /\
    (forall c m, mean_at g c = Some m -> option_map nc_mean (newest_cell (scans_of h k) c) = Some m) /\
    (forall c x, remains (scans_of h k) c x -> mean_at g c = Some (nc_mean x)).
Proof. exact (frames_newest merge dflt addPt compute tcell occRay rawOcc btw tp noLin moveOrigin moveScan dbl radius le se2' odo dist). Qed.

(** C102: every point of the published cloud is the average of some points of one scan,
    moved into the frame of a node as the front end moved that scan, and then from where
    the graph has that node now into the world. *)
Theorem C102_cloud_from_scans : forall h y p,
  occ_only occRay -> nc_gauss dflt = false -> (forall q, moveScan t2id q = q) -> dbl 0 = 0%Q ->
  means_average dflt addPt compute ->
  (forall t c, nc_gauss (tcell t c) = nc_gauss c) ->
  (forall t c, nc_gauss c = true -> nc_mean (tcell t c) = tp t (nc_mean c)) ->
  yreach h y -> In p (getPclMap (y_map y)) ->
  exists k x s ps q, getPoseLocation (a_slam (y_alg y)) k = Ok x /\ In s (scans_of h k) /\
    (forall a, In a ps -> In (Some a) (in_frame s)) /\ average ps q /\
    p = tp (btw world world) (tp (btw (qposeOf dbl x) world) q).
Proof.
  intros h y p OO DG MV Z0 MA TG TM.
  exact (sys_points merge dflt addPt compute tcell occRay rawOcc btw tp noLin moveOrigin moveScan dbl radius le se2' odo dist
           OO DG MV Z0 MA TG TM h y p).
Qed.

(** C104: every distribution in the running window, and every point of the window's
    published cloud, lies among the points of one scan that went into the window, placed
    where its match put it: in their convex hull.  (It is the average of some of them until
    cells of the turned scan fall into one square, which blends them.) *)
Theorem C104_window_points : forall h y,
  occ_only occRay -> nc_gauss dflt = false -> means_average dflt addPt compute ->
  (forall t c, nc_gauss (tcell t c) = nc_gauss c) ->
  (forall t c, nc_gauss c = true -> nc_mean (tcell t c) = tp t (nc_mean c)) ->
  blends merge -> (forall t, affine (tp t)) -> shifts btw tp -> slides noLin moveOrigin ->
  yreach h y ->
  (forall g c, a_win (y_alg y) = Some (Ok g) -> In c (getValidCells (n_vox g)) -> nc_gauss c = true ->
    exists e F, In e h /\ placed_by tp dbl e F /\
      hull (map F (reals (i_scan (v_in e))))
           (p_x (n_pose g) + fst (nc_mean c), p_y (n_pose g) + snd (nc_mean c))%Q) /\
  (forall l p, getPclMap2 dflt btw tp y = Ok l -> In p l ->
    exists e F, In e h /\ placed_by tp dbl e F /\ hull (map F (reals (i_scan (v_in e)))) p).
Proof.
  intros h y OO DG MA TG TM BL AF SH SL.
  exact (window_hull merge dflt addPt compute tcell occRay rawOcc btw tp noLin moveOrigin moveScan dbl radius le se2' odo dist
           OO DG MA TG TM BL AF SH SL h y).
Qed.

(** C103: the running window is never turned, and the last matched position of the robot
    lies less than a cell from its origin along either axis.  Partial: where the shifts
    found by the matcher are doubles. *)
Theorem C103_window_partial : forall h y g, yreach h y -> sharp dbl h -> a_win (y_alg y) = Some (Ok g) ->
  p_th (n_pose g) = 0%Q /\
  t2mul (getTransFromPose (poseOf (n_pose g))) (a_cumul (y_alg y)) = last_match (events h) /\
  (Rabs (tx (a_cumul (y_alg y))) < 1 / 4)%R /\ (Rabs (ty (a_cumul (y_alg y))) < 1 / 4)%R.
Proof. exact (robot_in_window merge dflt addPt compute tcell occRay rawOcc btw tp noLin moveOrigin moveScan dbl radius le se2' odo dist). Qed.

(** The matcher is started at the last matched position moved by the motion of the
    present call alone. *)
Theorem C103_guess_partial : forall h y g (i : ainput (option point) D), yreach h y -> sharp dbl h ->
  a_win (y_alg y) = Some (Ok g) ->
  t2mul (getTransFromPose (poseOf (n_pose g))) (guessOf (y_alg y) i) = t2mul (last_match (events h)) (i_motion i).
Proof. exact (guess_world merge dflt addPt compute tcell occRay rawOcc btw tp noLin moveOrigin moveScan dbl radius le se2' odo dist). Qed.

(** The window's message carries the time of the newest scan that went into it and the
    number of matches so far. *)
Theorem C103_stamp : forall h y t q m, yreach h y -> getNDTMap dflt btw tp y = Ok (t, q, m) ->
  t = window_time h /\ q = matches (events h).
Proof. exact (window_msg merge dflt addPt compute tcell occRay rawOcc btw tp noLin moveOrigin moveScan dbl radius le se2' odo dist). Qed.
End Sys.
Print Assumptions C100_map_current.
Print Assumptions C100_cloud_partial.
Print Assumptions C101_frames.
Print Assumptions C101_frozen.
Print Assumptions C101_newest_partial.
Print Assumptions C102_cloud_from_scans.
Print Assumptions C104_window_points.
Print Assumptions C103_window_partial.
Print Assumptions C103_guess_partial.
Print Assumptions C103_stamp.

(** C103 is false for the guess as one expects it: after a failed match the distance the
    robot has gone since is not in the next guess. *)
Theorem C103_guess_refuted : exists h y g, zreach h y /\ sharp zdbl h /\ clock h /\ a_win (y_alg y) = Some (Ok g) /\
  forall d, t2mul (getTransFromPose (poseOf (n_pose g))) (guessOf (y_alg y) (zin d None 6)) <>
            t2mul (t2mul (last_match (events h)) (motion_since h)) (along d).
Proof.
  destruct zreach_h2 as (y & R & W & C). exists zh2, y, zw0.
  split; [exact R|]. split; [exact zsharp2|]. split; [exact zclock2|]. split; [exact W|].
  exact (zguess_off y C).
Qed.
Print Assumptions C103_guess_refuted.

(** A robot that makes two nodes and closes a loop: the map shows the obstacle of the
    first frame at (3, 1) and that of the second, which the optimiser put at (5, 0), at
    (8, 1). *)
Example C100_case : exists y, zreach zh y /\ clock zh /\ born zh = [(0, 2%Q); (1, 3%Q)] /\
  map (fun p : point => (Qred (fst p), Qred (snd p))) (getPclMap (y_map y)) = [(3, 1); (8, 1)]%Q /\
  getPoseLocation (a_slam (y_alg y)) 1 = Ok (at_ 5) /\
  allOk (map (frame_of pmerge pdflt padd pcompute ztrans pray zbtw ztp zmove zdbl zh (y_alg y)) (born zh)) = Ok zfs /\
  (forall f, In f zfs -> drawable ztrans zbtw ztp f) /\ occ_only pray /\ nc_gauss pdflt = false.
Proof. exact zcase100. Qed.
Example C101_case : Forall (clean pdflt padd pcompute zbtw ztp zmove zdbl) (scans_of zh 0) /\
  Forall (clean pdflt padd pcompute zbtw ztp zmove zdbl) (scans_of zh 2) /\ length (scans_of zh 2) = 2 /\
  (forall p, zmove t2id p = p) /\ zdbl 0 = 0%Q /\ means_average pdflt padd pcompute /\
  (forall o, peq (ztp (zbtw o o) (0, 0)%Q) (0, 0)%Q).
Proof. exact zcase101. Qed.
Example C100_lasting : lasting ztrans zbtw ztp zfs (12, 4)%Z (1800000000 # 600000000, 6000000 # 6000000)%Q.
Proof. exact zlasting. Qed.
Example C101_remains : exists x, remains pdflt padd pcompute zbtw ztp zmove zdbl (scans_of zh 2) (16, 4)%Z x.
Proof. exact zremains. Qed.
Example C102_case : (forall t c, nc_gauss (ztrans t c) = nc_gauss c) /\
  (forall t c, nc_gauss c = true -> nc_mean (ztrans t c) = ztp t (nc_mean c)).
Proof. split; [exact zgauss|exact zmean]. Qed.
Example C103_case : exists y g, zreach zh y /\ sharp zdbl zh /\ a_win (y_alg y) = Some (Ok g) /\
  last_match (events zh) = along 3 /\ window_time zh = 4%Q /\ matches (events zh) = 2.
Proof. exact zcase103. Qed.
(** The robot of the other examples: the obstacle of the first scan, and those of the two
    matched ones at (2, 0) and (3, 0) from the start, are in the window. *)
Example C104_case : exists y l, zreach zh y /\ getPclMap2 pdflt zbtw ztp y = Ok l /\
  map (fun p : point => (Qred (fst p), Qred (snd p))) l = [(3, 1); (5, 1); (6, 1)]%Q.
Proof. exact zwindow. Qed.
Example C104_hypotheses : occ_only pray /\ nc_gauss pdflt = false /\ means_average pdflt padd pcompute /\
  blends pmerge /\ (forall t, affine (ztp t)) /\ shifts zbtw ztp /\ slides t2id zorigin.
Proof.
  split; [exact pray_occ_only|]. split; [reflexivity|]. split; [exact pmeans|]. split; [exact zblends|].
  split; [exact zaffine|]. split; [exact zshifts|exact zslides].
Qed.
