(** The whole mapping system: the front end of AlgModel.v with real frames and a
    real running window (GridModel.v) and with the mapper (MapModel.v) that shares
    the finished frames with the pose graph (INC/ndt_slam_algorithm.h).

    The grids compute with rationals and the poses with reals; [dbl] is the double
    that stands for a real number, any function here.  A frame or window whose
    computation is undefined stays undefined ([res (ngrid X)]); drawing it into the
    map is then undefined too.  Scans are lists of points, [None] for NaN. *)
From Coq Require Import Reals Qreals List ZArith QArith Bool Sorting.Permutation Sorting.Sorted.
From Verif Require Import Base LinAlg3 GeoModel GraphModel LoopModel SlamModel AlgModel.
From Verif Require Import VoxelModel GridModel MapModel.
Import ListNotations.
Open Scope nat_scope.

(** Of the transform in [tr_lin] only the matrix counts. *)
Notation qt := (qtrans T2).

Section Sys.
Context {X Guess D : Type}.
Notation cell := (ncell X).
Notation grid := (ngrid X).
Notation scan := (list (option point)).
Notation body := (res grid).
Variable merge : cell -> cell -> cell.
Variable dflt : cell.
Variable addPt : cell -> point -> cell.
Variable compute : cell -> cell.
Variable tcell : qt -> cell -> cell.
Variable occRay : cell -> point -> cell -> cell.
Variable rawOcc : cell -> Q.
Variable btw : qpose -> qpose -> qt.
Variable tp : qt -> point -> point.
Variable noLin : T2.
Variable moveOrigin : qpose -> qt -> qpose.
Variable moveScan : T2 -> point -> point.  (* pcl::transformPointCloud, one point *)
Variable dbl : R -> Q.
Variable radius : Q.                       (* win_radius_ *)

Definition qposeOf (p : pose) : qpose := mkPose (dbl (px p)) (dbl (py p)) (dbl (pth p)).
Definition poseOf (p : qpose) : pose := mkP (Q2R (p_x p)) (Q2R (p_y p)) (Q2R (p_th p)).
Definition toQ (t : T2) : qt := mkTr t (dbl (tx t)) (dbl (ty t)).
Definition ofQ (t : qt) : T2 :=
  let l := tr_lin t in mkT2 (ta l) (tb l) (tc l) (td l) (Q2R (tr_x t)) (Q2R (tr_y t)).

(** new FrameType(), setCellSize(cell_size_): lines 164-165, 206-208, 305-306 *)
Definition newFrame : grid := n_setCellSize (n_new dflt 0) (1#4).
(** lines 207, 214 *)
Definition bInit (b : body) (s : scan) : body :=
  do g <- b; n_initialize merge dflt addPt compute tcell occRay btw tp
               (n_setOrigin g (mkPose 0 0 0)) s.
(** lines 344 and 363; the origin set at 341 *)
Definition bMerge (b : body) (o : pose) (s : scan) : body :=
  do g <- b; mergeInTracedPcl merge dflt addPt compute tcell occRay btw tp
               (n_setOrigin g (qposeOf o)) s (qposeOf o) true.
(** lines 360-362 *)
Definition sMove (t : T2) (s : scan) : scan := map (option_map (moveScan t)) s.
(** lines 205-206, 212-213 *)
Definition wNew (s : scan) : body :=
  do g <- n_enlarge (n_setOrigin newFrame (mkPose 0 0 0)) (- radius) (- radius) radius radius;
  n_initialize merge dflt addPt compute tcell occRay btw tp g s.
(** lines 225-229, 268-270 *)
Definition wMerge (w : body) (s : scan) (reg : T2) : body :=
  do g <- w;
  do l <- n_initialize merge dflt addPt compute tcell occRay btw tp (n_setOrigin newFrame (n_pose g)) s;
  do l' <- n_transform merge tcell noLin moveOrigin l (toQ reg);
  mergeInTraced merge dflt tcell occRay btw tp g l' true true.
(** line 272 *)
Definition wMove (w : body) (t : T2) : body * T2 :=
  match (do g <- w; n_move g (toQ t)) with
  | Ok r => (Ok (fst r), ofQ (snd r))
  | UB => (UB, t)
  | Throw => (Throw, t)
  end.
Definition wOrigin (w : body) : pose :=
  match w with Ok g => poseOf (n_pose g) | _ => mkP 0 0 0 end.

(** The front end with these frames; [le], [se2], [odo] and [dist] as in AlgModel. *)
Definition sysEnv (le : lenv pose (frame body) M3 Guess D) (se2 : pose -> pose) (odo : M3) (dist : R)
  : aenv body body (option point) Guess D :=
  mkAEnv le se2 odo dist (Ok newFrame) bInit bMerge sMove wNew wOrigin wMerge wMove.

(** Where the incremental matcher is started: line 237-239 *)
Definition guessOf (a : alg body body) (i : ainput (option point) D) : T2 :=
  t2mul (a_cumul a) (i_motion i).

(** [y_order]: which frames frames_ of the mapper points to, by node number, with
    their time stamps; [y_seq], [y_time]: window_seq_, window_update_time_ *)
Record sys := mkSys {
  y_alg : alg body body; y_map : mapper X; y_order : list (nat * Q); y_seq : nat; y_time : Q }.

(** A frame as the mapper finds it behind its pointer: the content last drawn into
    it, the origin kept by the graph (ndt_grid2d_holder.h:51-54), the stamp given to
    it by the mapper (ndt_mapper.h:136). *)
Definition gridOf (f : frame body) : res grid :=
  do g <- f_body f; Ok (n_setOrigin g (qposeOf (f_origin f))).
Definition frameNow (a : alg body body) (k : nat * Q) : res grid :=
  do f <- getPoseData (a_slam a) (fst k);
  do g <- gridOf f;
  Ok (n_setTimestamp g (snd k)).
Fixpoint allOk {A} (l : list (res A)) : res (list A) :=
  match l with
  | [] => Ok []
  | x :: t => do a <- x; do r <- allOk t; Ok (a :: r)
  end.

(** The part of an update that concerns the mapper: nothing without a new node;
    map_.addFrame before the node is made (line 308); map_.recalc after the graph
    was optimised (line 332).  std::sort orders the frames by their stamps. *)
Inductive drawMap (y : sys) (a' : alg body body) (evs : list aev) (ts : Q)
  : mapper X -> list (nat * Q) -> Prop :=
| draw_none : (forall id, ~ In (ANode id) evs) -> drawMap y a' evs ts (y_map y) (y_order y)
| draw_add id f m : In (ANode id) evs -> ~ In ARedraw evs ->
    gridOf (a_frame (y_alg y)) = Ok f ->
    addFrame merge dflt tcell occRay rawOcc btw tp (y_map y) f ts = Ok m ->
    drawMap y a' evs ts m (y_order y ++ [(id, ts)])
| draw_again id f m fs s m' : In (ANode id) evs -> In ARedraw evs ->
    gridOf (a_frame (y_alg y)) = Ok f ->
    addFrame merge dflt tcell occRay rawOcc btw tp (y_map y) f ts = Ok m ->
    allOk (map (frameNow a') (y_order y ++ [(id, ts)])) = Ok fs ->
    Permutation (combine (y_order y ++ [(id, ts)]) fs) s ->
    StronglySorted earlier (map snd s) ->
    recalc merge dflt tcell occRay rawOcc btw tp m (map snd s) ts = Ok m' ->
    drawMap y a' evs ts m' (map fst s).

(** window_seq_ and window_update_time_: lines 215-216, 275-276 *)
Definition tick (k : option akind) (seq : nat) (t ts : Q) : nat * Q :=
  match k with
  | Some KFirst => (0, ts)
  | Some (KMatch _ _) => (S seq, ts)
  | _ => (seq, t)
  end.
Definition kindOf (evs : list aev) : option akind :=
  match rev evs with ARep k _ :: _ => Some k | _ => None end.

(** One call of update(): its arguments, its time and what happened in it. *)
Record yev := mkYE { v_in : ainput (option point) D; v_time : Q; v_evs : list aev }.

Inductive ystep (env : aenv body body (option point) Guess D) (y : sys) : yev -> sys -> Prop :=
| ystep_intro i ts a' evs m' o' :
    update env (y_alg y) i = Ok (a', evs) -> drawMap y a' evs ts m' o' ->
    ystep env y (mkYE i ts evs)
      (mkSys a' m' o' (fst (tick (kindOf evs) (y_seq y) (y_time y) ts))
                      (snd (tick (kindOf evs) (y_seq y) (y_time y) ts))).

Definition sys_new (env : aenv body body (option point) Guess D) : sys :=
  mkSys (alg_new env) (m_new dflt) [] 0 0.

(** Histories, newest call first. *)
Inductive yreach (env : aenv body body (option point) Guess D) : list yev -> sys -> Prop :=
| yreach_new : yreach env [] (sys_new env)
| yreach_step h y e y' : yreach env h y -> ystep env y e y' -> yreach env (e :: h) y'.

(** getNDTMap: lines 58-62, 398-430 (the cells themselves are serialised by
    NDTCell): stamp and sequence number of the message, content of the window *)
Definition getNDTMap (y : sys) : res (Q * nat * grid_msg) :=
  match a_win (y_alg y) with
  | Some w => do g <- w; Ok (y_time y, y_seq y, n_serialize btw tp g)
  | None => Ok (y_time y, y_seq y, n_serialize btw tp newFrame)
  end.
(** getPclMap2: lines 72-79 *)
Definition getPclMap2 (y : sys) : res (list point) :=
  match a_win (y_alg y) with
  | Some w => do g <- w; getMeansTransformed btw tp g
  | None => getMeansTransformed btw tp newFrame
  end.
End Sys.
Arguments sys : clear implicits.
Arguments yev : clear implicits.
