(** The whole program: the node (src/graph_slam2d_node.cpp) around the mapping system
    of SysModel.v, from the messages it receives to everything it publishes.

    As in NodeModel.v a message carries the outcome of the tf lookups and of the
    projection of the laser scan.  What the environment decides inside one call of the
    algorithm (outcome of the matcher, addresses, loop search, optimiser) is part of the
    input of that call and any here.  A step exists only if nothing it computes is
    undefined.  Header frames and wall clock stamps are left out. *)
From Coq Require Import Reals List ZArith QArith Bool.
From Verif Require Import Base LinAlg3 GeoModel GraphModel LoopModel SlamModel AlgModel NodeModel.
From Verif Require Import VoxelModel GridModel MapModel ExportModel SysModel.
Import ListNotations.
Open Scope nat_scope.

Section Run.
Context {X Guess D : Type}.
Notation cell := (ncell X).
Notation body := (res (ngrid X)).
Notation msg := (nmsg (option point)).
Variable merge : cell -> cell -> cell.
Variable dflt : cell.
Variable tcell : qt -> cell -> cell.
Variable occRay : cell -> point -> cell -> cell.
Variable rawOcc : cell -> Q.
Variable btw : qpose -> qpose -> qt.
Variable tp : qt -> point -> point.
Variable dbl : R -> Q.
Variable oob : option bool.                (* see ExportModel *)
Variable serialize_graph : bool.           (* graph_slam2d_node.cpp:99 *)
Variable env : aenv body body (option point) Guess D.

(** What is published: tf; the topics win_ndt, map, win_pcl, map_pcl and graph. *)
Inductive rout :=
| RTf (time : Z) (t : option tform)
| RWin (m : Q * nat * @grid_msg X)
| RMap (m : occ_msg)
| RWinPcl (l : list point)
| RPcl (l : list point)
| RGraph (l : list (@arrow (R * R))).

(** The fields of graph_slam2d_node.h:77-95 that are read, and the algorithm. *)
Record run := mkRun { r_sys : sys X; r_ready : bool; r_odom : pose; r_tf : option tform }.
Definition run_new : run := mkRun (sys_new dflt env) false (mkP 0 0 0) None.

(** What update() returned. *)
Definition returned (evs : list aev) : option pose :=
  match rev evs with ARep _ p :: _ => Some p | _ => None end.

(** graph_slam2d_node.cpp:254-259 *)
Definition graphOut (y : sys X) : res (list rout) :=
  if serialize_graph
  then do l <- graphMarkers (fun p => (px p, py p)) oob (a_slam (y_alg y)); Ok [RGraph l]
  else Ok [].
(** graph_slam2d_node.cpp:250-259 *)
Definition topics (y : sys X) : res (list rout) :=
  do w <- getNDTMap dflt btw tp y;
  do c <- getPclMap2 dflt btw tp y;
  do g <- graphOut y;
  Ok ([RWin w; RMap (calcOccupancyGridMsg (y_map y)); RWinPcl c; RPcl (getPclMap (y_map y))] ++ g).

(** graph_slam2d_node.cpp:108-148 and 226-262: what is published and the calls of the
    algorithm, at most one.  The covariance handed to the algorithm is not used there
    (ndt_slam_algorithm.h:185-292), so it is no part of its input; that the message has 36
    entries is its type. *)
Inductive rstep (r : run) (m : msg) : run -> list rout -> list (yev D) -> Prop :=
| rstep_reject : prepareAllData m = None -> rstep r m r [RTf (ms_time m) (r_tf r)] []
| rstep_first odom pts i evs y' :
    prepareAllData m = Some (odom, pts) -> r_ready r = false ->
    i_motion i = t2id -> i_scan i = pts ->
    ystep merge dflt tcell occRay rawOcc btw tp dbl env (r_sys r) (mkYE i (inject_Z (ms_time m)) evs) y' ->
    rstep r m (mkRun y' true odom (r_tf r)) [RTf (ms_time m) (r_tf r)] [mkYE i (inject_Z (ms_time m)) evs]
| rstep_next odom pts i evs y' p out :
    prepareAllData m = Some (odom, pts) -> r_ready r = true ->
    i_motion i = t2mul (t2inv (getTransFromPose (r_odom r))) (getTransFromPose odom) -> i_scan i = pts ->
    ystep merge dflt tcell occRay rawOcc btw tp dbl env (r_sys r) (mkYE i (inject_Z (ms_time m)) evs) y' ->
    returned evs = Some p -> topics y' = Ok out ->
    rstep r m (mkRun y' true odom (Some (tfTrans odom p)))
      (RTf (ms_time m) (Some (tfTrans odom p)) :: out) [mkYE i (inject_Z (ms_time m)) evs].

(** Runs: the messages so far with what was published for each, and the calls of the
    algorithm, newest first. *)
Inductive rreach : list (msg * list rout) -> list (yev D) -> run -> Prop :=
| rreach_new : rreach [] [] run_new
| rreach_step t h r m r' o c : rreach t h r -> rstep r m r' o c -> rreach ((m, o) :: t) (c ++ h) r'.
End Run.
Arguments run : clear implicits.
Arguments rout : clear implicits.
