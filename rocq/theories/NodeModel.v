(** Model of the ROS node GraphSlamNode (src/graph_slam2d_node.cpp): message
    handling, odometry increments and the published transform.

    ROS itself (subscriptions, synchronisation, tf lookups, laser projection) is
    the environment: a message carries the outcome of the lookups.  The SLAM
    algorithm is any object with an update function.  Parameters, logging and
    the map, cloud and marker topics (published together, lines 248-257) are left
    out. *)
From Coq Require Import Reals List ZArith Bool.
From Verif Require Import Base LinAlg3 GeoModel.
Import ListNotations.
Open Scope R_scope.

Section Node.
Context {Alg Scan : Type}.
(** ISlamAlgorithm::update *)
Variable update : Alg -> T2 -> M3 -> list Scan -> Z -> Alg * pose.

(** One synchronised pair of messages as it reaches a callback (108-148):
    [ms_tf]: base in odom, None when a tf lookup throws (174-188);
    [ms_scan]: the cloud in the base frame, None when the transformation throws
    (209-215); [ms_cov]: covariance of the odometry or pose message, None in laser
    only mode. *)
Record nmsg := mkMsg { ms_time : Z; ms_tf : option M4; ms_scan : option (list Scan);
                       ms_cov : option (list R) }.

(** graph_slam2d_node.h:77-95.  [nd_tf]: world_tf_trans_, None while nothing has
    been assigned (its constructor initialises nothing). *)
Record node := mkNd { nd_alg : Alg; nd_ready : bool; nd_odom : pose; nd_pose : pose;
                      nd_tf : option tform; nd_seq : nat }.

(** graph_slam2d_node.cpp:6-17 *)
Definition node_init (a : Alg) : node := mkNd a false (mkP 0 0 0) (mkP 0 0 0) None 0.

(** What can be seen from outside: calls of the algorithm with the returned
    pose, and transforms sent to tf. *)
Inductive nout := NUpdate (t : T2) (p : pose) | NSend (time : Z) (t : option tform).

(** graph_slam2d_node.cpp:150-224: pose and cloud, or None *)
Definition prepareAllData (m : nmsg) : option (pose * list Scan) :=
  match ms_tf m with
  | None => None
  | Some q =>
      match ms_scan m with
      | None => None
      | Some pts => if (Z.of_nat (length pts) <? 400)%Z then None
                    else Some (getPoseFromTransform (convertToTransform q), pts)
      end
  end.

(** graph_slam2d_node.cpp:144-147 *)
Definition laser_covar : M3 := mdiag (1 / 10000) (1 / 10000) (1 / 10000).

(** graph_slam2d_node.cpp:264-268 *)
Definition publishTF (n : node) (time : Z) : nout := NSend time (nd_tf n).

(** graph_slam2d_node.cpp:226-262 *)
Definition doAlgorithm (n : node) (time : Z) (odom : pose) (pts : list Scan) (covar : M3)
  : node * list nout :=
  if nd_ready n then
    let trans := t2mul (t2inv (getTransFromPose (nd_odom n))) (getTransFromPose odom) in
    let '(a, p) := update (nd_alg n) trans covar pts time in
    let n' := mkNd a true odom p (Some (tfTrans odom p)) (S (nd_seq n)) in
    (n', [NUpdate trans p; publishTF n' time])
  else
    let '(a, p) := update (nd_alg n) t2id covar pts time in
    let n' := mkNd a true odom (mkP 0 0 0) (nd_tf n) (nd_seq n) in
    (n', [NUpdate t2id p; publishTF n' time]).

(** graph_slam2d_node.cpp:108-148: the three callbacks *)
Definition callback (n : node) (m : nmsg) : res (node * list nout) :=
  match prepareAllData m with
  | None => Ok (n, [publishTF n (ms_time m)])
  | Some (odom, pts) =>
      do c <- match ms_cov m with
              | Some l => arrayToMatrix l
              | None => Ok laser_covar
              end;
      Ok (doAlgorithm n (ms_time m) odom pts c)
  end.

(** A sequence of messages; outputs in order. *)
Definition nstep (st : node * list nout) (m : nmsg) : res (node * list nout) :=
  do r <- callback (fst st) m; Ok (fst r, snd st ++ snd r).
Definition nrun (a : Alg) (l : list nmsg) : res (node * list nout) :=
  foldM nstep l (node_init a, []).
End Node.
Arguments nmsg : clear implicits.
Arguments node : clear implicits.
