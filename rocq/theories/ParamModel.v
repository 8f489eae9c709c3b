(** How the program is configured: the parameters it reads when it is started
    (src/graph_slam2d_node.cpp:6-53 and 59-106), the topics and frames it uses, and the
    program of RunModel.v with these settings.

    The parameter server, name resolution and remapping belong to ROS and are modelled as
    roscpp documents them: [param<T>(k, d)] is the value of [~k] if it has type [T] (an
    integer also counts as a double), otherwise [d].  [flt] is the conversion
    static_cast<float>, any function here. *)
From Coq Require Import Reals Qreals List ZArith QArith Bool Ascii String.
From Verif Require Import Base LinAlg3 GeoModel OptModel RegModel GraphModel LoopModel SlamModel AlgModel NodeModel.
From Verif Require Import VoxelModel GridModel MapModel SysModel RunModel MatchModel CloseModel.
Import ListNotations.
Open Scope string_scope.

(** XmlRpc values *)
Inductive pval := PStr (s : string) | PInt (z : Z) | PDbl (r : R) | PBool (b : bool) | POther.
(** the private namespace of the node *)
Definition store := string -> option pval.

(** NodeHandle::param<std::string>, <double>, <bool> *)
Definition paramS (p : store) (k d : string) : string :=
  match p k with Some (PStr s) => s | _ => d end.
Definition paramD (p : store) (k : string) (d : R) : R :=
  match p k with Some (PDbl r) => r | Some (PInt z) => IZR z | _ => d end.
Definition paramB (p : store) (k : string) (d : bool) : bool :=
  match p k with Some (PBool b) => b | _ => d end.

(** The fields of graph_slam2d_node.h and of the algorithm that are set: [c_radius] is
    win_radius_, [c_gen] max_euclidean_distance_traveled_ (ndt_slam_algorithm.h:83-91),
    [c_max], [c_min] those of the loop detector (ndt_slam_algorithm.h:93-101,
    slam2d.h:348-358, loop_detector.h:179-192), [c_limit] rejection_limit_ of the scan
    matcher (ndt_slam_algorithm.h:103-106, slam2d.h:360-364, ndt_scanmatcher.h:33-36). *)
Record config := mkConfig {
  c_base : string; c_odom : string; c_fixed : string; c_mode : string; c_laser : string;
  c_radius : Q; c_gen : Q; c_max : Q; c_min : Q; c_limit : R; c_graph : bool }.

Section Init.
Variable flt : R -> Q.

(** graph_slam2d_node.cpp:101-105 *)
Definition prefixed (prefix name : string) : string :=
  if (prefix =? "")%string then name else prefix ++ "/" ++ name.
(** lines 62-66: [found] is the parameter tf_prefix that searchParam finds, if any *)
Definition tfPrefix (found : option pval) : string :=
  match found with Some (PStr s) => s | _ => "" end.
(** graph_slam2d_node.cpp:59-106.  setRejectionLimit throws outside of (0, 1)
    (d2d_ndt2d_robust.h:115-122); nothing catches it, so the program ends. *)
Definition initParameters (p : store) (found : option pval) : res config :=
  do limit <- setRejectionLimit (Q2R (flt (paramD p "loop_score_threshold" (6 / 10))));
  Ok (mkConfig (prefixed (tfPrefix found) (paramS p "robot_base_frame_id" "base_link"))
               (prefixed (tfPrefix found) (paramS p "odom_farme_id" "odom"))
               (prefixed (tfPrefix found) (paramS p "map_farme_id" "map"))
               (paramS p "subscribe_mode" "NON") "/scan"
               (flt (paramD p "scanmatch_window_radius" 40)) (flt (paramD p "node_gen_distance" 2))
               (flt (paramD p "loop_max_distance" 30)) (flt (paramD p "loop_min_distance" 14))
               limit (paramB p "serialize_graph" true)).
End Init.

(** ** Topics *)
(** ros::names::resolve for names that do not start with "~": global names as they are,
    others below the namespace of the node, which starts and does not end with "/". *)
Definition resolve (ns name : string) : string :=
  match name with
  | String "/"%char _ => name
  | _ => ns ++ "/" ++ name
  end.
(** lines 28-49: the topics of the incoming messages; the callback sees messages of all of
    them, put together by their stamps when there are two *)
Definition inputs (c : config) : list string :=
  if (c_mode c =? "ODOM")%string then [c_laser c; "odom"]
  else if (c_mode c =? "POSE")%string then [c_laser c; "pose"]
  else [c_laser c].
(** lines 22-27; transforms go to /tf (tf::TransformBroadcaster) *)
Definition topicName {X} (o : rout X) : string :=
  match o with
  | RTf _ _ => "/tf" | RWin _ => "win_ndt" | RMap _ => "map"
  | RWinPcl _ => "win_pcl" | RPcl _ => "map_pcl" | RGraph _ => "graph"
  end.
(** lines 249-256 and 264-268: the frames named in a message, the parent first; for the
    headers ndt_slam_algorithm.h:46-79, 398-404 and slam2d.h:514.  The markers of a graph
    carry their own headers: none when there is no edge. *)
Definition framesOf {X} (c : config) (o : rout X) : list string :=
  match o with
  | RTf _ _ => [c_fixed c; c_odom c]
  | RGraph l => map (fun _ => c_fixed c) l
  | _ => [c_fixed c]
  end.
(** lines 172-184: the transforms asked of tf for a scan in [laser] *)
Definition lookups (c : config) (laser : string) : list (string * string) :=
  [(c_base c, laser); (c_odom c, c_base c)].

(** ** The configured program *)
Section Prog.
Context {X : Type}.
Notation cell := (ncell X).
Notation body := (res (ngrid X)).
Notation frame := (frame body).
Variable d2d : frame -> frame -> T2 -> bool * T2.
Variable corr : R -> list P2 -> list P2 -> T2 -> res (bool * T2).
Variable over : option bool.
Variable merge : cell -> cell -> cell.
Variable dflt : cell.
Variable addPt : cell -> point -> cell.
Variable compute : cell -> cell.
Variable tcell : qt -> cell -> cell.
Variable occRay : cell -> point -> cell -> cell.
Variable rawOcc : cell -> Q.
Variable btw : qpose -> qpose -> qt.
Variable tp : qt -> point -> point.
Variable noLin : T2.
Variable moveOrigin : qpose -> qt -> qpose.
Variable moveScan : T2 -> point -> point.
Variable dbl : R -> Q.
Variable se2' : pose -> pose.
Variable odo : M3.
Variable oob : option bool.
(** ndt_slam_algorithm.h:83-106 on the objects made by its constructor *)
Definition envOf (c : config) : aenv body body (option point) T2 R :=
  sysEnv merge dflt addPt compute tcell occRay btw tp noLin moveOrigin moveScan dbl (c_radius c)
    (detector d2d corr (c_limit c) (Q2R (c_min c)) (Q2R (c_max c)) over) se2' odo (Q2R (c_gen c)).
(** the runs of the program started with configuration [c] *)
Definition runs (c : config) :=
  rreach merge dflt tcell occRay rawOcc btw tp dbl oob (c_graph c) (envOf c).
End Prog.
