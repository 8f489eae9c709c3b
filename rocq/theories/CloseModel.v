(** The loop detector as the system runs it: LoopModel.v with real distances
    (slam_optimizer/loop_detector.h) and with the scan matcher of MatchModel.v on the
    frames of SysModel.v.

    The covariances that order the search stay abstract, as in LoopModel.v.  A match
    whose computation is undefined counts as one that was not accepted (thresholds up
    to 0.7 never lead there, C92). *)
From Coq Require Import Reals Qreals List ZArith QArith Bool.
From Verif Require Import Base LinAlg3 GeoModel OptModel RegModel CorrModel MatchModel.
From Verif Require Import GraphModel LoopModel SlamModel AlgModel VoxelModel GridModel.
Import ListNotations.
Open Scope R_scope.

(** loop_detector.h:242-244: the distance between two nodes *)
Definition nodeDist (a b : pose) : R := sqrt ((px a - px b) ^ 2 + (py a - py b) ^ 2).
(** loop_detector.h:341-342: length of the inverted transform of an edge *)
Definition edgeLen (p : pose) : R :=
  let t := t2inv (getTransFromPose p) in sqrt (tx t ^ 2 + ty t ^ 2).
(** loop_detector.h:251-253: the translation of the guess is set to zero *)
Definition startGuess (target source : pose) : T2 :=
  let t := t2mul (t2inv (getTransFromPose target)) (getTransFromPose source) in
  mkT2 (ta t) (tb t) (tc t) (td t) 0 0.
Definition ltR (a b : R) : bool := if Rlt_dec a b then true else false.

Section Close.
  Context {X : Type}.
  Notation body := (res (ngrid X)).
  Notation frame := (frame body).

  (** ndt_grid2d.h:278-281 for the grid behind a node; a null pointer is treated as
      an empty cloud *)
  Definition cloudOf (f : frame) : list P2 :=
    match f_body f with
    | Ok g => match n_means g with
              | Some l => map (fun p => (Q2R (fst p), Q2R (snd p))) l
              | None => []
              end
    | _ => []
    end.
  (** getCellSize() *)
  Definition sizeOf (f : frame) : R := match f_body f with Ok g => Q2R (n_cs g) | _ => 1 / 4 end.

  (** the registrations behind the matcher *)
  Variable d2d : frame -> frame -> T2 -> bool * T2.
  Variable corr : R -> list P2 -> list P2 -> T2 -> res (bool * T2).

  (** loop_detector.h:255-263 with slam2d.h:268-271, for a matcher in state [s] *)
  Definition loopMatch (s : mstate frame) (source target : frame) (guess : T2) : option (M3 * pose) :=
    match matchFrames cloudOf sizeOf d2d corr s source target guess with
    | Ok (_, r) => if mr_success r then Some (mr_inform r, getPoseFromTransform (mr_transform r)) else None
    | _ => None
    end.
  (** graph_slam2d_node.cpp:97 with ndt_slam_algorithm.h:103-106: a new matcher with
      the threshold of the parameters *)
  Definition matcherWith (limit : R) : mstate frame := setScoreThreshold newMatcher limit.
  (** loop_detector.h:128-145, 179-192 *)
  Definition detector (limit dmin dmax : R) (over : option bool) : lenv pose frame M3 T2 R :=
    mkLEnv Rplus ltR nodeDist edgeLen dmin dmax startGuess (loopMatch (matcherWith limit)) over.
End Close.
