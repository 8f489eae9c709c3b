(** Model of the SLAM front end NdtSlamAlgortihm (INC/ndt_slam_algorithm.h).

    Slam2D, the pose graph and the loop detector are the models of SlamModel.v.
    Abstract: the content of map frames and of the running window (with their
    update functions), the incremental scan matcher (its outcome is part of the
    input of a step), the optimiser's estimates and the addresses of new edges.
    A frame is owned by several shared pointers (frames_, the mapper, the node's
    holder); it is kept once, as the object of its graph node, and the other
    owners hold the node's number. *)
From Coq Require Import Reals List ZArith Bool.
From Verif Require Import Base LinAlg3 GeoModel GraphModel LoopModel SlamModel.
Import ListNotations.
Open Scope R_scope.

Section Alg.
Context {Body Win Scan Guess D : Type}.

(** FrameType: origin and content (ndt_grid2d.h:300-315) *)
Record frame := mkFrame { f_origin : pose; f_body : Body }.

(** What is fixed for the life of the object. *)
Record aenv := mkAEnv {
  e_lenv : lenv pose frame M3 Guess D;
  e_se2 : pose -> pose;
  e_odo : M3;                              (* slam2d.h:221-224 *)
  gen_dist : R;                            (* max_euclidean_distance_traveled_ *)
  b_new : Body;                            (* new FrameType() with cell_size_ *)
  b_init : Body -> list Scan -> Body;      (* initialize(pcl) *)
  b_merge : Body -> pose -> list Scan -> Body;  (* mergeInTraced(pcl, origin, true) *)
  s_move : T2 -> list Scan -> list Scan;   (* pcl::transformPointCloud *)
  w_new : list Scan -> Win;                (* lines 205-214 *)
  w_origin : Win -> pose;
  w_merge : Win -> list Scan -> T2 -> Win; (* lines 225-229, 268-270 *)
  w_move : Win -> T2 -> Win * T2 }.        (* line 272 *)

(** NDTGrid2DHolder::updatePosition (ndt_grid2d_holder.h:51-54) *)
Definition e_senv (env : aenv) : senv pose frame M3 Guess D :=
  mkSEnv (e_lenv env) (e_se2 env) (fun p f => mkFrame p (f_body f)) (e_odo env).

(** ndt_slam_algorithm.h:109-143 without the parameters *)
Record alg := mkAlg {
  a_init : bool; a_first : bool; a_last : nat;
  a_lcov : M3; a_ltrans : T2; a_unused : T2;
  a_pos : T2; a_cumul : T2; a_temp : T2; a_matcher : pose; a_ctemp : M3;
  a_map : list nat; a_win : option Win; a_frame : frame;
  a_slam : slam pose frame M3; a_frames : list nat }.

(** ndt_slam_algorithm.h:155-183; lcov: default CovarianceWrapper *)
Definition alg_new (env : aenv) : alg :=
  mkAlg false false 0 covar_new t2id t2id t2id t2id t2id (mkP 0 0 0) covar_new
    [] None (mkFrame (mkP 0 0 0) (b_new env)) slam_init [].

(** Input of one update(): the arguments; the outcome of the incremental matcher
    ([i_match]: hasConverged and the final transformation as a planar one, 245-247);
    memory addresses, loop detection choices and optimiser estimates. *)
Record ainput := mkIn {
  i_motion : T2; i_scan : list Scan; i_match : option T2;
  i_addr : addr; i_choice : lchoice D; i_fresh : nat -> addr; i_est : nat -> pose }.

(** Trace of what happens, for stating properties: increments handed to
    updateGraph, new nodes, outcome of the loop search, redrawn maps, scans merged
    into the current frame (origin of the frame, from which rays are traced, and
    how the scan was moved before), and the reported poses with their kind. *)
Inductive akind := KFirst | KSkip | KMatch (window : pose) (reg : T2) | KOdo.
Inductive aev := AInc (t : T2) | ANode (id : nat) | ALoop (b : bool) | ARedraw
| ADraw (o : pose) (m : T2) | ARep (k : akind) (p : pose).

(** ndt_slam_algorithm.h:388-396 *)
Definition movedEnough (t : T2) : bool :=
  if Rlt_dec (1 / 10) (Rabs (getAngle t)) then true
  else if Rlt_dec (2 / 10) (Rabs (getDisplacement t)) then true else false.
(** ndt_slam_algorithm.h:372-386 *)
Definition leftWindow (env : aenv) (t : T2) : bool :=
  if Rlt_dec (gen_dist env) (Rabs (getDisplacement t)) then true else false.

(** ndt_slam_algorithm.h:303-345, the branch that makes a node *)
Definition newNode (env : aenv) (a : alg) (i : ainput) (temp : T2) (ctemp : M3)
  : res (alg * list aev) :=
  let '(s1, id) := addPose (e_senv env) (a_slam a) (f_origin (a_frame a)) (a_frame a) in
  do s2 <- if a_first a
           then (do r <- addLastConstrain (e_senv env) s1 (i_addr i)
                           (getPoseFromTransform (a_ltrans a)) (minv (a_lcov a)); Ok (fst r))
           else Ok s1;
  do r3 <- tryLoopCloseLast (e_senv env) (i_choice i) (i_fresh i) s2;
  let '(s3, closed) := r3 in
  do s4 <- if closed then (do r <- optimalizeIterationaly (e_senv env) s3 (i_est i); Ok (fst r))
           else Ok s3;
  do after <- getPoseLocation s4 id;
  let pos := t2mul (getTransFromPose after) temp in
  let o := getPoseFromTransform pos in
  Ok (mkAlg (a_init a) true id ctemp temp (a_unused a) pos (a_cumul a) t2id (a_matcher a) covar_new
        (a_map a ++ [id]) (a_win a) (mkFrame o (b_merge env (b_new env) o (i_scan i)))
        s4 (a_frames a ++ [id]),
      [ANode id; ALoop closed] ++ (if closed then [ARedraw] else []) ++ [ADraw o t2id]).

(** ndt_slam_algorithm.h:294-370 *)
Definition updateGraph (env : aenv) (a : alg) (i : ainput) (inc : T2) (cov : M3)
  : res (alg * list aev) :=
  let temp := t2mul (a_temp a) inc in
  let ctemp := addToCovar (a_ctemp a) cov inc in
  if leftWindow env temp then
    do r <- newNode env a i temp ctemp; Ok (fst r, AInc inc :: snd r)
  else
    Ok (mkAlg (a_init a) (a_first a) (a_last a) (a_lcov a) (a_ltrans a) (a_unused a)
          (t2mul (a_pos a) inc) (a_cumul a) temp (a_matcher a) ctemp (a_map a) (a_win a)
          (mkFrame (f_origin (a_frame a))
             (b_merge env (f_body (a_frame a)) (f_origin (a_frame a)) (s_move env temp (i_scan i))))
          (a_slam a) (a_frames a),
        [AInc inc; ADraw (f_origin (a_frame a)) temp]).

(** ndt_slam_algorithm.h:185-292.  The first branch is 204-221 *)
Definition firstScan (env : aenv) (a : alg) (i : ainput) : alg :=
  mkAlg true (a_first a) (a_last a) (a_lcov a) (a_ltrans a) (a_unused a)
    t2id (a_cumul a) (a_temp a) (mkP 0 0 0) (a_ctemp a) (a_map a) (Some (w_new env (i_scan i)))
    (mkFrame (mkP 0 0 0) (b_init env (f_body (a_frame a)) (i_scan i))) (a_slam a) (a_frames a).
Definition setUnused (a : alg) (t : T2) : alg :=
  mkAlg (a_init a) (a_first a) (a_last a) (a_lcov a) (a_ltrans a) t (a_pos a) (a_cumul a) (a_temp a)
    (a_matcher a) (a_ctemp a) (a_map a) (a_win a) (a_frame a) (a_slam a) (a_frames a).
Definition setMatcher (a : alg) (p : pose) : alg :=
  mkAlg (a_init a) (a_first a) (a_last a) (a_lcov a) (a_ltrans a) (a_unused a) (a_pos a) (a_cumul a) (a_temp a)
    p (a_ctemp a) (a_map a) (a_win a) (a_frame a) (a_slam a) (a_frames a).
Definition setWindow (a : alg) (w : Win) (c : T2) : alg :=
  mkAlg (a_init a) (a_first a) (a_last a) (a_lcov a) (a_ltrans a) (a_unused a) (a_pos a) c (a_temp a)
    (a_matcher a) (a_ctemp a) (a_map a) (Some w) (a_frame a) (a_slam a) (a_frames a).

Definition update (env : aenv) (a : alg) (i : ainput) : res (alg * list aev) :=
  match a_init a, a_win a with
  | false, _ => Ok (firstScan env a i, [ADraw (mkP 0 0 0) t2id; ARep KFirst (getPoseFromTransform t2id)])
  | true, None => UB  (* not reachable *)
  | true, Some w =>
      let unused := t2mul (a_unused a) (i_motion i) in
      if movedEnough unused then
        let a1 := setUnused a t2id in
        match i_match i with
        | Some reg =>
            let mp := getPoseFromTransform (t2mul (getTransFromPose (w_origin env w)) reg) in
            let inc := t2mul (t2inv (getTransFromPose (a_matcher a))) (getTransFromPose mp) in
            do r <- updateGraph env (setMatcher a1 mp) i inc (mscale (1 / 100) mid);
            let '(w2, c) := w_move env (w_merge env w (i_scan i) reg) reg in
            let a3 := setWindow (fst r) w2 c in
            Ok (a3, snd r ++ [ARep (KMatch (w_origin env w) reg) (getPoseFromTransform (a_pos a3))])
        | None =>
            do r <- updateGraph env a1 i (i_motion i) (mscale 100 mid);
            Ok (fst r, snd r ++ [ARep KOdo (getPoseFromTransform (a_pos (fst r)))])
        end
      else
        Ok (setUnused a unused, [ARep KSkip (getPoseFromTransform (t2mul (a_pos a) (i_motion i)))])
  end.

(** Sequences of updates; the trace is kept newest first. *)
Definition astep (env : aenv) (st : alg * list aev) (i : ainput) : res (alg * list aev) :=
  do r <- update env (fst st) i; Ok (fst r, rev (snd r) ++ snd st).
Definition arun (env : aenv) (l : list ainput) : res (alg * list aev) :=
  foldM (astep env) l (alg_new env, []).
End Alg.
Arguments frame : clear implicits.
Arguments aenv : clear implicits.
Arguments alg : clear implicits.
Arguments ainput : clear implicits.
