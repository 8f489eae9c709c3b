(** Model of Slam2D (INC/slam_optimizer/slam2d.h): the pose graph, the g2o
    graph kept beside it, and the operations on both.

    g2o itself is not modelled: optimising replaces the estimates of the vertices
    that are not fixed by arbitrary poses ([SOptimize est]); fixed vertices and
    the structure are left alone (g2o's contract for SparseOptimizer).  Logging,
    the text/marker output (ExportModel.v, TextModel.v), initializeGrapFromOdom
    (SeedModel.v) and the unused addMaxMixtureEdge and addSwitchConstrainEdge
    (388-447, RobustModel.v) are left out here. *)
From Coq Require Import List ZArith Bool Arith.
From Verif Require Import Base GraphModel LoopModel.
Import ListNotations.
Open Scope nat_scope.

Section Slam.
Context {Pose Obj Info Guess D : Type}.
Notation graph := (graph Pose Obj Info).
Notation lenv := (lenv Pose Obj Info Guess D).
Notation lchoice := (lchoice D).

(** What is fixed for the life of a Slam2D object. *)
Record senv := mkSEnv {
  s_lenv : lenv;                      (* loop detector and scan matcher *)
  se2 : Pose -> Pose;                 (* g2o::SE2(x, y, theta).toVector() *)
  updPos : Pose -> Obj -> Obj;        (* T::updatePosition *)
  odo_info : Info }.                  (* diag(500, 500, 5000), lines 221-224 *)

(** g2o::VertexSE2 and g2o::EdgeSE2; a null vertex pointer is None *)
Record vertex := mkVtx { v_id : nat; v_est : Pose; v_fixed : bool }.
Record gedge := mkGE { ge_id : nat; ge_from : option nat; ge_to : option nat;
                       ge_meas : Pose; ge_info : Info }.

(** slam2d.h:122-146.  [s_verts], [s_gedges]: content of g2o_opt_;
    [s_map]: id_to_g2o_vertex_, a vertex pointer being an index into [s_verts].
    nodes_to_edge_id_ is only written and left out. *)
Record slam := mkSlam {
  s_graph : graph;
  s_last : nat; s_prev : nat; s_first : nat; s_first_added : bool;
  s_eseq : nat; s_vseq : nat;
  s_verts : list vertex; s_gedges : list gedge;
  s_map : list (nat * nat) }.

(** slam2d.h:56-75 *)
Definition slam_init : slam := mkSlam gempty 0 0 0 false 0 0 [] [] [].

(** std::unordered_map operator[] for reading and writing *)
Fixpoint map_get (m : list (nat * nat)) (k : nat) : option nat :=
  match m with
  | [] => None
  | (a, b) :: t => if a =? k then Some b else map_get t k
  end.
Fixpoint map_set (m : list (nat * nat)) (k v : nat) : list (nat * nat) :=
  match m with
  | [] => [(k, v)]
  | (a, b) :: t => if a =? k then (a, v) :: t else (a, b) :: map_set t k v
  end.

(** slam2d.h:187-212 *)
Definition addPose (env : senv) (s : slam) (p : Pose) (o : Obj) : slam * nat :=
  let '(g, id) := addNode (s_graph s) p o in
  let fixed := negb (s_first_added s) in
  let v := mkVtx (s_vseq s) (se2 env p) fixed in
  (mkSlam g id (if s_first_added s then s_last s else s_prev s)
     (if s_first_added s then s_first s else id) true
     (s_eseq s) (S (s_vseq s)) (s_verts s ++ [v]) (s_gedges s)
     (map_set (s_map s) id (length (s_verts s))), id).

(** slam2d.h:214-244.  [a]: address of the new Edge; the argument inform_mat is
    not used by the code. *)
Definition addConstrain (env : senv) (s : slam) (a : addr) (from to : nat) (t : Pose) (i : Info)
  : res (slam * nat) :=
  do nf <- getNode (s_graph s) from;
  do nt <- getNode (s_graph s) to;
  do r <- addEdge (s_graph s) a (newEdge (n_id nf) (n_id nt) t (odo_info env));
  let '(g, id) := r in
  do g1 <- modEdge g id (e_setState Active);
  do g2 <- modEdge g1 id (e_setLoop false);
  let ge := mkGE (s_eseq s) (map_get (s_map s) from) (map_get (s_map s) to)
                 (se2 env t) (odo_info env) in
  Ok (mkSlam g2 (s_last s) (s_prev s) (s_first s) (s_first_added s)
       (S (s_eseq s)) (s_vseq s) (s_verts s) (s_gedges s ++ [ge]) (s_map s), id).

(** slam2d.h:246-251 *)
Definition addLastConstrain (env : senv) (s : slam) (a : addr) (t : Pose) (i : Info) : res (slam * nat) :=
  addConstrain env s a (s_prev s) (s_last s) t i.

Definition with_graph (s : slam) (g : graph) : slam :=
  mkSlam g (s_last s) (s_prev s) (s_first s) (s_first_added s)
    (s_eseq s) (s_vseq s) (s_verts s) (s_gedges s) (s_map s).

(** slam2d.h:267-297, body of the loop; [fresh k]: address of the k-th new edge *)
Definition addClosure (env : senv) (fresh : nat -> addr) (st : slam * nat) (c : closure Pose Info)
  : res (slam * nat) :=
  let '(s, k) := st in
  do r <- addConstrain env s (fresh k) (lc_from c) (lc_to c) (lc_trans c) (lc_info c);
  do g <- modEdge (s_graph (fst r)) (snd r) (e_setLoop true);
  Ok (with_graph (fst r) g, S k).

(** slam2d.h:260-302 *)
Definition tryLoopClose (env : senv) (ch : lchoice) (fresh : nat -> addr) (s : slam) (id : nat)
  : res (slam * bool) :=
  do r <- genLoopClosures (s_lenv env) ch (s_graph s) id;
  let '(g, loops, _) := r in
  do st <- foldM (addClosure env fresh) loops (with_graph s g, 0);
  Ok (fst st, 0 <? length loops).

(** slam2d.h:253-258 *)
Definition tryLoopCloseLast (env : senv) (ch : lchoice) (fresh : nat -> addr) (s : slam)
  : res (slam * bool) :=
  tryLoopClose env ch fresh s (s_last s).

(** slam2d.h:480-491, body of the loop *)
Definition pullVertex (env : senv) (s : slam) (kv : nat * nat) : res slam :=
  do v <- vget (s_verts s) (snd kv);
  do g1 <- modNode (s_graph s) (fst kv) (n_setPose (v_est v));
  do n <- getNode g1 (fst kv);
  do g2 <- modNode g1 (fst kv) (n_setObj (updPos env (v_est v) (n_obj n)));
  Ok (with_graph s g2).
Definition updatePoseGraph (env : senv) (s : slam) : res slam :=
  foldM (pullVertex env) (s_map s) s.

(** slam2d.h:157-172; the g2o part is [moveVerts]. *)
Definition moveVerts (est : nat -> Pose) (l : list vertex) : list vertex :=
  map (fun v => if v_fixed v then v else mkVtx (v_id v) (est (v_id v)) (v_fixed v)) l.
Definition optimalize (env : senv) (s : slam) (est : nat -> Pose) : res (slam * bool) :=
  do s' <- updatePoseGraph env
       (mkSlam (s_graph s) (s_last s) (s_prev s) (s_first s) (s_first_added s)
          (s_eseq s) (s_vseq s) (moveVerts est (s_verts s)) (s_gedges s) (s_map s));
  Ok (s', true).
(** slam2d.h:174-179 *)
Definition optimalizeIterationaly (env : senv) (s : slam) (est : nat -> Pose) : res (slam * bool) :=
  do r <- optimalize env s est; Ok (fst r, true).

(** slam2d.h:304-335 *)
Definition getPoseLocation (s : slam) (id : nat) : res Pose :=
  do n <- getNode (s_graph s) id; Ok (n_pose n).
Definition getPoseData (s : slam) (id : nat) : res Obj :=
  do n <- getNode (s_graph s) id; Ok (n_obj n).
Definition getConstrainTransform (s : slam) (id : nat) : res Pose :=
  do e <- getEdge (s_graph s) id; Ok (e_trans e).
Definition getConstrainInformMat (s : slam) (id : nat) : res Info :=
  do e <- getEdge (s_graph s) id; Ok (e_info e).
Definition getConstrainPoses (s : slam) (id : nat) : res (nat * nat) :=
  do e <- getEdge (s_graph s) id;
  do nf <- vget (g_nodes (s_graph s)) (e_from e);
  do nt <- vget (g_nodes (s_graph s)) (e_to e);
  Ok (n_id nf, n_id nt).

(** ** Histories *)
Inductive sop :=
| SAddPose (p : Pose) (o : Obj)
| SAddConstr (a : addr) (from to : nat) (t : Pose) (i : Info)
| SAddLast (a : addr) (t : Pose) (i : Info)
| SLoop (id : nat) (ch : lchoice) (fresh : nat -> addr)
| SLoopLast (ch : lchoice) (fresh : nat -> addr)
| SOptimize (est : nat -> Pose).

(** What the caller sees. *)
Inductive sev :=
| SvPose (id : nat) (p : Pose) (o : Obj)
| SvEdge (id from to : nat) (t : Pose) (i : Info)
| SvLast (id : nat) (t : Pose) (i : Info)
| SvLoop (b : bool)
| SvOpt
| SvThrow.

Definition sstep (env : senv) (s : slam) (o : sop) : res (slam * sev) :=
  match o with
  | SAddPose p x => let '(s', id) := addPose env s p x in Ok (s', SvPose id p x)
  | SAddConstr a f t tr i => do r <- addConstrain env s a f t tr i; Ok (fst r, SvEdge (snd r) f t tr i)
  | SAddLast a tr i => do r <- addLastConstrain env s a tr i; Ok (fst r, SvLast (snd r) tr i)
  | SLoop id ch fresh => do r <- tryLoopClose env ch fresh s id; Ok (fst r, SvLoop (snd r))
  | SLoopLast ch fresh => do r <- tryLoopCloseLast env ch fresh s; Ok (fst r, SvLoop (snd r))
  | SOptimize est => do r <- optimalize env s est; Ok (fst r, SvOpt)
  end.

(** Every exception above is thrown before anything has been changed, so the
    object is still in its old state for the caller that catches it.  The log is
    kept newest first. *)
Definition sstep_log (env : senv) (st : slam * list sev) (o : sop) : res (slam * list sev) :=
  match sstep env (fst st) o with
  | Ok (s', ev) => Ok (s', ev :: snd st)
  | Throw => Ok (fst st, SvThrow :: snd st)
  | UB => UB
  end.
Definition srun (env : senv) (l : list sop) : res (slam * list sev) :=
  foldM (sstep_log env) l (slam_init, []).

End Slam.
Arguments senv : clear implicits.
Arguments vertex : clear implicits.
Arguments gedge : clear implicits.
Arguments slam : clear implicits.
Arguments sop : clear implicits.
Arguments sev : clear implicits.
