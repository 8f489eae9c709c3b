(** Model of the pose graph (INC/slam_optimizer/pose_graph.h).

    Generic in the pose, node data and information matrix types.  Nodes are
    never removed and live behind unique_ptr, so a Node pointer is the index of
    the node.  Edges are deleted, so an Edge pointer is an address chosen by the
    allocator: an operation that allocates takes the address as an argument,
    every choice except the address of a live edge being possible (the memory of
    a deleted edge may be handed out again). *)
From Coq Require Import List ZArith Bool Arith.
From Verif Require Import Base.
Import ListNotations.
Open Scope nat_scope.

Definition addr := nat.

(** pose_graph.h:561 *)
Inductive estate := Removed | Temp | Active | Constructed.

Section Graph.
Context {Pose Obj Info : Type}.

(** pose_graph.h:603-611; [e_loop]: type_ == LOOP (562) *)
Record edge := mkEdge {
  e_id : nat; e_from : nat; e_to : nat;
  e_state : estate; e_loop : bool; e_used : bool;
  e_trans : Pose; e_info : Info }.

(** pose_graph.h:415-421 *)
Record node := mkNode {
  n_id : nat; n_visited : bool; n_pose : Pose; n_obj : Obj;
  n_out : list addr; n_in : list addr }.

(** pose_graph.h:71-74; [id_node_pool_] is never written and left out; the head
    of [g_pool] is the back of id_edge_pool_. *)
Record graph := mkGraph {
  g_edges : list (option (addr * edge));
  g_nodes : list node;
  g_pool : list nat }.

(** pose_graph.h:32 *)
Definition gempty : graph := mkGraph [] [] [].

(** pose_graph.h:374-377 *)
Definition newNode (p : Pose) (o : Obj) : node := mkNode 0 false p o [] [].
(** pose_graph.h:574-585 *)
Definition newEdge (from to : nat) (t : Pose) (i : Info) : edge :=
  mkEdge 0 from to Constructed false false t i.

(** pose_graph.h:499-502, 436-439, 511-514, 535 *)
Definition n_setId (n : node) (i : nat) : node :=
  mkNode i (n_visited n) (n_pose n) (n_obj n) (n_out n) (n_in n).
Definition n_setPose (p : Pose) (n : node) : node :=
  mkNode (n_id n) (n_visited n) p (n_obj n) (n_out n) (n_in n).
Definition n_setVisited (b : bool) (n : node) : node :=
  mkNode (n_id n) b (n_pose n) (n_obj n) (n_out n) (n_in n).
Definition n_setObj (o : Obj) (n : node) : node :=
  mkNode (n_id n) (n_visited n) (n_pose n) o (n_out n) (n_in n).
(** pose_graph.h:630-633, 674-677, 686-689, 698-701 *)
Definition e_setId (e : edge) (i : nat) : edge :=
  mkEdge i (e_from e) (e_to e) (e_state e) (e_loop e) (e_used e) (e_trans e) (e_info e).
Definition e_setState (s : estate) (e : edge) : edge :=
  mkEdge (e_id e) (e_from e) (e_to e) s (e_loop e) (e_used e) (e_trans e) (e_info e).
Definition e_setLoop (b : bool) (e : edge) : edge :=
  mkEdge (e_id e) (e_from e) (e_to e) (e_state e) b (e_used e) (e_trans e) (e_info e).
Definition e_setUsed (b : bool) (e : edge) : edge :=
  mkEdge (e_id e) (e_from e) (e_to e) (e_state e) (e_loop e) b (e_trans e) (e_info e).

(** pose_graph.h:451-461 and 463-473: std::find, then push_back *)
Definition addPtr (l : list addr) (a : addr) : list addr :=
  if existsb (Nat.eqb a) l then l else l ++ [a].
Definition n_addOut (a : addr) (n : node) : node :=
  mkNode (n_id n) (n_visited n) (n_pose n) (n_obj n) (addPtr (n_out n) a) (n_in n).
Definition n_addIn (a : addr) (n : node) : node :=
  mkNode (n_id n) (n_visited n) (n_pose n) (n_obj n) (n_out n) (addPtr (n_in n) a).

(** access through a vector element: nodes_[i]->f() *)
Definition onNode (l : list node) (i : nat) (f : node -> node) : res (list node) :=
  do n <- vget l i; Ok (upd l i (f n)).

(** pose_graph.h:112-131 *)
Definition addNode (g : graph) (p : Pose) (o : Obj) : graph * nat :=
  let id := length (g_nodes g) in
  (mkGraph (g_edges g) (g_nodes g ++ [n_setId (newNode p o) id]) (g_pool g), id).

(** Is the address in use by a live edge? *)
Definition live_addr (g : graph) (a : addr) : bool :=
  existsb (fun s => match s with Some (b, _) => a =? b | None => false end) (g_edges g).

(** pose_graph.h:77-97.  [UB] if the end points are not nodes of this graph.  The
    allocator never returns the address of a live object; such choices are
    excluded by giving them no defined result. *)
Definition addEdge (g : graph) (a : addr) (e : edge) : res (graph * nat) :=
  if live_addr g a then UB else
  do s <- match g_pool g with
          | [] => Ok (g_edges g ++ [Some (a, e)], [], length (g_edges g))
          | f :: t => do l <- vset (g_edges g) f (Some (a, e)); Ok (l, t, f)
          end;
  let '(es, pool, id) := s in
  do es' <- vset es id (Some (a, e_setId e id));
  do nf <- vget (g_nodes g) (e_from e);
  do ns1 <- onNode (g_nodes g) (n_id nf) (n_addOut a);
  do nt <- vget ns1 (e_to e);
  do ns2 <- onNode ns1 (n_id nt) (n_addIn a);
  Ok (mkGraph es' ns2 pool, id).

(** pose_graph.h:99-110 *)
Definition removeEdge (g : graph) (id : nat) : res (graph * bool) :=
  if length (g_edges g) <? id then Ok (g, false)
  else if existsb (Nat.eqb id) (g_pool g) then Ok (g, false)
  else do es <- vset (g_edges g) id None;
       Ok (mkGraph es (g_nodes g) (id :: g_pool g), true).

(** pose_graph.h:133-157 *)
Definition getEdge (g : graph) (id : nat) : res edge :=
  if length (g_edges g) <=? id then Throw
  else if existsb (Nat.eqb id) (g_pool g) then Throw
  else do s <- vget (g_edges g) id;
       match s with Some (_, e) => Ok e | None => UB end.

(** pose_graph.h:159-177 *)
Definition getNode (g : graph) (id : nat) : res node :=
  if length (g_nodes g) <=? id then Throw else vget (g_nodes g) id.

(** pose_graph.h:226-235 *)
Definition edgeCount (g : graph) : Z := u64 (Z.of_nat (length (g_edges g)) - Z.of_nat (length (g_pool g))).
Definition nodeCount (g : graph) : nat := length (g_nodes g).

(** getEdge(id).set...() and getNode(id).set...() *)
Definition modEdge (g : graph) (id : nat) (f : edge -> edge) : res graph :=
  do _ <- getEdge g id;
  do s <- vget (g_edges g) id;
  match s with
  | Some (a, e) => Ok (mkGraph (upd (g_edges g) id (Some (a, f e))) (g_nodes g) (g_pool g))
  | None => UB
  end.
Definition modNode (g : graph) (id : nat) (f : node -> node) : res graph :=
  do n <- getNode g id;
  Ok (mkGraph (g_edges g) (upd (g_nodes g) id (f n)) (g_pool g)).

(** ** Iterators (pose_graph.h:246-360)

    An iterator is the rest of the vector from the current position.  [oob]
    says what reading one element past the end of the vector gives: [None] is
    the language's answer (undefined behaviour), [Some null] is what a machine
    would do if the read happens not to trap, [null] telling whether the bits
    found there look like a null pointer. *)
Section Iter.
Context {A : Type}.
Variable oob : option bool.

(** lines 264-272 / 322-330: [while ( *current_ == nullptr && current_ != end_)] *)
Fixpoint skip_pre (l : list (option A)) : res (list (option A)) :=
  match l with
  | [] => match oob with
          | None => UB
          | Some null => if null then Ok [] (* current_ != end_ is false *) else Ok []
          end
  | None :: t => skip_pre t
  | Some _ :: _ => Ok l
  end.

(** lines 273-281 / 331-339: [while (current_ != end_ && current_->get() == nullptr)] *)
Fixpoint skip_post (l : list (option A)) : list (option A) :=
  match l with
  | [] => []
  | None :: t => skip_post t
  | Some _ :: _ => l
  end.

(** for (it = begin; it != end; ++it) visit( *it ): collects the visited objects.
    [n] is fuel; running out of it is reported as UB and shown impossible. *)
Fixpoint iter_pre (n : nat) (l : list (option A)) : res (list A) :=
  match n, l with
  | _, [] => Ok []
  | O, _ => UB
  | S n', None :: _ => UB
  | S n', Some x :: t => do r <- skip_pre t; do xs <- iter_pre n' r; Ok (x :: xs)
  end.
(** the same loop with it++ *)
Fixpoint iter_post (n : nat) (l : list (option A)) : res (list A) :=
  match n, l with
  | _, [] => Ok []
  | O, _ => UB
  | S n', None :: _ => UB
  | S n', Some x :: t => do xs <- iter_post n' (skip_post t); Ok (x :: xs)
  end.
End Iter.

(** pose_graph.h:179-224: beginEdge/endEdge, beginNode/endNode *)
Definition visitEdgesPre (oob : option bool) (g : graph) : res (list (addr * edge)) :=
  iter_pre oob (length (g_edges g)) (g_edges g).
Definition visitEdgesPost (g : graph) : res (list (addr * edge)) :=
  iter_post (length (g_edges g)) (g_edges g).
Definition visitNodesPre (oob : option bool) (g : graph) : res (list node) :=
  iter_pre oob (length (g_nodes g)) (map Some (g_nodes g)).

(** ** Histories *)
Inductive gop :=
| GAddNode (p : Pose) (o : Obj)
| GAddEdge (a : addr) (from to : nat) (t : Pose) (i : Info)
| GRemove (id : nat).

(** What the caller sees. *)
Inductive gev :=
| EvNode (id : nat) (p : Pose) (o : Obj)
| EvEdge (id from to : nat) (t : Pose) (i : Info)
| EvRemoved (id : nat)
| EvNotRemoved (id : nat).

Definition gstep (g : graph) (o : gop) : res (graph * gev) :=
  match o with
  | GAddNode p x => let '(g', id) := addNode g p x in Ok (g', EvNode id p x)
  | GAddEdge a f t tr i =>
      do r <- addEdge g a (newEdge f t tr i); Ok (fst r, EvEdge (snd r) f t tr i)
  | GRemove id =>
      do r <- removeEdge g id;
      Ok (fst r, if snd r : bool then EvRemoved id else EvNotRemoved id)
  end.

(** The log is kept newest first. *)
Definition grun (l : list gop) : res (graph * list gev) :=
  foldM (fun s o => do r <- gstep (fst s) o; Ok (fst r, snd r :: snd s)) l (gempty, []).

End Graph.
Arguments edge : clear implicits.
Arguments node : clear implicits.
Arguments graph : clear implicits.
Arguments gop : clear implicits.
Arguments gev : clear implicits.
