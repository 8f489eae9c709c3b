(** Model of the output of the graph: Slam2D::getGraphSerialized in both forms and
    createArrowMarkers (INC/slam_optimizer/slam2d.h), and of a viewer that gets the
    markers again and again (visualization_msgs/Marker: an ADD with the namespace and
    id of an earlier one replaces it).

    The unused createListMarkers is in PrintModel.v.  Sizes, frame and time of a
    marker are constants and left out. *)
From Coq Require Import List ZArith Bool Arith.
From Verif Require Import Base GraphModel LoopModel SlamModel.
Import ListNotations.
Open Scope nat_scope.

Section Export.
Context {Pose Obj Info Guess D P : Type}.
Notation slam := (slam Pose Obj Info).
Notation senv := (senv Pose Obj Info Guess D).
Notation edge := (edge Pose Info).
(** the first two entries of a pose *)
Variable xy : Pose -> P.
(** what reading one element past the end of a vector gives (see [visitEdgesPre]) *)
Variable oob : option bool.

Inductive colour := Red | Green.
(** marker.id, the two points, the colour *)
Record arrow := mkArrow { ar_id : nat; ar_start : P; ar_end : P; ar_colour : colour }.

(** slam2d.h:501-543, body of the loop: [it->getFrom()] is a node pointer *)
Definition addArrow (s : slam) (st : list arrow * nat) (ae : addr * edge) : res (list arrow * nat) :=
  let '(ms, id) := st in
  do nf <- vget (g_nodes (s_graph s)) (e_from (snd ae));
  do nt <- vget (g_nodes (s_graph s)) (e_to (snd ae));
  Ok (ms ++ [mkArrow id (xy (n_pose nf)) (xy (n_pose nt)) (if e_loop (snd ae) then Green else Red)], S id).
(** slam2d.h:493-545, createArrowMarkers; 367-372 *)
Definition graphMarkers (s : slam) : res (list arrow) :=
  do es <- visitEdgesPre oob (s_graph s);
  do st <- foldM (addArrow s) es ([], 0);
  Ok (fst st).

(** slam2d.h:374-387, one line per node and one per edge *)
Inductive line := LNode (id : nat) (p : P) | LEdge (from to : nat).
Definition edgeLine (s : slam) (ls : list line) (ae : addr * edge) : res (list line) :=
  do nf <- vget (g_nodes (s_graph s)) (e_from (snd ae));
  do nt <- vget (g_nodes (s_graph s)) (e_to (snd ae));
  Ok (ls ++ [LEdge (n_id nf) (n_id nt)]).
Definition graphText (s : slam) : res (list line) :=
  do ns <- visitNodesPre oob (s_graph s);
  do es <- visitEdgesPre oob (s_graph s);
  foldM (edgeLine s) es (map (fun n => LNode (n_id n) (xy (n_pose n))) ns).

(** ** A viewer *)
Definition display := nat -> option arrow.
Definition blank : display := fun _ => None.
Definition showArrow (d : display) (m : arrow) : display :=
  fun id => if id =? ar_id m then Some m else d id.
Inductive hop := HCall (o : sop Pose Obj Info D) | HPublish.
Definition hstep (env : senv) (st : slam * list (sev Pose Obj Info) * display) (h : hop)
  : res (slam * list (sev Pose Obj Info) * display) :=
  let '(s, log, d) := st in
  match h with
  | HCall o => do r <- sstep_log env (s, log) o; Ok (fst r, snd r, d)
  | HPublish => do ms <- graphMarkers s; Ok (s, log, fold_left showArrow ms d)
  end.
Definition hrun (env : senv) (l : list hop) : res (slam * list (sev Pose Obj Info) * display) :=
  foldM (hstep env) l (slam_init, [], blank).
End Export.
Arguments arrow : clear implicits.
Arguments line : clear implicits.
Arguments hop : clear implicits.
