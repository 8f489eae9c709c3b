(** Model of Slam2D::initializeGrapFromOdom (INC/slam_optimizer/slam2d.h:449-478): the poses
    of the graph are set to the way the odometry tells.  No function calls it.

    A loop that need not end is given a number of rounds; the result tells whether it
    ended within them. *)
From Coq Require Import List ZArith Bool Arith.
From Verif Require Import Base GraphModel LoopModel SlamModel.
Import ListNotations.
Open Scope nat_scope.

Section Seed.
Context {Pose Obj Info : Type}.
Notation graph := (graph Pose Obj Info).
Notation slam := (slam Pose Obj Info).
Notation edge := (edge Pose Info).
(** slam2d.h:455-456: pose << 0, 0, 0 *)
Variable zero : Pose.
(** slam2d.h:468-469: eigt::transformConcat(pose, e->getTransMatrix()) *)
Variable concat : Pose -> Pose -> Pose.

(** slam2d.h:460-465 and 471-476: the first pointer of getEdgesOut() to an edge of type ODOM *)
Fixpoint firstOdom (es : list (option (addr * edge))) (l : list addr) : res (option edge) :=
  match l with
  | [] => Ok None
  | a :: t => match find_addr es a with
              | None => UB  (* dangling pointer *)
              | Some (_, e) => if e_loop e then firstOdom es t else Ok (Some e)
              end
  end.
(** slam2d.h:466-477 *)
Fixpoint walk (rounds : nat) (s : slam) (next : option edge) : res (slam * bool) :=
  match next with
  | None => Ok (s, true)
  | Some e =>
      match rounds with
      | O => Ok (s, false)
      | S r =>
          do nt <- vget (g_nodes (s_graph s)) (e_to e);
          do nf <- vget (g_nodes (s_graph s)) (e_from e);
          do g <- modNode (s_graph s) (n_id nt) (n_setPose (concat (n_pose nf) (e_trans e)));
          do n <- getNode g (n_id nt);
          do nx <- firstOdom (g_edges g) (n_out n);
          walk r (with_graph s g) nx
      end
  end.
(** slam2d.h:449-478 *)
Definition initializeGrapFromOdom (rounds : nat) (s : slam) : res (slam * bool) :=
  if negb (s_first_added s) then Ok (s, true)
  else
    do g <- modNode (s_graph s) (s_first s) (n_setPose zero);
    do n <- getNode g (s_first s);
    do nx <- firstOdom (g_edges g) (n_out n);
    walk rounds (with_graph s g) nx.
End Seed.
