(** Specification vocabulary for the pose graph: what the caller can conclude
    from the log of earlier calls alone (newest event first). *)
From Coq Require Import List ZArith Bool Arith.
From Verif Require Import Base GraphModel.
Import ListNotations.
Open Scope nat_scope.

Section Spec.
Context {Pose Obj Info : Type}.
Notation gev := (gev Pose Obj Info).

Record edge_data := mkED { d_from : nat; d_to : nat; d_trans : Pose; d_info : Info }.

(** The edge the caller believes to be stored under [id]. *)
Fixpoint live_edge (log : list gev) (id : nat) : option edge_data :=
  match log with
  | [] => None
  | EvEdge i f t tr inf :: r =>
      if i =? id then Some (mkED f t tr inf) else live_edge r id
  | EvRemoved i :: r => if i =? id then None else live_edge r id
  | _ :: r => live_edge r id
  end.

(** Has [id] ever been returned by addEdge? *)
Fixpoint edge_id_used (log : list gev) (id : nat) : bool :=
  match log with
  | [] => false
  | EvEdge i _ _ _ _ :: r => (i =? id) || edge_id_used r id
  | _ :: r => edge_id_used r id
  end.

Fixpoint live_node (log : list gev) (id : nat) : option (Pose * Obj) :=
  match log with
  | [] => None
  | EvNode i p o :: r => if i =? id then Some (p, o) else live_node r id
  | _ :: r => live_node r id
  end.

Definition data_of (e : edge Pose Info) : edge_data :=
  mkED (e_from e) (e_to e) (e_trans e) (e_info e).

(** Live edges in id order, with their addresses. *)
Fixpoint somes {A} (l : list (option A)) : list A :=
  match l with
  | [] => []
  | Some x :: t => x :: somes t
  | None :: t => somes t
  end.

Definition no_removal (l : list (gop Pose Obj Info)) : bool :=
  forallb (fun o => match o with GRemove _ => false | _ => true end) l.
End Spec.
