(** Specification vocabulary for loop detection. *)
From Coq Require Import List ZArith Bool Arith.
From Verif Require Import Base GraphModel LoopModel.
Import ListNotations.
Open Scope nat_scope.

Section Spec.
Context {Pose Obj Info Guess D : Type}.
Notation graph := (graph Pose Obj Info).
Notation edge := (edge Pose Info).

(** [e] is a live edge of the graph. *)
Definition has_edge (g : graph) (e : edge) : Prop :=
  exists id a, nth_error (g_edges g) id = Some (Some (a, e)).

(** [d] is the sum of [init] and the edge lengths along a walk against the
    edge direction from [q] to [c]. *)
Inductive back_walk (add : D -> D -> D) (len : Pose -> D) (g : graph) (init : D) (q : nat)
  : nat -> D -> Prop :=
| bw_first e : has_edge g e -> e_to e = q ->
    back_walk add len g init q (e_from e) (add init (len (e_trans e)))
| bw_more m d e : back_walk add len g init q m d -> has_edge g e -> e_to e = m ->
    back_walk add len g init q (e_from e) (add d (len (e_trans e))).

(** [c] can be reached from [q] against the edge direction. *)
Inductive back_reach (g : graph) (q : nat) : nat -> Prop :=
| br_refl : back_reach g q q
| br_step m e : back_reach g q m -> has_edge g e -> e_to e = m -> back_reach g q (e_from e).

(** No marks left by an earlier query. *)
Definition unmarked (g : graph) : Prop :=
  (forall n, In n (g_nodes g) -> n_visited n = false) /\
  (forall e, has_edge g e -> e_used e = false).

(** Every node starts at most one edge, as on a robot's way without loops. *)
Definition single_out (g : graph) : Prop :=
  forall i j a b e f, nth_error (g_edges g) i = Some (Some (a, e)) ->
    nth_error (g_edges g) j = Some (Some (b, f)) -> e_from e = e_from f -> i = j.
End Spec.
