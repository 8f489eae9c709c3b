(** The way the odometry tells, from the log of earlier calls. *)
From Coq Require Import List ZArith Bool Arith.
From Verif Require Import Base GraphModel LoopModel SlamModel SlamSpec.
Import ListNotations.
Open Scope nat_scope.

Section Spec.
Context {Pose Obj Info : Type}.
Notation sev := (sev Pose Obj Info).
(** The caller added a constraint under [id] from pose [k] to pose [to]. *)
Definition leaves (log : list sev) (k id to : nat) (t : Pose) : Prop :=
  exists i, known_constr log id = Some (k, to, t, i).
(** The first one of those that leave [k]. *)
Definition next_odo (log : list sev) (k to : nat) (t : Pose) : Prop :=
  exists id, leaves log k id to t /\ forall j to' t', j < id -> ~ leaves log k j to' t'.
Definition no_odo (log : list sev) (k : nat) : Prop := forall id to t, ~ leaves log k id to t.
(** Going along them from [k] until none leaves any more: the poses on the way and the
    transforms that lead to them. *)
Inductive odo_way (log : list sev) : nat -> list (nat * Pose) -> Prop :=
| way_end k : no_odo log k -> odo_way log k []
| way_on k to t l : next_odo log k to t -> odo_way log to l -> odo_way log k ((to, t) :: l).

Variable concat : Pose -> Pose -> Pose.
(** Dead reckoning along a way from [p]. *)
Fixpoint reckon (p : Pose) (l : list (nat * Pose)) : list (nat * Pose) :=
  match l with
  | [] => []
  | (k, t) :: r => (k, concat p t) :: reckon (concat p t) r
  end.
(** Everything but the places of the poses is as it was. *)
Definition rest_kept (s s' : slam Pose Obj Info) : Prop :=
  (forall k, getPoseData s' k = getPoseData s k) /\
  (forall id, getConstrainPoses s' id = getConstrainPoses s id /\ getConstrainTransform s' id = getConstrainTransform s id) /\
  s_verts s' = s_verts s /\ s_gedges s' = s_gedges s.
(** Every pose but the last is followed by the next one. *)
Definition in_a_row (log : list sev) (t : nat -> Pose) : Prop :=
  (forall k, S k < n_poses log -> next_odo log k (S k) (t k)) /\ no_odo log (n_poses log - 1).

Variable zero : Pose.
(** Dead reckoning along all of them. *)
Fixpoint along (t : nat -> Pose) (k : nat) : Pose :=
  match k with O => zero | S j => concat (along t j) (t j) end.
End Spec.
