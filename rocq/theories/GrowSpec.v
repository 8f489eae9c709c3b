(** How much the graph may grow. *)
From Coq Require Import Reals List ZArith.
From Verif Require Import Base LinAlg3 GeoModel AlgModel VoxelModel.
Import ListNotations.
Open Scope R_scope.

(** Length of the estimated path: that of all increments. *)
Fixpoint way (log : list aev) : R :=
  match log with
  | [] => 0
  | AInc t :: r => sqrt (tx t ^ 2 + ty t ^ 2) + way r
  | _ :: r => way r
  end.
(** Length of the path through the odometry positions of these messages. *)
Fixpoint driven {S} (l : list (Z * pose * S)) : R :=
  match l with
  | (_, p, _) :: (((_, q, _) :: _) as r) => sqrt ((px p - px q) ^ 2 + (py p - py q) ^ 2) + driven r
  | _ => 0
  end.
(** Calls in which the pose was moved. *)
Fixpoint used_calls (log : list aev) : nat :=
  match log with
  | [] => 0
  | AInc _ :: r => S (used_calls r)
  | _ :: r => used_calls r
  end.
