(** What the robust constraints of Slam2D promise, in terms of the history of
    calls and of the numbers the optimiser works with. *)
From Coq Require Import Reals ZArith List Bool.
From Verif Require Import Base LinAlg3 GeoModel GeoSpec GraphModel LoopModel SlamModel OptModel RobustModel.
Import ListNotations.
Open Scope R_scope.

Section Spec.
Context {Obj Guess D : Type}.
Notation slam := (slam pose Obj M3).
Notation rop := (rop Obj D).

(** The same history without the robust constraints; optimising leads to the
    poses of its last iteration. *)
Fixpoint erase (l : list rop) : list (sop pose Obj M3 D) :=
  match l with
  | [] => []
  | RAddPose p o :: t => SAddPose p o :: erase t
  | RAddConstr a f g tr i :: t => SAddConstr a f g tr i :: erase t
  | RAddLast a tr i :: t => SAddLast a tr i :: erase t
  | RLoop id ch fr :: t => SLoop id ch fr :: erase t
  | RLoopLast ch fr :: t => SLoopLast ch fr :: erase t
  | ROptimize _ fin :: t => SOptimize (fst fin) :: erase t
  | RMixture _ _ _ _ :: t => erase t
  | RSwitch _ _ _ _ :: t => erase t
  end.

(** Two Slam2D objects that no caller can tell apart: the pose graph, the
    remembered ids and, in the optimiser, the poses and the ordinary constraints
    are the same; only the optimiser's numbers for them may differ. *)
Definition alike (a b : slam) : Prop :=
  s_graph a = s_graph b /\ s_last a = s_last b /\ s_prev a = s_prev b /\ s_first a = s_first b /\
  s_first_added a = s_first_added b /\ s_map a = s_map b /\
  map v_est (s_verts a) = map v_est (s_verts b) /\
  map v_fixed (s_verts a) = map v_fixed (s_verts b) /\
  map (fun e => (ge_from e, ge_to e, ge_meas e, ge_info e)) (s_gedges a) =
  map (fun e => (ge_from e, ge_to e, ge_meas e, ge_info e)) (s_gedges b).

(** Vertices are numbered in the order in which poses ([true]) and switches
    ([false]) come. *)
Fixpoint arrivals (l : list rop) : list bool :=
  match l with
  | [] => []
  | RAddPose _ _ :: t => true :: arrivals t
  | RSwitch _ _ _ _ :: t => false :: arrivals t
  | _ :: t => arrivals t
  end.
Fixpoint places (b : bool) (n : nat) (l : list bool) : list nat :=
  match l with
  | [] => []
  | x :: t => if Bool.eqb x b then n :: places b (S n) t else places b (S n) t
  end.

(** The ids of everything the optimiser holds. *)
Definition vertex_ids (r : robust Obj) : list nat := map v_id (s_verts (r_slam r)) ++ map fst (r_sw r).
Definition edge_ids (r : robust Obj) : list nat :=
  map ge_id (s_gedges (r_slam r)) ++ map pr_id (r_prior r) ++ map sg_id (r_swedges r) ++ map fst (r_mix r).

(** The constraints asked for: end points, measured motion, information.  A pose
    that does not exist yet when the constraint is asked for is [None]. *)
Definition known (n f : nat) : option nat := if (f <? n)%nat then Some f else None.
Fixpoint switch_requests (n : nat) (l : list rop) : list (option nat * option nat * pose * M3) :=
  match l with
  | [] => []
  | RAddPose _ _ :: t => switch_requests (S n) t
  | RSwitch f g tr i :: t => (known n f, known n g, tr, i) :: switch_requests n t
  | _ :: t => switch_requests n t
  end.
Fixpoint mixture_requests (l : list rop) : list (nat * nat * pose * M3) :=
  match l with
  | [] => []
  | RMixture f g tr i :: t => (f, g, tr, i) :: mixture_requests t
  | _ :: t => mixture_requests t
  end.

(** Mixtures are asked for between poses that exist, with information matrices
    of positive determinant. *)
Fixpoint wellposed (n : nat) (l : list rop) : Prop :=
  match l with
  | [] => True
  | RAddPose _ _ :: t => wellposed (S n) t
  | RMixture f g _ i :: t => (f < n)%nat /\ (g < n)%nat /\ 0 < mdet i /\ wellposed n t
  | _ :: t => wellposed n t
  end.
End Spec.

(** Squared error of the measured motion [z] between the poses [p] and [q],
    weighted with the information matrix [i]. *)
Definition chi (i : M3) (z p q : pose) : R := quad i (vecOf (calcError p q z)).
(** The largest excess of the squared error a mixture puts up with. *)
Definition limit (i : M3) : R := ln (mdet i / mdet information_invalid) + 2 * ln 10000.

(** What a switchable constraint costs the optimiser when its switch stands at
    [s]: its own squared error and that of the prior, of information [one]. *)
Definition switch_cost (one : R) (i : M3) (z p q : pose) (s : R) : R :=
  quad i (vecOf (switchError p q z s)) + one * (priorError 1 s * priorError 1 s).
