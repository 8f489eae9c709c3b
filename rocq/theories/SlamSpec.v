(** Specification vocabulary for Slam2D: what the caller can conclude from the
    log of earlier calls alone (newest event first). *)
From Coq Require Import List ZArith Bool Arith.
From Verif Require Import Base GraphModel GraphSpec LoopModel SlamModel.
Import ListNotations.
Open Scope nat_scope.

Section Spec.
Context {Pose Obj Info Guess D : Type}.
Notation sev := (sev Pose Obj Info).

(** Ids returned by addPose, newest first. *)
Fixpoint pose_ids (log : list sev) : list nat :=
  match log with
  | [] => []
  | SvPose id _ _ :: r => id :: pose_ids r
  | _ :: r => pose_ids r
  end.
Definition n_poses (log : list sev) : nat := length (pose_ids log).

(** Pose added under [id], if the optimiser has not run since. *)
Fixpoint known_pose (log : list sev) (id : nat) : option (Pose * Obj) :=
  match log with
  | [] => None
  | SvPose i p o :: r => if i =? id then Some (p, o) else known_pose r id
  | SvOpt :: _ => None
  | _ :: r => known_pose r id
  end.

(** Pose added under [id], whether or not the optimiser ran. *)
Fixpoint added_pose (log : list sev) (id : nat) : option Pose :=
  match log with
  | [] => None
  | SvPose i p _ :: r => if i =? id then Some p else added_pose r id
  | _ :: r => added_pose r id
  end.

(** Constraint added under [id] by the caller: end points, transform and
    information matrix.  addLastConstrain means the two most recent poses. *)
Fixpoint known_constr (log : list sev) (id : nat) : option (nat * nat * Pose * Info) :=
  match log with
  | [] => None
  | SvEdge i f t tr inf :: r => if i =? id then Some (f, t, tr, inf) else known_constr r id
  | SvLast i tr inf :: r =>
      if i =? id then Some (n_poses r - 2, n_poses r - 1, tr, inf) else known_constr r id
  | _ :: r => known_constr r id
  end.

(** Drive: a first pose, then poses each followed by addLastConstrain. *)
Fixpoint drive (l : list (Pose * Obj * addr * Pose * Info)) : list (sop Pose Obj Info D) :=
  match l with
  | [] => []
  | (p, o, a, t, i) :: r => SAddPose p o :: SAddLast a t i :: drive r
  end.

(** The g2o graph shows the same picture as the pose graph. *)
Definition mirrors (se2 : Pose -> Pose) (s : slam Pose Obj Info) : Prop :=
  length (s_verts s) = nodeCount (s_graph s) /\
  (forall k v, nth_error (s_verts s) k = Some v -> v_id v = k /\ v_fixed v = (k =? 0)) /\
  length (s_gedges s) = length (g_edges (s_graph s)) /\
  (forall id e, getEdge (s_graph s) id = Ok e ->
     nth_error (s_gedges s) id =
       Some (mkGE id (Some (e_from e)) (Some (e_to e)) (se2 (e_trans e)) (e_info e))).

(** Pose graphs as they come about: by adding nodes and edges directly, or as
    the graph inside a Slam2D object. *)
Definition built_graph (g : graph Pose Obj Info) : Prop :=
  (exists l log, no_removal l = true /\ grun l = Ok (g, log)) \/
  (exists (env : senv Pose Obj Info Guess D) l s log, srun env l = Ok (s, log) /\ g = s_graph s).
End Spec.
