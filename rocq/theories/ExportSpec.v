(** What the published graph is to show, in terms of the queries of Slam2D and the log
    of earlier calls. *)
From Coq Require Import List Arith.
From Verif Require Import Base GraphModel LoopModel SlamModel SlamSpec ExportModel.
Import ListNotations.
Open Scope nat_scope.

Section Spec.
Context {Pose Obj Info P : Type}.
Notation slam := (slam Pose Obj Info).
Variable xy : Pose -> P.
(** The arrow of constraint [id]: from where its first pose is reported to be now to
    where its second one is; red if the caller added it, green if it closes a loop. *)
Definition arrow_of (s : slam) (log : list (sev Pose Obj Info)) (id : nat) (m : arrow P) : Prop :=
  ar_id m = id /\
  exists f t pf pt, getConstrainPoses s id = Ok (f, t) /\ getPoseLocation s f = Ok pf /\
    getPoseLocation s t = Ok pt /\ ar_start m = xy pf /\ ar_end m = xy pt /\
    ar_colour m = match known_constr log id with Some _ => Red | None => Green end.
End Spec.
