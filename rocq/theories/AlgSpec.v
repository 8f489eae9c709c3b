(** Vocabulary for the front end properties: what can be read off the trace
    (newest event first). *)
From Coq Require Import Reals List ZArith Bool.
From Verif Require Import Base LinAlg3 GeoModel GeoSpec GraphModel LoopModel SlamModel AlgModel.
Import ListNotations.
Open Scope R_scope.

(** Motion since the newest node was made. *)
Fixpoint since_node (log : list aev) : T2 :=
  match log with
  | [] => t2id
  | AInc t :: r => t2mul (since_node r) t
  | ANode _ :: _ => t2id
  | _ :: r => since_node r
  end.
(** Motion since the frame of the newest node was begun, which is when the node
    before it was made (or at the very start). *)
Fixpoint since_frame (log : list aev) : T2 :=
  match log with
  | [] => t2id
  | AInc t :: r => t2mul (since_frame r) t
  | ANode _ :: r => since_node r
  | _ :: r => since_frame r
  end.
(** All increments used. *)
Fixpoint total (log : list aev) : T2 :=
  match log with
  | [] => t2id
  | AInc t :: r => t2mul (total r) t
  | _ :: r => total r
  end.
Fixpoint made (log : list aev) : list nat :=
  match log with
  | [] => []
  | ANode id :: r => id :: made r
  | _ :: r => made r
  end.
(** Motion made while each finished frame was filled, oldest frame first. *)
Fixpoint legs (log : list aev) : list T2 :=
  match log with
  | [] => []
  | ANode _ :: r => legs r ++ [since_node r]
  | _ :: r => legs r
  end.
(** The event right after an increment is a new node exactly if the robot is now
    further than [d] from where it was at the newest node; there are no other new
    nodes. *)
Fixpoint nodes_when_due (d : R) (log : list aev) : Prop :=
  match log with
  | [] => True
  | ANode _ :: r =>
      match r with AInc _ :: _ => d < getDisplacement (since_node r) | _ => False end /\
      nodes_when_due d r
  | _ :: r =>
      match r with AInc _ :: _ => (getDisplacement (since_node r) <= d)%R | _ => True end /\
      nodes_when_due d r
  end.
(** Pose of the newest match; the start if there was none. *)
Fixpoint last_match (log : list aev) : T2 :=
  match log with
  | [] => t2id
  | ARep (KMatch w reg) _ :: _ => getTransFromPose (getPoseFromTransform (t2mul (getTransFromPose w) reg))
  | _ :: r => last_match r
  end.
(** Just before each reported pose the scan is drawn where that pose says, unless
    the scan was skipped. *)
Fixpoint drawn_where_reported (log : list aev) : Prop :=
  match log with
  | [] => True
  | ARep KSkip _ :: r => drawn_where_reported r
  | ARep _ p :: r =>
      match r with
      | ADraw o m :: _ => t2mul (getTransFromPose o) m = getTransFromPose p
      | _ => False
      end /\
      drawn_where_reported r
  | _ :: r => drawn_where_reported r
  end.
Definition no_loop (log : list aev) : Prop := forall b, In (ALoop b) log -> b = false.
Definition no_odo (log : list aev) : Prop := forall p, ~ In (ARep KOdo p) log.
Definition last_report (log : list aev) : option (akind * pose) :=
  match log with ARep k p :: _ => Some (k, p) | _ => None end.

Section S.
Context {Body Win Scan Guess D : Type}.
(** The motions given to update() are rigid. *)
Definition rigid_inputs (l : list (ainput Scan D)) : Prop := Forall (fun i => rigid (i_motion i)) l.
(** Product of the motions of a list of inputs. *)
Definition motions (l : list (ainput Scan D)) : T2 :=
  fold_left (fun t i => t2mul t (i_motion i)) l t2id.
(** End points and transforms of the constraints that are not loop closures, in
    order of their ids. *)
Fixpoint odo_constraints (l : list (option (addr * edge pose M3))) : list (nat * nat * pose) :=
  match l with
  | [] => []
  | Some (_, e) :: r => if e_loop e then odo_constraints r
                        else (e_from e, e_to e, e_trans e) :: odo_constraints r
  | None :: r => odo_constraints r
  end.
(** Moved by more than 0.1 rad or 0.2 m. *)
Definition moved (t : T2) : Prop := 1 / 10 < Rabs (getAngle t) \/ 2 / 10 < getDisplacement t.
Definition moved_dec (t : T2) : {moved t} + {~ moved t}.
Proof.
  unfold moved. destruct (Rlt_dec (1 / 10) (Rabs (getAngle t))); [left; auto|].
  destruct (Rlt_dec (2 / 10) (getDisplacement t)); [left; auto|right; intros [X|X]; contradiction].
Defined.
(** Motion accumulated since the last scan that was used, over all updates after
    the first. *)
Definition pending (l : list (ainput Scan D)) : T2 :=
  fold_left (fun t i => if moved_dec (t2mul t (i_motion i)) then t2id else t2mul t (i_motion i)) (tl l) t2id.
(** Addresses a new edge may get: not those of existing edges, all different. *)
Definition fresh_input (a : alg Body Win) (i : ainput Scan D) : Prop :=
  live_addr (s_graph (a_slam a)) (i_addr i) = false /\
  (forall k, live_addr (s_graph (a_slam a)) (i_fresh i k) = false /\ i_fresh i k <> i_addr i) /\
  (forall j k, i_fresh i j = i_fresh i k -> j = k).
End S.
