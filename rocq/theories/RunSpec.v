(** Vocabulary for the whole program. *)
From Coq Require Import Reals List ZArith QArith Bool.
From Verif Require Import Base LinAlg3 GeoModel AlgModel AlgSpec NodeModel NodeSpec.
From Verif Require Import VoxelModel GridModel MapModel SysModel SysSpec.
From Verif Require Import RunModel.
Import ListNotations.
Open Scope nat_scope.

Section Spec.
Context {X D : Type}.
Notation scan := (list (option point)).
Notation msg := (nmsg (option point)).

(** Time, odometry and scan of the accepted messages. *)
Fixpoint taken (l : list msg) : list (Z * pose * scan) :=
  match l with
  | [] => []
  | m :: r =>
      match accepted m, ms_scan m with
      | Some odom, Some s => (ms_time m, odom, s) :: taken r
      | _, _ => taken r
      end
  end.
(** The calls of update() (newest first) are those for these messages: one for each, with
    its time, its scan and the motion from the odometry pose of the accepted message
    before to its own; no motion for the first. *)
Fixpoint told (l : list (Z * pose * scan)) (h : list (yev D)) : Prop :=
  match l, h with
  | [], [] => True
  | (t, odom, s) :: r, e :: h' =>
      v_time e = inject_Z t /\ i_scan (v_in e) = s /\
      match r with
      | [] => i_motion (v_in e) = t2id
      | (_, before, _) :: _ => t2mul (getTransFromPose before) (i_motion (v_in e)) = getTransFromPose odom
      end /\ told r h'
  | _, _ => False
  end.

(** A call that did nothing but report the pose: the robot had not moved enough. *)
Definition skipped (e : yev D) : Prop := exists p, last_report (rev (v_evs e)) = Some (KSkip, p).

(** Which topics were served. *)
Inductive topic := TTf | TWin | TMap | TWinPcl | TPcl | TGraph.
Definition topic_of (o : rout X) : topic :=
  match o with
  | RTf _ _ => TTf | RWin _ => TWin | RMap _ => TMap | RWinPcl _ => TWinPcl | RPcl _ => TPcl | RGraph _ => TGraph
  end.

(** The same message with another covariance. *)
Definition with_cov (c : option (list R)) (m : msg) : msg := NodeModel.mkMsg (ms_time m) (ms_tf m) (ms_scan m) c.
End Spec.
