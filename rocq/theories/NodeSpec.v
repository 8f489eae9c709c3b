(** Vocabulary for the node properties. *)
From Coq Require Import Reals List ZArith Bool.
From Verif Require Import Base LinAlg3 GeoModel NodeModel.
Import ListNotations.
Open Scope R_scope.

(** Poses of the accepted messages: both lookups succeed and the cloud has at
    least 400 points. *)
Definition accepted {Scan} (m : nmsg Scan) : option pose :=
  match ms_tf m, ms_scan m with
  | Some q, Some pts =>
      if (400 <=? Z.of_nat (length pts))%Z
      then Some (getPoseFromTransform (convertToTransform q)) else None
  | _, _ => None
  end.
Fixpoint odometry {Scan} (l : list (nmsg Scan)) : list pose :=
  match l with
  | [] => []
  | m :: r => match accepted m with Some p => p :: odometry r | None => odometry r end
  end.
(** Covariances have 36 entries (their type in ROS). *)
Definition well_formed {Scan} (m : nmsg Scan) : Prop :=
  forall c, ms_cov m = Some c -> length c = 36%nat.

(** Increments handed to the algorithm and poses it returned, in order. *)
Fixpoint increments (o : list nout) : list T2 :=
  match o with
  | [] => []
  | NUpdate t _ :: r => t :: increments r
  | _ :: r => increments r
  end.
Fixpoint estimates (o : list nout) : list pose :=
  match o with
  | [] => []
  | NUpdate _ p :: r => p :: estimates r
  | _ :: r => estimates r
  end.
(** Transforms sent, in order. *)
Fixpoint sent (o : list nout) : list (Z * option tform) :=
  match o with
  | [] => []
  | NSend t x :: r => (t, x) :: sent r
  | _ :: r => sent r
  end.
Definition product (l : list T2) : T2 := fold_left t2mul l t2id.
Definition last_opt {A} (l : list A) : option A := hd_error (rev l).
