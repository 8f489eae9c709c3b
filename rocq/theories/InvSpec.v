(** Vocabulary: the same messages told from another odometry frame. *)
From Coq Require Import Reals List ZArith QArith.
From Verif Require Import Base LinAlg3 GeoModel GeoSpec NodeModel MapModel GridModel RunModel.
Import ListNotations.

(** Two messages of the same time with the same scan; the second tells the pose of the
    robot in a frame in which the first one's frame is placed at [T].  Covariances, the
    height and whatever else the pose tells beyond the plane can be any. *)
Definition retold {Scan} (T : T2) (m m' : nmsg Scan) : Prop :=
  ms_time m' = ms_time m /\ ms_scan m' = ms_scan m /\
  match ms_tf m, ms_tf m' with
  | None, None => True
  | Some q, Some q' => rigid (convertToTransform q) /\ convertToTransform q' = t2mul T (convertToTransform q)
  | _, _ => False
  end.
(** What is published then: the transform from the odometry frame to the map goes first
    back to the frame of the first messages; the rest is the same. *)
Definition correct_for (T : T2) (A : tform) : tform := tf_mul A (tf_inv (eigenPoseToTF (getPoseFromTransform T))).
Definition reissued {X} (T : T2) (o : rout X) : rout X :=
  match o with RTf t A => RTf t (option_map (correct_for T) A) | _ => o end.
