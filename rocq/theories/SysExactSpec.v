(** Vocabulary for the exact content of the frames and of the map. *)
From Coq Require Import Reals List ZArith QArith.
From Verif Require Import Base LinAlg3 GeoModel GeoSpec VoxelModel VoxelSpec GridModel GridSpec ScanSpec BeamSpec MapModel MapSpec SysModel SysSpec.
Import ListNotations.
Open Scope nat_scope.

Section Spec.
Context {X : Type}.
Variable dflt : ncell X.
Variable addPt : ncell X -> point -> ncell X.
Variable compute : ncell X -> ncell X.
Variable tcell : qtrans T2 -> ncell X -> ncell X.
Variable btw : qpose -> qpose -> qtrans T2.
Variable tp : qtrans T2 -> point -> point.
Variable moveScan : T2 -> point -> point.
Variable dbl : R -> Q.

(** No point of the scan lies exactly on a border between squares and no distribution
    exactly at the sensor. *)
Definition scan_ok (s : pose * T2 * list (option point)) : Prop :=
  (forall p, In (Some p) (in_frame btw tp moveScan dbl s) -> off_border (1#4) p) /\
  scan_lengths dflt addPt compute (1#4) (sensor_of btw tp dbl s) (in_frame btw tp moveScan dbl s).
(** The same for a frame placed in the world. *)
Definition frame_ok (f : ngrid X) : Prop :=
  off_border map_res (sensor_at btw tp f) /\ off_borders map_res (placed tcell btw f) /\
  beams_ok map_res (sensor_at btw tp f) (placed tcell btw f).
End Spec.
