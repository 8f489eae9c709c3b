(** Vocabulary for the map of known poses. *)
From Coq Require Import Reals List ZArith QArith.
From Verif Require Import Base LinAlg3 GeoModel GeoSpec VoxelModel VoxelSpec GridModel GridSpec ScanSpec BeamSpec EvalModel EvalSpec.
Import ListNotations.
Open Scope nat_scope.

Section Spec.
Context {X L : Type}.
Variable dflt : ncell X.
Variable addPt : ncell X -> point -> ncell X.
Variable compute : ncell X -> ncell X.
Variable btw : qpose -> qpose -> qtrans L.
Variable tp : qtrans L -> point -> point.
Variable toQ : pose -> qpose.
Definition home : qpose := mkPose 0 0 0.
(** Place of the sensor and points of the scan, in the map, for a robot seen at [r]. *)
Definition eye (r : pose) : point := tp (btw (toQ r) home) (0, 0)%Q.
Definition ahead (r : pose) (s : list (option point)) : list (option point) :=
  map (option_map (tp (btw (toQ r) home))) s.
(** Nothing on a border between squares, no distribution at the sensor. *)
Definition recording_ok (r : pose) (s : list (option point)) : Prop :=
  off_border (1#4) (eye r) /\ (forall p, In (Some p) (ahead r s) -> off_border (1#4) p) /\
  scan_lengths dflt addPt compute (1#4) (eye r) (ahead r s).
(** Recording [i] is this scan, made where the robot of the first recording sees it at [r]. *)
Definition recorded (poses : list pose) (scans : list (list (option point))) (i : nat)
  (r : pose) (s : list (option point)) : Prop :=
  exists p q, nth_error scans i = Some s /\ nth_error poses 0 = Some p /\ nth_error poses i = Some q /\ sees p q r.
End Spec.
