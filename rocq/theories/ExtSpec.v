(** Vocabulary for the size of the published map. *)
From Coq Require Import Reals List ZArith QArith.
From Verif Require Import Base LinAlg3 GeoModel GraphModel LoopModel SlamModel AlgModel.
From Verif Require Import VoxelModel VoxelSpec GridModel GridSpec MapModel MapSpec SysModel SysSpec WinSpec.
Import ListNotations.
Open Scope nat_scope.

(** The frames drawn into the map in a history of the mapper. *)
Definition drawn_in {X} (ops : list (mop (X:=X))) : list (ngrid X) :=
  flat_map (fun o => match o with MAdd f _ => [f] | MRecalc s _ => s | MTouch _ => [] end) ops.
(** All cells of a frame are in the square of half width [r] around the origin of the map. *)
Definition within {X L} (tcell : qtrans L -> ncell X -> ncell X) (btw : qpose -> qpose -> qtrans L) (r : Q) (f : ngrid X) : Prop :=
  forall c, In c (placed tcell btw f) -> inbox r (nc_mean c).
(** The part of the world shown by the map. *)
Definition shows {X} (m : mapper X) (p : point) : Prop := isInside (n_vox (m_ndt m)) p = true.

Section System.
Context {X Guess D : Type}.
Notation cell := (ncell X).
Notation grid := (ngrid X).
Notation body := (res grid).
Variable merge : cell -> cell -> cell.
Variable dflt : cell.
Variable addPt : cell -> point -> cell.
Variable compute : cell -> cell.
Variable tcell : qtrans T2 -> cell -> cell.
Variable occRay : cell -> point -> cell -> cell.
Variable rawOcc : cell -> Q.
Variable btw : qpose -> qpose -> qtrans T2.
Variable tp : qtrans T2 -> point -> point.
Variable moveScan : T2 -> point -> point.
Variable dbl : R -> Q.
(** The frame being filled, or that of a node, as it lies in the graph now. *)
Definition present (h : list (yev D)) (y : sys X) (f : grid) : Prop :=
  gridOf dbl (a_frame (y_alg y)) = Ok f \/
  exists k, frame_of merge dflt addPt compute tcell occRay btw tp moveScan dbl h (y_alg y) k = Ok f.
(** A run all states of which have [P]. *)
Variable env : aenv body body (option point) Guess D.
Inductive throughout (P : list (yev D) -> sys X -> Prop) : list (yev D) -> sys X -> Prop :=
| thr_new : P [] (sys_new dflt env) -> throughout P [] (sys_new dflt env)
| thr_step h y e y' : throughout P h y -> ystep merge dflt tcell occRay rawOcc btw tp dbl env y e y' -> P (e :: h) y' ->
    throughout P (e :: h) y'.
End System.
