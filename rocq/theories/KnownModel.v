(** The map of the tool ndt_grid2d_merging with the NDT grid of GridModel.v. *)
From Coq Require Import Reals List ZArith QArith Ascii.
From Verif Require Import Base LinAlg3 GeoModel VoxelModel GridModel EvalModel TextModel PrintModel.
Import ListNotations.

Section Known.
Context {X L : Type}.
Variable merge : ncell X -> ncell X -> ncell X.
Variable dflt : ncell X.
Variable addPt : ncell X -> point -> ncell X.
Variable compute : ncell X -> ncell X.
Variable tcell : qtrans L -> ncell X -> ncell X.
Variable occRay : ncell X -> point -> ncell X -> ncell X.
Variable btw : qpose -> qpose -> qtrans L.
Variable tp : qtrans L -> point -> point.
(** the doubles of a pose *)
Variable toQ : pose -> qpose.

(** src/ndt/ndt_grid2d_merging.cpp:394-395 *)
Definition emptyMap : ngrid X := n_setCellSize (n_new dflt 0) (1#4).
(** src/ndt/ndt_grid2d_merging.cpp:401 *)
Definition mergeAt (g : ngrid X) (scan : list (option point)) (p : pose) : res (ngrid X) :=
  mergeInTracedPcl merge dflt addPt compute tcell occRay btw tp g scan (toQ p) true.
(** src/ndt/ndt_grid2d_merging.cpp:392-405: what goes to cout after "start test"; the
    window with the cloud that follows is not modelled. *)
Definition knownText (poses : list pose) (scans : list (list (option point))) : res text :=
  do g <- mappingKnownPoses emptyMap mergeAt poses scans;
  Ok (pictureText nc_gauss (n_vox g) ++ [newline]).
End Known.
