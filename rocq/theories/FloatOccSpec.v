(** Specification vocabulary for C144: the occupancy with exact numbers. *)
From Coq Require Import List ZArith QArith Qminmax Bool.
From Verif Require Import Base VoxelModel FloatModel FloatOccModel.
Import ListNotations.
Open Scope Q_scope.

(** What an update adds: the log odds of a beam, a fifth less for each reading through an
    empty cell, one for a hit, ln(3/2) (as the code has it) for each point. *)
Definition gain (o : occ_op) : Q :=
  match o with
  | OBeam ev => ev
  | OPass n => - (inject_Z (Z.of_nat n) / 5)
  | OEnd => 1
  | OPoints n => inject_Z (Z.of_nat n) * (405465108#1000000000)
  end.
(** Kept between -1 and 1. *)
Definition occupancy (l : list occ_op) : Q := fold_left (fun x o => Qmax (-(1)) (Qmin 1 (x + gain o))) l 0.
