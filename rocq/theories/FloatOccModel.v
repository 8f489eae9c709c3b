(** The occupancy of a cell with rounding: CellModel.v has exact numbers, here every
    operation is rounded as the types say (FloatModel.v).  The logarithm handed over for a
    beam is any number (its own rounding is not modelled). *)
From Coq Require Import List ZArith QArith Bool.
From Verif Require Import Base VoxelModel FloatModel.
Import ListNotations.
Open Scope Q_scope.

(** ndt_cell.cpp:207-215; [d] is a float *)
Definition faddOccup (x d : Q) : Q :=
  let y := f32 (x + d) in
  let y := if Qlt_b 1 y then 1 else y in
  if Qlt_b y (-(1)) then -(1) else y.

(** What changes the occupancy: a beam through a cell with a distribution ([ev]:
    new_points * logodd_lik, line 179), one through a cell without (line 138), one that ends
    at the mean (line 149), new points (lines 45-46 and 65-67). *)
Inductive occ_op := OBeam (ev : Q) | OPass (n : nat) | OEnd | OPoints (n : nat).

(** the argument of updateOccupancy(float): double to float in the first case, otherwise
    products of floats; the constants are those of ndt_cell.h:13-19 as floats *)
Definition foccup (x : Q) (o : occ_op) : Q :=
  match o with
  | OBeam ev => faddOccup x (f32 ev)
  | OPass n => faddOccup x (f32 (f32 (-(1#5)) * f32 (qn n)))
  | OEnd => faddOccup x 1
  | OPoints n => faddOccup x (f32 (f32 (qn n) * f32 (405465108#1000000000)))
  end.
(** from the constructor on, ndt_cell.cpp:8 *)
Definition foccups (l : list occ_op) : Q := fold_left foccup l 0.
