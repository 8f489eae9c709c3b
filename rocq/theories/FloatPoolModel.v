(** Pooling the mean of a cell with further points, with rounding, one coordinate
    (CellModel.v has exact numbers).  A cell is its number of points and its mean. *)
From Coq Require Import List ZArith QArith Bool.
From Verif Require Import Base VoxelModel FloatModel CellModel.
Import ListNotations.
Open Scope Q_scope.

(** [PAdd]: computeGaussian() of a cell with a distribution, [PMerge]: operator+= ;
    both get the number and the mean of what is added. *)
Inductive pool_op := PAdd (n : Z) (m : Q) | PMerge (n : Z) (m : Q).
(** ndt_cell.cpp:101, 104, 110, 115-127 *)
Definition fpoolAdd (c : Z * Q) (n2 : Z) (m2 : Q) : Z * Q :=
  let s1 := f64 (snd c * inject_Z (fst c)) in
  let s2 := f64 (m2 * inject_Z n2) in
  let comb := f64 (s1 + s2) in
  let ps := (fst c + n2)%Z in
  if (MAX_POINTS <? ps)%Z
  then let comb' := f64 (comb * f64 (inject_Z MAX_POINTS / inject_Z ps)) in
       (MAX_POINTS, f64 (comb' / inject_Z MAX_POINTS))
  else (ps, f64 (comb / inject_Z ps)).
(** ndt_cell.cpp:24-35, 43, 47-48 *)
Definition fpoolMerge (c : Z * Q) (n2 : Z) (m2 : Q) : Z * Q :=
  let s1 := f64 (snd c * inject_Z (fst c)) in
  let s2 := f64 (m2 * inject_Z n2) in
  let ps := (n2 + fst c)%Z in
  (if (MAX_POINTS <? ps)%Z then MAX_POINTS else ps, f64 (f64 (s2 + s1) / inject_Z ps)).
Definition fpool (c : Z * Q) (o : pool_op) : Z * Q :=
  match o with PAdd n m => fpoolAdd c n m | PMerge n m => fpoolMerge c n m end.
Definition fpools (c : Z * Q) (l : list pool_op) : Z * Q := fold_left fpool l c.
