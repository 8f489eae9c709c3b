(** Mean and covariance of a batch of new points with rounding (ndt_cell.cpp:77-92):
    every operation on doubles is rounded, in the order of the text.  Coordinates are
    treated one or two at a time, as the operations on vectors and matrices are coordinate by
    coordinate.  Counts are exact (batches have fewer than 2^53 points), operations are not
    fused. *)
From Coq Require Import List ZArith QArith Bool.
From Verif Require Import Base VoxelModel FloatModel.
Import ListNotations.
Open Scope Q_scope.

(** mean_add, one coordinate: ndt_cell.cpp:77, 80-81 *)
Definition fsum (l : list Q) : Q := fold_left (fun s x => f64 (s + x)) l 0.
(** one entry of cov_add, which starts as the identity ([s0]: 1 on the diagonal, 0 beside):
    ndt_cell.cpp:78, 80, 82 *)
Definition fsum2 (s0 : Q) (l : list (Q * Q)) : Q := fold_left (fun s p => f64 (s + f64 (fst p * snd p))) l s0.
(** mean2: ndt_cell.cpp:84 *)
Definition fmean (l : list Q) : Q := f64 (fsum l / qn (length l)).
(** an entry of cov2: ndt_cell.cpp:86-92; [l]: the coordinates of its row and column *)
Definition fcov (s0 : Q) (l : list (Q * Q)) : Q :=
  let n := qn (length l) in
  let ma := fmean (map fst l) in
  let mb := fmean (map snd l) in
  let t := f64 (f64 (f64 (fsum2 s0 l - f64 (2 * f64 (fsum (map fst l) * mb))) / n) + f64 (ma * mb)) in
  f64 (t * f64 (qn (length l - 1) / n)).
(** the matrix for points with three coordinates *)
Definition qpoint : Type := Q * Q * Q.
Inductive axis := AX | AY | AZ.
Definition at_ (i : axis) (p : qpoint) : Q := match i, p with AX, (x, _, _) => x | AY, (_, y, _) => y | AZ, (_, _, z) => z end.
Definition unit_ (i j : axis) : Q := match i, j with AX, AX | AY, AY | AZ, AZ => 1 | _, _ => 0 end.
Definition fbatch_mean (l : list qpoint) (i : axis) : Q := fmean (map (at_ i) l).
Definition fbatch_cov (l : list qpoint) (i j : axis) : Q := fcov (unit_ i j) (map (fun p => (at_ i p, at_ j p)) l).
