(** Specification vocabulary for NDT cells: statistics of point sets. *)
From Coq Require Import Reals List ZArith Bool.
From Verif Require Import LinAlg3 CellModel.
Import ListNotations.
Open Scope R_scope.

Fixpoint sumV (l : list V3) : V3 :=
  match l with [] => vzero | p :: t => vadd p (sumV t) end.
Fixpoint sumM (l : list M3) : M3 :=
  match l with [] => mzero | p :: t => madd p (sumM t) end.
(** average *)
Definition mean_of (l : list V3) : V3 := vscale (/ INR (length l)) (sumV l).
(** sum of (p - mean)(p - mean)^T *)
Definition scatter (l : list V3) : M3 :=
  sumM (map (fun p => outer (vsub p (mean_of l)) (vsub p (mean_of l))) l).
(** sample covariance *)
Definition sample_cov (l : list V3) : M3 := mscale (/ (INR (length l) - 1)) (scatter l).

(** Pooling two summaries (count, mean, covariance). *)
Definition pool_mean (n1 : R) (m1 : V3) (n2 : R) (m2 : V3) : V3 :=
  vscale (/ (n1 + n2)) (vadd (vscale n1 m1) (vscale n2 m2)).
Definition pool_cov (n1 : R) (m1 : V3) (c1 : M3) (n2 : R) (m2 : V3) (c2 : M3) : M3 :=
  mscale (/ (n1 + n2 - 1))
    (madd (madd (mscale (n1 - 1) c1) (mscale (n2 - 1) c2))
       (mscale (n1 * n2 / (n1 + n2)) (outer (vsub m1 m2) (vsub m1 m2)))).

(** [n] is [m] with every eigenvalue raised to at least one percent of the
    largest one, eigenvectors unchanged. *)
Definition conditioned (m n : M3) : Prop :=
  exists top, eigenvalue m top /\ (forall k, eigenvalue m k -> k <= top) /\
    forall v l, mvmul m v = vscale l v -> mvmul n v = vscale (Rmax l (1/100 * top)) v.

Definition anyBeam (s e : V3) : Prop := True.
Definition properBeam (s e : V3) : Prop := s <> e.

(** Inserting points one after the other; several rounds of inserting and
    computing. *)
Definition addPoints (c : cell) (l : list V3) : cell := fold_left addPoint l c.
Definition collect (eig : M3 -> M3 * V3) (c : cell) (ls : list (list V3)) : cell :=
  fold_left (fun c l => computeGaussian eig (addPoints c l)) ls c.

(** s after t, and the inverse of t *)
Definition tcomp (s t : trans) : trans :=
  mkT (mmul (t_rot s) (t_rot t)) (vadd (mvmul (t_rot s) (t_trans t)) (t_trans s)).
Definition tinv (t : trans) : trans :=
  mkT (mtr (t_rot t)) (vscale (-1) (mvmul (mtr (t_rot t)) (t_trans t))).

(** What a receiver of a cell's message makes of it: the mean, the matrix given row by
    row, whether there is a distribution at all (enough points, more occupied than not). *)
Definition read_mean (m : cell_msg) : V3 := let '(x, y, z) := cm_mean m in mkV x y z.
Definition read_cov (m : cell_msg) : option M3 :=
  match cm_cov m with
  | [a; b; c; d; e; f; g; h; i] => Some (mkM a b c d e f g h i)
  | _ => None
  end.
Definition read_gauss (m : cell_msg) : bool :=
  (6 <=? cm_n m)%Z && match cm_occ m with Some x => if Rlt_dec 0 x then true else false | None => false end.
