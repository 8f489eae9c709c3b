(** Specification vocabulary for C146: the weighted mean with exact numbers; a cell counts at
    most MAX_POINTS of its points. *)
From Coq Require Import List ZArith QArith Reals Qreals Bool.
From Verif Require Import CellModel FloatPoolModel.
Import ListNotations.
Open Scope R_scope.

(** [t]: the numbers and the true means of what is added *)
Definition weigh (c : Z * R) (a : Z * R) : Z * R :=
  (Z.min MAX_POINTS (fst c + fst a), (IZR (fst c) * snd c + IZR (fst a) * snd a) / (IZR (fst c) + IZR (fst a))).
Definition weighted (c : Z * R) (t : list (Z * R)) : Z * R := fold_left weigh t c.
Definition number (o : pool_op) : Z := match o with PAdd n _ | PMerge n _ => n end.
Definition mean (o : pool_op) : Q := match o with PAdd _ m | PMerge _ m => m end.
(** what is added has the right number and, but for [d], the right mean *)
Definition adds (d : R) (o : pool_op) (a : Z * R) : Prop := number o = fst a /\ Rabs (Q2R (mean o) - snd a) <= d.
(** at least one point, at most as many as a cell counts, a mean within [b] *)
Definition proper (b : R) (a : Z * R) : Prop := (1 <= fst a <= MAX_POINTS)%Z /\ Rabs (snd a) <= b.
