(** Vocabulary: interpolation of a function on a line from values and slopes. *)
From Coq Require Import Reals List.
From Verif Require Import OptModel RegModel.
Open Scope R_scope.

(** a place on the line with value and slope, all of them numbers *)
Definition at_pt (a f g : R) : endpt := mkE (Fin a) (Fin f) (Fin g).
(** the cubic with the given coefficients, its slope and its curvature *)
Definition cub (c0 c1 c2 c3 x : R) : R := c0 + c1 * x + c2 * (x * x) + c3 * (x * x * x).
Definition dcub (c1 c2 c3 x : R) : R := c1 + 2 * c2 * x + 3 * c3 * (x * x).
Definition ddcub (c2 c3 x : R) : R := 2 * c2 + 6 * c3 * x.
(** it has the given values and slopes in both places *)
Definition through (c0 c1 c2 c3 al fl gl at' ft gt : R) : Prop :=
  cub c0 c1 c2 c3 al = fl /\ dcub c1 c2 c3 al = gl /\ cub c0 c1 c2 c3 at' = ft /\ dcub c1 c2 c3 at' = gt.
(** [x] lies strictly between [a] and [b] *)
Definition between (a b x : R) : Prop := a < x < b \/ b < x < a.
(** An interval as the search keeps it: the first end is the lower one and the function
    falls from it towards the other end. *)
Definition bracket (al fl gl au fu : R) : Prop := fl <= fu /\ gl * (au - al) < 0.
(** [a] is the minimum (the maximum) of the cubic with the given values and slopes in two
    places *)
Definition cubic_lowest (al fl gl at' ft gt a : R) : Prop :=
  forall c0 c1 c2 c3, through c0 c1 c2 c3 al fl gl at' ft gt -> dcub c1 c2 c3 a = 0 /\ 0 < ddcub c2 c3 a.
Definition cubic_highest (al fl gl at' ft gt a : R) : Prop :=
  forall c0 c1 c2 c3, through c0 c1 c2 c3 al fl gl at' ft gt -> dcub c1 c2 c3 a = 0 /\ ddcub c2 c3 a < 0.
(** the minimum of the parabola with the given value and slope in one place and the given
    value in another *)
Definition parabola_lowest (al fl gl at' ft a : R) : Prop :=
  forall c0 c1 c2, cub c0 c1 c2 0 al = fl -> dcub c1 c2 0 al = gl -> cub c0 c1 c2 0 at' = ft ->
  dcub c1 c2 0 a = 0 /\ 0 < ddcub c2 0 a.
(** the place where the slope vanishes if it changes evenly *)
Definition slope_zero (al gl at' gt a : R) : Prop :=
  forall c1 c2, dcub c1 c2 0 al = gl -> dcub c1 c2 0 at' = gt -> dcub c1 c2 0 a = 0.
(** A function and its slope looked at in one place. *)
Definition look (f f' : R -> R) (a : R) : endpt := at_pt a (f a) (f' a).
(** Repeated updates of the interval from [l] and [u], with a trial strictly inside the
    interval each time, none of which ends the search. *)
Inductive narrowed (f f' : R -> R) : R -> R -> list R -> R -> R -> Prop :=
| nw_nil l u : narrowed f f' l u nil l u
| nw_cons l u t l1 u1 ts l2 u2 : between l u t ->
    updateIntervalMT (look f f' l) (look f f' u) (look f f' t) = (look f f' l1, look f f' u1, false) ->
    narrowed f f' l1 u1 ts l2 u2 -> narrowed f f' l u (t :: ts) l2 u2.
(** [x] lies in the interval with the ends [l] and [u], in whatever order *)
Definition inside_of (l u x : R) : Prop := Rmin l u <= x <= Rmax l u.
