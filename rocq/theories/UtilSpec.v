(** What splitting and bounding boxes mean, written without the model's helpers. *)
From Coq Require Import List Ascii QArith.
From Verif Require Import Base UtilModel.
Import ListNotations.
Local Open Scope Q_scope.

(** [token] occurs somewhere in [s]. *)
Definition contains (s token : str) : Prop := exists a b, s = a ++ token ++ b.
(** The parts with the token between neighbours. *)
Fixpoint join (token : str) (parts : list str) : str :=
  match parts with
  | [] => []
  | [p] => p
  | p :: rest => p ++ token ++ join token rest
  end.

(** A box covers a point, a box covers a cloud. *)
Definition covers (b : box) (p : Q * Q) : Prop :=
  minx b <= fst p /\ fst p <= maxx b /\ miny b <= snd p /\ snd p <= maxy b.
Definition covers_all (b : box) (pcl : list (Q * Q)) : Prop := forall p, In p pcl -> covers b p.
(** Box [a] lies inside box [b]. *)
Definition within (a b : box) : Prop :=
  minx b <= minx a /\ maxx a <= maxx b /\ miny b <= miny a /\ maxy a <= maxy b.
(** The smallest box around a cloud. *)
Definition smallest_box (b : box) (pcl : list (Q * Q)) : Prop :=
  covers_all b pcl /\ forall b', covers_all b' pcl -> within b b'.
