(** Vocabulary for printed texts. *)
From Coq Require Import List ZArith Bool Arith Ascii.
From Verif Require Import Base TextModel VoxelModel VoxelSpec.
Import ListNotations.
Open Scope nat_scope.

(** The lines of a text: what stands between its line feeds. *)
Fixpoint lines_of (t : text) : list text :=
  match t with
  | [] => [[]]
  | a :: t => if Ascii.eqb a (ascii_of_nat 10) then [] :: lines_of t
              else match lines_of t with l :: r => (a :: l) :: r | [] => [[a]] end
  end.
(** The cell of the plane shown in line r and column c of a picture: the uppermost row and
    the leftmost column of the window come first. *)
Definition shown {C} (g : vgrid C) (r c : nat) : option C :=
  content g (Z.of_nat c - Z.of_nat (w_left g), Z.of_nat (h_up g) - Z.of_nat r)%Z.
(** The k-th field of n characters of a line. *)
Definition field (n k : nat) (l : text) : text := firstn n (skipn (k * n) l).
(** A text in a field of five characters, to the right. *)
Definition in_field (f s : text) : Prop := exists k, f = repeat " "%char k ++ s /\ length f = 5.
