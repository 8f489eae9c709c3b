(** Model of the text of the graph character by character:
    Slam2D::getGraphSerialized(std::ostream &) (INC/slam_optimizer/slam2d.h:373-386),
    with the way a std::ostream in its initial state spells a size_t and a double (the C++
    standard defines the latter by printf's %g with precision 6: six significant digits,
    rounded to nearest, halves to even, no trailing zeros, an exponent if it is below -4
    or above 5).

    A finite double is its sign and its magnitude, a rational number (every one has this
    form).
    The stream is assumed to take every character. *)
From Coq Require Import List ZArith QArith NArith Bool Arith Ascii String.
From Verif Require Import Base GraphModel LoopModel SlamModel ExportModel.
Import ListNotations.
Open Scope nat_scope.

Definition text := list ascii.
Definition lit (s : string) : text := list_ascii_of_string s.

(** slam2d.h:377-378: the values that are written *)
Inductive dbl := DFin (neg : bool) (n : N) (d : positive) | DInf (neg : bool) | DNan (neg : bool).

(** the last [k] decimal digits of [d], most significant first *)
Fixpoint digs (k : nat) (d : N) : list N :=
  match k with O => [] | S k => (digs k (d / 10) ++ [d mod 10])%N%list end.
(** how many digits [n] has *)
Fixpoint ndigF (fuel : nat) (n : N) : nat :=
  match fuel with
  | O => 1
  | S f => if (n <? 10)%N then 1 else S (ndigF f (n / 10)%N)
  end.
Definition ndig (n : N) : nat := ndigF (N.size_nat n) n.
Definition digitChar (d : N) : ascii := ascii_of_N (48 + d).
Definition spellDigits (l : list N) : text := map digitChar l.
(** operator<<(std::ostream&, size_t), slam2d.h:379, 383 *)
Definition spellNat (n : nat) : text :=
  let n := N.of_nat n in spellDigits (digs (ndig n) n).

(** ten to the power [z] *)
Definition ten (z : Z) : Q := Qpower (10 # 1) z.
(** nearest integer, halves to even *)
Definition roundHalfEven (q : Q) : Z :=
  let d := Zpos (Qden q) in
  let f := (Qnum q / d)%Z in
  let r := (Qnum q mod d)%Z in
  if (2 * r <? d)%Z then f
  else if (d <? 2 * r)%Z then (f + 1)%Z
  else if Z.even f then f else (f + 1)%Z.
(** the exponent of the first significant digit of [m] > 0: it goes down while [m] is below
    one and up while it is at least ten *)
Fixpoint exp10F (fuel : nat) (m : Q) : Z :=
  match fuel with
  | O => 0%Z
  | S f => if Qle_bool 1 m
           then if Qle_bool 10 m then (exp10F f (m / 10) + 1)%Z else 0%Z
           else (exp10F f (m * 10) - 1)%Z
  end.
Definition exp10 (m : Q) : Z := exp10F (Z.to_nat (Z.log2 (Qnum m)) + Pos.size_nat (Qden m) + 2) m.
(** six significant digits (as a number) and the exponent of the first *)
Definition sixDigits (m : Q) : N * Z :=
  let e := exp10 m in
  let d := Z.to_N (roundHalfEven (m / ten (e - 5))) in
  if (d =? 1000000)%N then (100000%N, (e + 1)%Z) else (d, e).
Fixpoint dropZeros (l : list N) : list N :=
  match l with
  | [] => []
  | a :: l' => match dropZeros l' with
               | [] => if (a =? 0)%N then [] else [a]
               | r => a :: r
               end
  end.
(** the decimal point comes only with digits behind it *)
Definition spellFraction (l : list N) : text :=
  match dropZeros l with [] => [] | r => lit "." ++ spellDigits r end.
Definition spellExp (x : Z) : text :=
  let a := Z.abs_N x in
  lit "e" ++ lit (if (x <? 0)%Z then "-" else "+") ++ spellDigits (digs (Nat.max 2 (ndig a)) a).
Definition spellMag (m : Q) : text :=
  if Qeq_bool m 0 then lit "0"
  else
    let '(d, x) := sixDigits m in
    let l := digs 6 d in
    if ((-4 <=? x) && (x <? 6))%Z then
      if (0 <=? x)%Z
      then let k := S (Z.to_nat x) in spellDigits (firstn k l) ++ spellFraction (skipn k l)
      else lit "0" ++ spellFraction (repeat 0%N (Z.to_nat (- x - 1)) ++ l)
    else spellDigits (firstn 1 l) ++ spellFraction (skipn 1 l) ++ spellExp x.
Definition sign (neg : bool) : text := if neg then lit "-" else [].
(** operator<<(std::ostream&, double), slam2d.h:379 *)
Definition spellDbl (x : dbl) : text :=
  match x with
  | DFin b n d => sign b ++ spellMag (Z.of_N n # d)
  | DInf b => sign b ++ lit "inf"
  | DNan b => sign b ++ lit "nan"
  end.

Definition newline : ascii := "010"%char.
Definition quote : ascii := """"%char.
(** slam2d.h:379, 383-384 *)
Definition spellLine (l : line (dbl * dbl)) : text :=
  match l with
  | LNode id (x, y) =>
      lit "p" ++ spellNat id ++ lit "[ pose = " ++ [quote] ++ spellDbl x ++ lit "," ++ spellDbl y ++
      lit "!" ++ [quote] ++ lit "] " ++ [newline]
  | LEdge f t => lit "p" ++ spellNat f ++ lit "->p" ++ spellNat t ++ [newline]
  end.

Section Stream.
Context {Pose Obj Info : Type}.
Variable xy : Pose -> dbl * dbl.
Variable oob : option bool.
(** slam2d.h:373-386 *)
Definition graphStream (s : slam Pose Obj Info) : res text :=
  do ls <- graphText xy oob s; Ok (List.concat (map spellLine ls)).
End Stream.
