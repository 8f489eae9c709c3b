(** A reader of the text of the graph, written from the look of the text and not from the
    code that writes it, and what it means that a number was read well. *)
From Coq Require Import List ZArith QArith Qabs NArith Bool Arith Ascii String.
From Verif Require Import ExportModel TextModel.
Import ListNotations.
Open Scope nat_scope.

Definition digitOf (c : ascii) : option N :=
  let v := N_of_ascii c in
  if ((48 <=? v) && (v <=? 57))%N then Some (v - 48)%N else None.
(** all the digits there are *)
Fixpoint takeDigits (t : text) : list N * text :=
  match t with
  | [] => ([], [])
  | c :: t' => match digitOf c with
               | Some d => let '(l, r) := takeDigits t' in (d :: l, r)
               | None => ([], t)
               end
  end.
Definition value (l : list N) : N := fold_left (fun a d => 10 * a + d)%N l 0%N.
(** at least one digit *)
Definition readDigits (t : text) : option (list N * text) :=
  match takeDigits t with
  | ([], _) => None
  | r => Some r
  end.
Fixpoint expect (w t : text) : option text :=
  match w, t with
  | [], _ => Some t
  | a :: w', b :: t' => if Ascii.eqb a b then expect w' t' else None
  | _ :: _, [] => None
  end.
Definition readNat (t : text) : option (nat * text) :=
  match readDigits t with Some (l, r) => Some (N.to_nat (value l), r) | None => None end.
(** ".25" or nothing *)
Definition readFraction (t : text) : option (list N * text) :=
  match expect (lit ".") t with
  | Some r => readDigits r
  | None => Some ([], t)
  end.
(** "e+07", "e-05" or nothing *)
Definition readExponent (t : text) : option (Z * text) :=
  match expect (lit "e") t with
  | None => Some (0%Z, t)
  | Some r =>
      match expect (lit "+") r, expect (lit "-") r with
      | Some r', _ => match readDigits r' with Some (l, r'') => Some (Z.of_N (value l), r'') | None => None end
      | None, Some r' => match readDigits r' with Some (l, r'') => Some ((- Z.of_N (value l))%Z, r'') | None => None end
      | None, None => None
      end
  end.
Definition readMag (t : text) : option (Q * text) :=
  match readDigits t with
  | None => None
  | Some (a, r) =>
      match readFraction r with
      | None => None
      | Some (b, r') =>
          match readExponent r' with
          | None => None
          | Some (e, r'') =>
              Some (inject_Z (Z.of_N (value (a ++ b))) * Qpower (10 # 1) (e - Z.of_nat (List.length b)), r'')%Q
          end
      end
  end.
Inductive rnum := RFin (neg : bool) (m : Q) | RInf (neg : bool) | RNan (neg : bool).
Definition readUnsigned (neg : bool) (t : text) : option (rnum * text) :=
  match expect (lit "inf") t, expect (lit "nan") t with
  | Some r, _ => Some (RInf neg, r)
  | None, Some r => Some (RNan neg, r)
  | None, None => match readMag t with Some (q, r) => Some (RFin neg q, r) | None => None end
  end.
Definition readDbl (t : text) : option (rnum * text) :=
  match expect (lit "-") t with
  | Some r => readUnsigned true r
  | None => readUnsigned false t
  end.

Notation "'get' p <- e ; f" := (match e with Some p => f | None => None end)
  (at level 200, p pattern, e at level 100, f at level 200, right associativity).
(** what a line says *)
Inductive said := SaidNode (id : nat) (x y : rnum) | SaidEdge (from to : nat).
Definition readLine (t : text) : option (said * text) :=
  get t1 <- expect (lit "p") t;
  get (id, t2) <- readNat t1;
  match expect (lit "[ pose = " ++ [quote]) t2 with
  | Some t3 =>
      get (x, t4) <- readDbl t3;
      get t5 <- expect (lit ",") t4;
      get (y, t6) <- readDbl t5;
      get t7 <- expect (lit "!" ++ [quote] ++ lit "] " ++ [newline]) t6;
      Some (SaidNode id x y, t7)
  | None =>
      get t3 <- expect (lit "->p") t2;
      get (to, t4) <- readNat t3;
      get t5 <- expect [newline] t4;
      Some (SaidEdge id to, t5)
  end.
(** the lines up to the end of the text *)
Fixpoint readLines (fuel : nat) (t : text) : option (list said) :=
  match t, fuel with
  | [], _ => Some []
  | _, O => None
  | _, S f => get (x, r) <- readLine t; get l <- readLines f r; Some (x :: l)
  end.
Definition readGraph (t : text) : option (list said) := readLines (List.length t) t.

(** The number was read up to five parts in a million, with its sign; zero and the
    numbers that are not finite were read as such. *)
Definition near (x : dbl) (r : rnum) : Prop :=
  match x, r with
  | DFin b n d, RFin b' q => b = b' /\ (0 <= q)%Q /\ (Qabs (q - (Z.of_N n # d)) <= (5 # 1000000) * (Z.of_N n # d))%Q
  | DInf b, RInf b' => b = b'
  | DNan b, RNan b' => b = b'
  | _, _ => False
  end.
(** The number is a decimal number of at most six digits. *)
Definition short (x : dbl) : Prop :=
  match x with
  | DFin _ n d => exists (c : N) (z : Z), (c < 1000000)%N /\
      ((Z.of_N n # d) == inject_Z (Z.of_N c) * Qpower (10 # 1) z)%Q
  | _ => False
  end.
Definition exactly (x : dbl) (r : rnum) : Prop :=
  match x, r with DFin b n d, RFin b' q => b = b' /\ (q == (Z.of_N n # d))%Q | _, _ => False end.
(** The number was read up to five parts in a million, and without any error if six
    digits are enough for it. *)
Definition reads_as (x : dbl) (r : rnum) : Prop := near x r /\ (short x -> exactly x r).
(** The text does not go on with something of a number. *)
Definition ends (t : text) : Prop :=
  match t with [] => True | c :: _ => digitOf c = None /\ c <> "."%char /\ c <> "e"%char end.
