(** Model of the two small utility headers: utils/string_tools.h and
    utils/point_cloud_tools.h. *)
From Coq Require Import List Ascii Arith Lia QArith Bool.
From Verif Require Import Base.
Import ListNotations.

(** A std::string is its sequence of characters. *)
Definition str := list ascii.

(** [t] is a prefix of [s]. *)
Fixpoint prefixb (t s : str) : bool :=
  match t, s with
  | [], _ => true
  | a :: t', b :: s' => Ascii.eqb a b && prefixb t' s'
  | _ :: _, [] => false
  end.

(** std::string::find(token): position of the first occurrence, [None] for npos.
    Called at string_tools.h:28. *)
Fixpoint find_pos (token s : str) : option nat :=
  if prefixb token s then Some 0%nat
  else match s with
       | [] => None
       | _ :: s' => match find_pos token s' with Some p => Some (S p) | None => None end
       end.

(** string_tools.h:21-34 (ndt_gslam/include/ndt_gslam/utils), split.  The do-while
    loop runs with a bound on its rounds; [None] says that the bound was too
    small, so a loop that never ends gives [None] for every bound.  The two
    substr calls of lines 29 and 31 are firstn and skipn (substr(p) with
    p <= size never throws, and pos + token.size() <= size by find). *)
Fixpoint split_loop (rounds : nat) (token temp : str) (output : list str) : option (list str) :=
  match rounds with
  | O => None
  | S k =>
      match find_pos token temp with
      | None => Some (output ++ [temp])
      | Some pos =>
          split_loop k token (skipn (pos + length token) temp) (output ++ [firstn pos temp])
      end
  end.
Definition split (rounds : nat) (data token : str) : option (list str) :=
  split_loop rounds token data [].

(** point_cloud_tools.h:32-47, getMinMax2D, and the identical member function
    LookUpTable::getMinMax2D (correlative_estimation_tools.h:455-471); also
    getMinMaxNDT2D (point_cloud_tools.h:49-65) applied to the means of the cells.
    Coordinates are exact rationals (every finite float is one). *)
Record box := mkBox { minx : Q; miny : Q; maxx : Q; maxy : Q }.
Definition Qltb (a b : Q) : bool := negb (Qle_bool b a).
Definition growBox (b : box) (p : Q * Q) : box :=
  let b1 := if Qltb (fst p) (minx b) then mkBox (fst p) (miny b) (maxx b) (maxy b) else b in
  let b2 := if Qltb (maxx b1) (fst p) then mkBox (minx b1) (miny b1) (fst p) (maxy b1) else b1 in
  let b3 := if Qltb (snd p) (miny b2) then mkBox (minx b2) (snd p) (maxx b2) (maxy b2) else b2 in
  if Qltb (maxy b3) (snd p) then mkBox (minx b3) (miny b3) (maxx b3) (snd p) else b3.
Definition getMinMax2D (pcl : list (Q * Q)) : box :=
  fold_left growBox pcl (mkBox 0 0 0 0).
