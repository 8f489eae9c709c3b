(** What the two command line tools are asked to do, written without the model's helpers:
    rows of text, pairs of scans, errors. *)
From Coq Require Import Reals List ZArith Bool Arith String Ascii.
From Verif Require Import Base LinAlg3 GeoModel GeoSpec UtilModel UtilSpec EvalModel.
Import ListNotations.
Open Scope R_scope.

(** The text of a line is these fields with commas in between. *)
Definition row (line : str) (fs : list str) : Prop :=
  fs <> [] /\ line = join (s_ ",") fs /\ forall f, In f fs -> ~ In ","%char f.
(** A line of the file of poses and one of the file of scans: the first field is skipped, in
    the latter the fourth too. *)
Definition pose_line (atof : str -> R) (line : str) (p : pose) : Prop :=
  exists a x y th rest, row line (a :: x :: y :: th :: rest) /\ p = mkP (atof x) (atof y) (atof th).
Definition scan_line (atof : str -> R) (line : str) (l : laser) : Prop :=
  exists a mn inc rest, row line (a :: mn :: inc :: rest) /\
    l = mkLaser (atof mn) (atof inc) (map atof (tl rest)).
(** A line with fewer fields than are read. *)
Definition too_short (k : nat) (line : str) : Prop := exists fs, row line fs /\ (List.length fs < k)%nat.

(** The robot at [p] sees another robot at [q] as [r]. *)
Definition sees (p q r : pose) : Prop :=
  (px r, py r) = seen_from p (px q, py q) /\ wrapped (pth q - pth p) (pth r).
Definition distance (p q : pose) : R := sqrt ((px q - px p) ^ 2 + (py q - py p) ^ 2).
(** Turned by more than [rot] and away by more than [disp]. *)
Definition apart (disp rot : R) (p q : pose) : Prop :=
  exists r, sees p q r /\ rot < Rabs (pth r) /\ disp < distance p q.
Definition apart_at (disp rot : R) (poses : list pose) (i j : nat) : Prop :=
  exists p q, nth_error poses i = Some p /\ nth_error poses j = Some q /\ apart disp rot p q.

(** The pairs (source, target) among the first [n] recordings: from target [t] on, the next
    source is the first recording that is far enough from the target, and it is the next
    target. *)
Inductive picks (disp rot : R) (poses : list pose) (n : nat) : nat -> nat -> list (nat * nat) -> Prop :=
| picks_end t i : (forall j, (i <= j < n)%nat -> ~ apart_at disp rot poses t j) ->
    picks disp rot poses n t i []
| picks_next t i j l : (i <= j < n)%nat -> apart_at disp rot poses t j ->
    (forall k, (i <= k < j)%nat -> ~ apart_at disp rot poses t k) ->
    picks disp rot poses n j (S j) l -> picks disp rot poses n t i ((j, t) :: l).

(** The modes, the matchers behind them and what these are given as source and target. *)
Inductive offered {A} : string -> engine -> (A -> given A) -> (A -> given A) -> Prop :=
| offered_basic : offered "basic" P2D Means Cells
| offered_p2d : offered "p2d" P2D Points Cells
| offered_d2d : offered "d2d" D2D Cells Cells
| offered_robust : offered "robust" Robust Cells Cells
| offered_corr : offered "corr" Corr Means Means
| offered_corr_full : offered "corr_full" Corr Points Points
| offered_icp : offered "icpNDT" Icp Means Means
| offered_proof : offered "proof" Icp Points Points.
Definition mode_names : list string :=
  ["basic"; "p2d"; "d2d"; "robust"; "corr"; "corr_full"; "icpNDT"; "proof"]%string.

(** What the matcher answers when it is asked for these pairs one after the other. *)
Inductive answers {A M} (f : M -> given A -> given A -> M * T2) (fi fo : A -> given A) (scans : list A)
  : M -> list (nat * nat) -> list T2 -> Prop :=
| answers_nil m : answers f fi fo scans m [] []
| answers_cons m m' j t s s' e l es : nth_error scans j = Some s -> nth_error scans t = Some s' ->
    f m (fi s) (fo s') = (m', e) -> answers f fi fo scans m' l es ->
    answers f fi fo scans m ((j, t) :: l) (e :: es).

(** The error of an answer: componentwise, without regard to whole turns. *)
Definition error_of (poses : list pose) (pr : nat * nat) (e : T2) (v : pose) : Prop :=
  exists p q r, nth_error poses (snd pr) = Some p /\ nth_error poses (fst pr) = Some q /\ sees p q r /\
    v = mkP (Rabs (px r - tx e)) (Rabs (py r - ty e)) (Rabs (pth r - getAngle e)).
Inductive errors (poses : list pose) : list (nat * nat) -> list T2 -> list pose -> Prop :=
| errors_nil : errors poses [] [] []
| errors_cons pr e v l es vs : error_of poses pr e v -> errors poses l es vs ->
    errors poses (pr :: l) (e :: es) (v :: vs).

Definition sumR (l : list R) : R := fold_right Rplus 0 l.
Definition mean (l : list R) : R := sumR l / INR (List.length l).

(** The limits of the command line: the fourth argument if there are four, the fourth and
    the fifth if there are five, else the built-in ones. *)
Definition limits (stod : str -> option R) (args : list str) (disp rot : R) : Prop :=
  match args with
  | [_; _; _; d] => stod d = Some disp /\ rot = 3 / 10
  | [_; _; _; d; r] => stod d = Some disp /\ stod r = Some rot
  | _ :: _ :: _ :: _ => disp = 4 / 10 /\ rot = 3 / 10
  | _ => False
  end.

(** Merging scans [i], [i+1], ..., [i+k-1] one after the other, each at the pose at which the
    robot of the first recording sees that of the scan. *)
Inductive merged {A G} (merge : G -> A -> pose -> res G) (poses : list pose) (scans : list A)
  : nat -> nat -> G -> G -> Prop :=
| merged_nil i g : merged merge poses scans 0 i g g
| merged_cons k i g g' s p q r o : nth_error scans i = Some s ->
    nth_error poses 0 = Some p -> nth_error poses i = Some q -> sees p q r ->
    merge g s r = Ok g' -> merged merge poses scans k (S i) g' o ->
    merged merge poses scans (S k) i g o.
