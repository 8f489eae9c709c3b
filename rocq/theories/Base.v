(** Shared vocabulary: outcomes of C++ code, vectors, loops, 64-bit counters.
    Nothing here models a particular function of the repository. *)
From Coq Require Import List ZArith QArith Lia Bool PArith.
From Coq Require Import ZifyBool ZifyNat.
Import ListNotations.
Open Scope nat_scope.

(** Outcome of running a piece of C++: a value, undefined behaviour
    (out-of-range access, null dereference, bad conversion), or an exception. *)
Inductive res (A : Type) : Type :=
| Ok (a : A)
| UB
| Throw.
Arguments Ok {A} a.
Arguments UB {A}.
Arguments Throw {A}.

Definition bind {A B} (m : res A) (f : A -> res B) : res B :=
  match m with Ok a => f a | UB => UB | Throw => Throw end.

Notation "'do' x <- m ; f" := (bind m (fun x => f))
  (at level 200, x pattern, m at level 100, f at level 200).

Definition is_ok {A} (m : res A) : Prop := exists a, m = Ok a.

(** std::vector element access: out of range is UB. *)
Definition vget {A} (l : list A) (i : nat) : res A :=
  match nth_error l i with Some a => Ok a | None => UB end.

Fixpoint upd {A} (l : list A) (i : nat) (v : A) : list A :=
  match l, i with
  | [], _ => []
  | _ :: t, O => v :: t
  | h :: t, S k => h :: upd t k v
  end.

Definition vset {A} (l : list A) (i : nat) (v : A) : res (list A) :=
  if i <? length l then Ok (upd l i v) else UB.

(** A loop body that may fail, run over the given indices in order. *)
Fixpoint foldM {S I} (f : S -> I -> res S) (l : list I) (s : S) : res S :=
  match l with
  | [] => Ok s
  | i :: t => do s' <- f s i; foldM f t s'
  end.

(** Loops with an early [return]. *)
Inductive flow (S : Type) : Type :=
| Next (s : S)     (* fell through to the next iteration *)
| Break (s : S)    (* left the loop *)
| Fail.            (* undefined behaviour inside the body *)
Arguments Next {S} s.
Arguments Break {S} s.
Arguments Fail {S}.

(** [iter_nat n f s]: run the body [n] times, stopping at the first Break/Fail. *)
Fixpoint iter_nat {S} (n : nat) (f : S -> flow S) (s : S) : flow S :=
  match n with
  | O => Next s
  | Datatypes.S k => match f s with Next s' => iter_nat k f s' | o => o end
  end.

(** The same for a binary iteration count, so that counts near 2^64 (which the
    code really produces) still compute when the loop leaves early. *)
Fixpoint iter_pos {S} (n : positive) (f : S -> flow S) (s : S) : flow S :=
  match n with
  | xH => f s
  | xO m => match iter_pos m f s with Next s' => iter_pos m f s' | o => o end
  | xI m => match f s with
            | Next s1 => match iter_pos m f s1 with
                         | Next s2 => iter_pos m f s2 | o => o end
            | o => o
            end
  end.

Definition iter_N {S} (n : N) (f : S -> flow S) (s : S) : flow S :=
  match n with N0 => Next s | Npos p => iter_pos p f s end.

(** size_t arithmetic. *)
Definition u64 (z : Z) : Z := Z.modulo z (2 ^ 64).

(* ------------------------------------------------------------------ *)
(** * Lemmas about the vocabulary *)

Lemma iter_nat_add {S} (f : S -> flow S) : forall a b s,
  iter_nat (a + b) f s =
  match iter_nat a f s with Next s' => iter_nat b f s' | o => o end.
Proof.
  induction a as [|a IH]; intros b s; simpl; [reflexivity|].
  destruct (f s); auto.
Qed.

Lemma iter_pos_nat {S} (f : S -> flow S) : forall p s,
  iter_pos p f s = iter_nat (Pos.to_nat p) f s.
Proof.
  induction p as [p IH|p IH|]; intros s.
  - rewrite Pos2Nat.inj_xI.
    replace (Datatypes.S (2 * Pos.to_nat p))
      with (Datatypes.S (Pos.to_nat p + Pos.to_nat p)) by lia.
    cbn [iter_pos iter_nat]. destruct (f s) as [s1|s1|]; auto.
    rewrite iter_nat_add, IH.
    destruct (iter_nat (Pos.to_nat p) f s1); auto.
  - rewrite Pos2Nat.inj_xO.
    replace (2 * Pos.to_nat p) with (Pos.to_nat p + Pos.to_nat p) by lia.
    rewrite iter_nat_add. cbn [iter_pos]. rewrite IH.
    destruct (iter_nat (Pos.to_nat p) f s); auto.
  - change (Pos.to_nat 1) with 1. cbn. destruct (f s); reflexivity.
Qed.

Lemma iter_N_nat {S} (f : S -> flow S) n s :
  iter_N n f s = iter_nat (N.to_nat n) f s.
Proof. destruct n; simpl; [reflexivity|apply iter_pos_nat]. Qed.

Lemma length_upd {A} (l : list A) : forall i v, length (upd l i v) = length l.
Proof. induction l as [|h t IH]; intros [|i] v; simpl; auto. Qed.

Lemma nth_error_upd {A} (l : list A) : forall i v j,
  nth_error (upd l i v) j =
  if (j =? i) && (i <? length l) then Some v else nth_error l j.
Proof.
  induction l as [|h t IH]; intros i v j; simpl.
  - destruct j; simpl; rewrite andb_false_r; auto.
  - destruct i as [|i], j as [|j]; simpl; auto.
    rewrite IH. reflexivity.
Qed.

Lemma nth_upd {A} (l : list A) i v j d :
  nth j (upd l i v) d = if (j =? i) && (i <? length l) then v else nth j l d.
Proof.
  revert i j; induction l as [|h t IH]; intros i j; simpl.
  - rewrite andb_false_r. reflexivity.
  - destruct i as [|i], j as [|j]; simpl; auto. rewrite IH. reflexivity.
Qed.

Lemma upd_self {A} (l : list A) d : forall i, upd l i (nth i l d) = l.
Proof. induction l as [|h t IH]; intros [|i]; simpl; auto. rewrite IH; auto. Qed.

Lemma vget_ok {A} (l : list A) i a : vget l i = Ok a <-> nth_error l i = Some a.
Proof. unfold vget. destruct (nth_error l i); split; congruence. Qed.

Lemma vget_nth {A} (l : list A) i d : i < length l -> vget l i = Ok (nth i l d).
Proof. intro H. unfold vget. rewrite (nth_error_nth' l d H). reflexivity. Qed.

Lemma vget_oob {A} (l : list A) i : length l <= i -> vget l i = UB.
Proof. intro H. unfold vget. apply nth_error_None in H. rewrite H. reflexivity. Qed.

Lemma vset_ok {A} (l : list A) i v : i < length l -> vset l i v = Ok (upd l i v).
Proof. intro H. unfold vset. apply Nat.ltb_lt in H. rewrite H. reflexivity. Qed.

Lemma vset_inv {A} (l l' : list A) i v :
  vset l i v = Ok l' -> i < length l /\ l' = upd l i v.
Proof.
  unfold vset. destruct (i <? length l) eqn:E; intro H; inversion H; subst.
  apply Nat.ltb_lt in E. auto.
Qed.

Lemma list_eq_nth {A} (d : A) (l1 l2 : list A) :
  length l1 = length l2 ->
  (forall i, i < length l1 -> nth i l1 d = nth i l2 d) -> l1 = l2.
Proof. intros HL H. apply (nth_ext l1 l2 d d HL H). Qed.

Lemma nth_repeat_any {A} (d : A) n i : nth i (repeat d n) d = d.
Proof. revert i; induction n as [|n IH]; intros [|i]; simpl; auto. Qed.

Lemma bind_ok_inv {A B} (m : res A) (f : A -> res B) b :
  bind m f = Ok b -> exists a, m = Ok a /\ f a = Ok b.
Proof. destruct m; simpl; intro H; try discriminate. eauto. Qed.

Lemma foldM_app {S I} (f : S -> I -> res S) l1 l2 s :
  foldM f (l1 ++ l2) s = do s' <- foldM f l1 s; foldM f l2 s'.
Proof.
  revert s; induction l1 as [|i t IH]; intros s; simpl; auto.
  destruct (f s i); simpl; auto.
Qed.

(** Loop rule for an ascending index loop. *)
Lemma foldM_seq_inv {S} (f : S -> nat -> res S) (P : nat -> S -> Prop) n s :
  P 0 s ->
  (forall k t, k < n -> P k t -> exists t', f t k = Ok t' /\ P (Datatypes.S k) t') ->
  exists s', foldM f (seq 0 n) s = Ok s' /\ P n s'.
Proof.
  intros H0 Hstep.
  assert (G : forall m k t, k + m = n -> P k t ->
            exists s', foldM f (seq k m) t = Ok s' /\ P n s').
  { induction m as [|m IH]; intros k t Hk HP; simpl.
    - replace n with k by lia. eauto.
    - destruct (Hstep k t ltac:(lia) HP) as (t' & E & HP'). rewrite E. simpl.
      apply IH; [lia|exact HP']. }
  apply (G n 0 s); auto.
Qed.

(** Loop rule for a descending index loop (n-1 downto 0). *)
Lemma foldM_rev_seq_inv {S} (f : S -> nat -> res S) (P : nat -> S -> Prop) n s :
  P 0 s ->
  (forall k t, k < n -> P k t ->
     exists t', f t (n - 1 - k) = Ok t' /\ P (Datatypes.S k) t') ->
  exists s', foldM f (rev (seq 0 n)) s = Ok s' /\ P n s'.
Proof.
  intros H0 Hstep.
  assert (G : forall m k t, k + m = n -> P k t ->
            exists s', foldM f (rev (seq 0 m)) t = Ok s' /\ P n s').
  { induction m as [|m IH]; intros k t Hk HP.
    - simpl. replace n with k by lia. eauto.
    - rewrite seq_S, rev_app_distr. simpl.
      destruct (Hstep k t ltac:(lia) HP) as (t' & E & HP').
      replace (n - 1 - k) with m in E by lia. rewrite E. simpl.
      apply (IH (Datatypes.S k)); [lia|exact HP']. }
  apply (G n 0 s); auto.
Qed.

Lemma u64_id z : (0 <= z < 2 ^ 64)%Z -> u64 z = z.
Proof. intro H. unfold u64. apply Z.mod_small; auto. Qed.
