(** Rational floor/ceiling lemmas used by the grid proofs. *)
From Coq Require Import ZArith QArith Qround Lqa Lia.
Open Scope Q_scope.

Lemma inj_le a b : inject_Z a <= inject_Z b -> (a <= b)%Z.
Proof. rewrite <- Zle_Qle. auto. Qed.
Lemma inj_lt a b : inject_Z a < inject_Z b -> (a < b)%Z.
Proof. rewrite <- Zlt_Qlt. auto. Qed.
Lemma le_inj a b : (a <= b)%Z -> inject_Z a <= inject_Z b.
Proof. rewrite <- Zle_Qle. auto. Qed.
Lemma lt_inj a b : (a < b)%Z -> inject_Z a < inject_Z b.
Proof. rewrite <- Zlt_Qlt. auto. Qed.

Lemma inj_minus a b : inject_Z (a - b) == inject_Z a - inject_Z b.
Proof.
  unfold Z.sub. rewrite inject_Z_plus, inject_Z_opp. reflexivity.
Qed.

Lemma Qfloor_unique q n :
  inject_Z n <= q -> q < inject_Z n + 1 -> Qfloor q = n.
Proof.
  intros H1 H2.
  pose proof (Qfloor_le q) as F1. pose proof (Qlt_floor q) as F2.
  rewrite inject_Z_plus in F2. change (inject_Z 1) with 1 in F2.
  assert (A : (n < Qfloor q + 1)%Z).
  { apply inj_lt. rewrite inject_Z_plus. change (inject_Z 1) with 1. lra. }
  assert (B : (Qfloor q < n + 1)%Z).
  { apply inj_lt. rewrite inject_Z_plus. change (inject_Z 1) with 1. lra. }
  lia.
Qed.

Lemma Qfloor_spec q : inject_Z (Qfloor q) <= q /\ q < inject_Z (Qfloor q) + 1.
Proof.
  pose proof (Qfloor_le q) as F1. pose proof (Qlt_floor q) as F2.
  rewrite inject_Z_plus in F2. change (inject_Z 1) with 1 in F2. auto.
Qed.

Lemma Qceiling_spec q : q <= inject_Z (Qceiling q) /\ inject_Z (Qceiling q) < q + 1.
Proof.
  unfold Qceiling. rewrite inject_Z_opp.
  pose proof (Qfloor_spec (- q)) as [A B]. split; lra.
Qed.

Lemma Qceiling_unique q n :
  q <= inject_Z n -> inject_Z n < q + 1 -> Qceiling q = n.
Proof.
  intros H1 H2. unfold Qceiling.
  rewrite (Qfloor_unique (- q) (- n)); [lia| |]; rewrite inject_Z_opp; lra.
Qed.

Lemma Qfloor_plus_Z q n : Qfloor (q + inject_Z n) = (Qfloor q + n)%Z.
Proof.
  pose proof (Qfloor_spec q) as [A B].
  apply Qfloor_unique; rewrite inject_Z_plus; lra.
Qed.

Lemma Qdiv_mul a b : 0 < b -> a == a / b * b.
Proof. intro H. field. intro E. rewrite E in H. apply (Qlt_irrefl 0 H). Qed.

Lemma Qle_scale a b c : 0 < c -> (a * c <= b * c <-> a <= b).
Proof. intro H. apply Qmult_le_r; auto. Qed.
Lemma Qlt_scale a b c : 0 < c -> (a * c < b * c <-> a < b).
Proof. intro H. apply Qmult_lt_r; auto. Qed.

Lemma Qle_bool_false a b : Qle_bool a b = false <-> b < a.
Proof.
  split; intro H.
  - apply Qnot_le_lt. intro L. apply Qle_bool_iff in L. congruence.
  - destruct (Qle_bool a b) eqn:E; auto. apply Qle_bool_iff in E.
    exfalso. apply (Qlt_not_le _ _ H E).
Qed.
