(** How numbers are spelled and read again. *)
From Coq Require Import List ZArith QArith Qabs Qpower Qfield NArith Bool Arith Ascii String Lia Lqa.
From Verif Require Import ExportModel TextModel TextSpec.
Import ListNotations.
Open Scope nat_scope.

(** * Powers of ten *)
Lemma ten_nz : ~ (10 # 1 == 0)%Q.
Proof. discriminate. Qed.
Lemma ten_pos z : (0 < ten z)%Q.
Proof.
  unfold ten. assert (H := Qpower_pos_positive). 
  destruct z as [|p|p]; cbn [Qpower].
  - lra.
  - clear. revert p. assert (P : forall p, (0 < Qpower_positive (10 # 1) p)%Q).
    { intro p. rewrite Qpower_decomp_positive. unfold Qlt. cbn [Qnum Qden]. assert (0 < 10 ^ Zpos p)%Z by (apply Z.pow_pos_nonneg; lia). lia. }
    exact P.
  - apply Qinv_lt_0_compat. rewrite Qpower_decomp_positive. unfold Qlt. cbn [Qnum Qden]. assert (0 < 10 ^ Zpos p)%Z by (apply Z.pow_pos_nonneg; lia). lia.
Qed.
Lemma ten_plus a b : (ten (a + b) == ten a * ten b)%Q.
Proof. apply Qpower_plus, ten_nz. Qed.
Lemma ten_1 : (ten 1 == 10)%Q.
Proof. reflexivity. Qed.
Lemma ten_succ a : (ten (a + 1) == 10 * ten a)%Q.
Proof. rewrite ten_plus, ten_1. ring. Qed.
Lemma ten_pred a : (10 * ten (a - 1) == ten a)%Q.
Proof. rewrite <- ten_succ. replace (a - 1 + 1)%Z with a by lia. reflexivity. Qed.
Lemma ten_nat k : (ten (Z.of_nat k) == inject_Z (Z.of_N (10 ^ N.of_nat k)))%Q.
Proof.
  induction k as [|k IH]; [reflexivity|].
  rewrite Nat2Z.inj_succ. unfold Z.succ. rewrite ten_succ, IH.
  rewrite Nat2N.inj_succ, N.pow_succ_r by lia.
  rewrite N2Z.inj_mul, inject_Z_mult. reflexivity.
Qed.
Lemma ten_5 z : (ten (z - 5) * 100000 == ten z)%Q.
Proof. replace z with (z - 5 + 5)%Z at 2 by lia. rewrite ten_plus. reflexivity. Qed.
Lemma ten_mono a b : (a <= b)%Z -> (ten a <= ten b)%Q.
Proof.
  intro H. replace b with (a + Z.of_nat (Z.to_nat (b - a)))%Z by lia.
  rewrite ten_plus, ten_nat. assert (P := ten_pos a).
  assert (1 <= inject_Z (Z.of_N (10 ^ N.of_nat (Z.to_nat (b - a)))))%Q.
  { change 1%Q with (inject_Z 1). rewrite <- Zle_Qle.
    assert (10 ^ N.of_nat (Z.to_nat (b - a)) <> 0)%N by (apply N.pow_nonzero; lia). lia. }
  set (u := inject_Z _) in *. set (v := ten a) in *. nra.
Qed.

(** * The exponent of the first digit *)
Lemma Qle_bool_false a b : Qle_bool a b = false -> (b < a)%Q.
Proof.
  intro H. apply Qnot_le_lt. intro L. apply Qle_bool_iff in L. congruence.
Qed.
Lemma exp10_up f : forall m, (1 <= m)%Q -> (m < ten (Z.of_nat f))%Q ->
  (ten (exp10F f m) <= m /\ m < ten (exp10F f m + 1))%Q.
Proof.
  induction f as [|f IH]; intros m A B; cbn [exp10F].
  - change (ten (Z.of_nat 0)) with 1%Q in B. lra.
  - rewrite (proj2 (Qle_bool_iff 1 m) A).
    destruct (Qle_bool 10 m) eqn:E.
    + apply Qle_bool_iff in E.
      assert (M : (m == 10 * (m / 10))%Q) by field.
      destruct (IH (m / 10)%Q) as [C D].
      * lra.
      * rewrite Nat2Z.inj_succ in B. unfold Z.succ in B. rewrite ten_succ in B. lra.
      * rewrite (ten_succ (_ + 1)). rewrite (ten_succ (exp10F f (m / 10))). 
        rewrite ten_succ in D. lra.
    + apply Qle_bool_false in E. split; [exact A|]. change (ten (0 + 1)) with 10%Q. exact E.
Qed.
Lemma exp10_down f : forall m, (m < 1)%Q -> (1 <= m * ten (Z.of_nat f))%Q ->
  (ten (exp10F f m) <= m /\ m < ten (exp10F f m + 1))%Q.
Proof.
  induction f as [|f IH]; intros m A B; cbn [exp10F].
  - change (ten (Z.of_nat 0)) with 1%Q in B. lra.
  - destruct (Qle_bool 1 m) eqn:E; [apply Qle_bool_iff in E; lra|].
    rewrite Nat2Z.inj_succ in B. unfold Z.succ in B. rewrite ten_succ in B.
    assert (M : (ten (exp10F f (m * 10)) <= m * 10 /\ m * 10 < ten (exp10F f (m * 10) + 1))%Q).
    { destruct (Qlt_le_dec (m * 10) 1) as [L | L].
      - apply IH; [exact L|]. lra.
      - destruct f as [|f].
        + cbn [exp10F]. split; [exact L|]. change (ten (0 + 1)) with 10%Q. lra.
        + cbn [exp10F]. rewrite (proj2 (Qle_bool_iff 1 (m * 10)) L).
          destruct (Qle_bool 10 (m * 10)) eqn:E2; [apply Qle_bool_iff in E2; lra|].
          split; [exact L|]. change (ten (0 + 1)) with 10%Q. lra. }
    destruct M as [C D]. set (e := exp10F f (m * 10)) in *.
    replace (e - 1 + 1)%Z with e by lia. rewrite ten_succ in D.
    assert (P := ten_pred e). lra.
Qed.
Lemma two_ten k : (2 ^ Z.of_nat k <= Z.of_N (10 ^ N.of_nat k))%Z.
Proof. rewrite N2Z.inj_pow, nat_N_Z. apply Z.pow_le_mono_l. cbn. lia. Qed.
Lemma size_bound p : (Zpos p < 2 ^ Z.of_nat (Pos.size_nat p))%Z.
Proof.
  induction p as [p IH | p IH |]; cbn [Pos.size_nat]; try (rewrite Nat2Z.inj_succ, Z.pow_succ_r by lia; lia).
Qed.
Lemma exp10_spec m : (0 < m)%Q -> (ten (exp10 m) <= m /\ m < ten (exp10 m + 1))%Q.
Proof.
  intro P. unfold exp10. set (f := Z.to_nat _ + _ + 2).
  assert (NP : (0 < Qnum m)%Z) by (unfold Qlt in P; cbn in P; lia).
  destruct (Qlt_le_dec m 1) as [L | L].
  - apply exp10_down; [exact L|]. rewrite ten_nat.
    assert (B := size_bound (Qden m)).
    assert (T := two_ten f).
    assert (M : (2 ^ Z.of_nat (Pos.size_nat (Qden m)) <= 2 ^ Z.of_nat f)%Z)
      by (apply Z.pow_le_mono_r; unfold f; lia).
    unfold Qle, Qmult, inject_Z. cbn [Qnum Qden]. rewrite Pos.mul_1_r.
    set (u := Z.of_N _) in *. nia.
  - apply exp10_up; [exact L|]. rewrite ten_nat.
    assert (T := two_ten f).
    assert (B := Z.log2_spec (Qnum m) NP).
    assert (M : (2 ^ Z.succ (Z.log2 (Qnum m)) <= 2 ^ Z.of_nat f)%Z).
    { apply Z.pow_le_mono_r; [lia|]. unfold f. assert (0 <= Z.log2 (Qnum m))%Z by apply Z.log2_nonneg. lia. }
    unfold Qlt, inject_Z. cbn [Qnum Qden]. set (u := Z.of_N _) in *. nia.
Qed.

(** * Rounding *)
Lemma round_spec q : (Qabs (inject_Z (roundHalfEven q) - q) <= 1 # 2)%Q.
Proof.
  assert (H := Z.div_mod (Qnum q) (Zpos (Qden q)) ltac:(lia)).
  assert (B := Z.mod_pos_bound (Qnum q) (Zpos (Qden q)) ltac:(lia)).
  unfold roundHalfEven. set (f := (Qnum q / Zpos (Qden q))%Z) in *. set (r := (Qnum q mod Zpos (Qden q))%Z) in *.
  apply Qabs_case; intros _.
  - destruct (Z.ltb_spec (2 * r) (Zpos (Qden q))); [|destruct (Z.ltb_spec (Zpos (Qden q)) (2 * r)); [|destruct (Z.even f)]];
    unfold Qle, Qminus, Qplus, Qopp, inject_Z; cbn [Qnum Qden]; rewrite ?Pos.mul_1_l; lia.
  - destruct (Z.ltb_spec (2 * r) (Zpos (Qden q))); [|destruct (Z.ltb_spec (Zpos (Qden q)) (2 * r)); [|destruct (Z.even f)]];
    unfold Qle, Qminus, Qplus, Qopp, inject_Z; cbn [Qnum Qden]; rewrite ?Pos.mul_1_l; lia.
Qed.
Lemma Qabs_lr a b : (Qabs a <= b -> - b <= a /\ a <= b)%Q.
Proof. apply Qabs_Qle_condition. Qed.
Lemma inj_bound a b : (inject_Z a - inject_Z b < 1)%Q -> (a <= b)%Z.
Proof. unfold Qlt, Qminus, Qplus, Qopp, inject_Z. cbn. lia. Qed.
Lemma round_int q z : (q == inject_Z z)%Q -> roundHalfEven q = z.
Proof.
  intro E. assert (R := Qabs_lr _ _ (round_spec q)).
  apply Z.le_antisymm; apply inj_bound; lra.
Qed.

(** * Six significant digits *)
Lemma to_N_inj d : (0 <= d)%Z -> Z.of_N (Z.to_N d) = d.
Proof. apply Z2N.id. Qed.
Lemma sixDigits_spec m d x : (0 < m)%Q -> sixDigits m = (d, x) ->
  (100000 <= d /\ d < 1000000)%N /\
  (Qabs (inject_Z (Z.of_N d) * ten (x - 5) - m) <= (5 # 1000000) * m)%Q /\
  (forall c z, (c < 1000000)%N -> (m == inject_Z (Z.of_N c) * ten z)%Q ->
     (inject_Z (Z.of_N d) * ten (x - 5) == m)%Q).
Proof.
  intros P H. unfold sixDigits in H.
  destruct (exp10_spec m P) as [L U]. set (e := exp10 m) in *.
  assert (T := ten_pos (e - 5)). assert (T5 := ten_5 e). rewrite ten_succ in U.
  set (t := ten (e - 5)) in *. set (q := (m / t)%Q) in *.
  assert (M : (m == q * t)%Q) by (unfold q; field; lra).
  assert (QL : (100000 <= q)%Q) by nra.
  assert (QU : (q < 1000000)%Q) by nra.
  assert (R := Qabs_lr _ _ (round_spec q)).
  assert (RL : (100000 <= roundHalfEven q)%Z).
  { apply inj_bound. change (inject_Z 100000) with (100000%Q). lra. }
  assert (RU : (roundHalfEven q <= 1000000)%Z).
  { apply inj_bound. change (inject_Z 1000000) with (1000000%Q). lra. }
  assert (EX : forall c z, (c < 1000000)%N -> (m == inject_Z (Z.of_N c) * ten z)%Q ->
     (inject_Z (roundHalfEven q) == q)%Q).
  { intros c z C E.
    destruct (Z_le_gt_dec (e - 5) z) as [G | G].
    - assert (Q1 : (q == inject_Z (Z.of_N c * Z.of_N (10 ^ N.of_nat (Z.to_nat (z - (e - 5))))))%Q).
      { rewrite inject_Z_mult, <- ten_nat. replace (Z.of_nat (Z.to_nat (z - (e - 5)))) with (z - (e - 5))%Z by lia.
        assert (TZ : (ten z == ten (z - (e - 5)) * t)%Q).
        { unfold t. rewrite <- ten_plus. replace (z - (e - 5) + (e - 5))%Z with z by lia. reflexivity. }
        unfold q. rewrite E, TZ. field. lra. }
      rewrite (round_int _ _ Q1). symmetry. exact Q1.
    - exfalso.
      assert (TZ : (10 * ten z <= t)%Q).
      { rewrite <- ten_succ. unfold t. apply ten_mono. lia. }
      assert (C' : (inject_Z (Z.of_N c) < 1000000)%Q).
      { change 1000000%Q with (inject_Z 1000000). rewrite <- Zlt_Qlt. lia. }
      assert (TP := ten_pos z). nra. }
  assert (AB : (Qabs (inject_Z (roundHalfEven q) * t - m) <= (5 # 1000000) * m)%Q).
  { apply Qabs_Qle_condition. nra. }
  destruct (N.eqb_spec (Z.to_N (roundHalfEven q)) 1000000) as [E | NE]; injection H as <- <-.
  - assert (E2 : roundHalfEven q = 1000000%Z) by lia. rewrite E2 in *.
    split; [lia|].
    assert (T6 : (inject_Z (Z.of_N 100000) * ten (e + 1 - 5) == inject_Z 1000000 * t)%Q).
    { replace (e + 1 - 5)%Z with (e - 5 + 1)%Z by lia. rewrite ten_succ. unfold t. change (inject_Z (Z.of_N 100000)) with (100000%Q). change (inject_Z 1000000) with (1000000%Q). ring. }
    split.
    + rewrite T6. exact AB.
    + intros c z C Em. rewrite T6, (EX c z C Em). symmetry. exact M.
  - rewrite to_N_inj by lia. split; [lia|]. split; [exact AB|].
    intros c z C Em. rewrite (EX c z C Em). symmetry. exact M.
Qed.

(** * Digits *)
Definition isdig (d : N) : Prop := (d < 10)%N.
Lemma value_app a b : value (a ++ b) = (value a * 10 ^ N.of_nat (List.length b) + value b)%N.
Proof.
  unfold value. rewrite fold_left_app. set (v := fold_left _ a 0%N). clearbody v. clear a.
  revert v. induction b as [|x b IH]; intro v.
  - cbn. lia.
  - cbn [fold_left List.length]. rewrite (IH (10 * v + x)%N), (IH (10 * 0 + x)%N).
    rewrite Nat2N.inj_succ, N.pow_succ_r by lia. lia.
Qed.
Lemma value_one x : value [x] = x.
Proof. unfold value. cbn [fold_left]. lia. Qed.
Lemma digs_dig k : forall d, Forall isdig (digs k d).
Proof.
  induction k as [|k IH]; intro d; cbn [digs]; [constructor|].
  apply Forall_app. split; [apply IH|]. constructor; [|constructor]. apply N.mod_upper_bound. lia.
Qed.
Lemma digs_length k : forall d, List.length (digs k d) = k.
Proof. induction k as [|k IH]; intro d; cbn [digs]; [reflexivity|]. rewrite app_length, IH. cbn. lia. Qed.
Lemma digs_value k : forall d, (d < 10 ^ N.of_nat k)%N -> value (digs k d) = d.
Proof.
  induction k as [|k IH]; intros d H; cbn [digs].
  - cbn in *. lia.
  - rewrite value_app, value_one. cbn [List.length]. rewrite N.pow_1_r. rewrite Nat2N.inj_succ, N.pow_succ_r in H by lia.
    rewrite IH; [|apply N.div_lt_upper_bound; lia].
    rewrite N.mul_comm. symmetry. apply N.div_mod'. 
Qed.
Lemma ndigF_spec f : forall n, (n < 2 ^ N.of_nat f)%N -> (n < 10 ^ N.of_nat (ndigF f n))%N /\ 1 <= ndigF f n.
Proof.
  induction f as [|f IH]; intros n H; cbn [ndigF].
  - cbn in *. lia.
  - destruct (N.ltb_spec n 10); [cbn; lia|].
    rewrite Nat2N.inj_succ, N.pow_succ_r in H by lia.
    destruct (IH (n / 10)%N) as [A B].
    + apply N.div_lt_upper_bound; lia.
    + split; [|lia]. rewrite Nat2N.inj_succ, N.pow_succ_r by lia.
      assert (D := N.div_mod' n 10). assert (M := N.mod_upper_bound n 10). lia.
Qed.
Lemma ndig_spec n : (n < 10 ^ N.of_nat (ndig n))%N /\ 1 <= ndig n.
Proof.
  apply ndigF_spec. destruct n as [|p]; [cbn; lia|]. cbn [N.size_nat].
  assert (H := size_bound p). apply N2Z.inj_lt. rewrite N2Z.inj_pow, nat_N_Z. exact H.
Qed.

(** * Reading digits *)
Lemma digit_char d : isdig d -> digitOf (digitChar d) = Some d.
Proof.
  intro H. unfold digitOf, digitChar. rewrite N_ascii_embedding by (unfold isdig in H; lia).
  unfold isdig in H. rewrite (proj2 (N.leb_le 48 _)), (proj2 (N.leb_le _ 57)) by lia.
  cbn [andb]. f_equal. lia.
Qed.
(** the text does not go on with a digit *)
Definition stops (t : text) : Prop := match t with [] => True | c :: _ => digitOf c = None end.
Lemma take_stop t : stops t -> takeDigits t = ([], t).
Proof. destruct t as [|c t]; [reflexivity|]. cbn [stops takeDigits]. intros ->. reflexivity. Qed.
Lemma take_digits l t : Forall isdig l -> stops t -> takeDigits (spellDigits l ++ t) = (l, t).
Proof.
  intros H S. induction H as [|d l D _ IH]; cbn [spellDigits map app].
  - apply take_stop, S.
  - cbn [takeDigits]. rewrite (digit_char d D). unfold spellDigits in IH. rewrite IH. reflexivity.
Qed.
Lemma read_digits l t : Forall isdig l -> l <> [] -> stops t -> readDigits (spellDigits l ++ t) = Some (l, t).
Proof.
  intros H N S. unfold readDigits. rewrite (take_digits l t H S). destruct l; [congruence|reflexivity].
Qed.
Lemma expect_app w t : expect w (w ++ t) = Some t.
Proof. induction w as [|a w IH]; [reflexivity|]. cbn [app expect]. rewrite Ascii.eqb_refl. exact IH. Qed.
Lemma digs_ne k d : 1 <= k -> digs k d <> [].
Proof. intros H E. assert (L := digs_length k d). rewrite E in L. cbn in L. lia. Qed.
Lemma read_nat n t : stops t -> readNat (spellNat n ++ t) = Some (n, t).
Proof.
  intro S. unfold readNat, spellNat. destruct (ndig_spec (N.of_nat n)) as [A B].
  rewrite read_digits; [|apply digs_dig|apply digs_ne, B|exact S].
  rewrite (digs_value _ _ A), Nat2N.id. reflexivity.
Qed.
Lemma ends_stops t : ends t -> stops t.
Proof. destruct t; cbn; tauto. Qed.
Lemma expect_no a t : match t with [] => True | c :: _ => c <> a end -> expect [a] t = None.
Proof.
  destruct t as [|c t]; [reflexivity|]. intro H. cbn [expect].
  destruct (Ascii.eqb_spec a c); [congruence|reflexivity].
Qed.
Lemma dot_stops t : stops (lit "." ++ t).
Proof. reflexivity. Qed.

Lemma dropZeros_spec l : exists k, l = dropZeros l ++ repeat 0%N k.
Proof.
  induction l as [|a l [k IH]]; [exists 0; reflexivity|]. cbn [dropZeros].
  destruct (dropZeros l) as [|b r].
  - destruct (N.eqb_spec a 0) as [-> | NE].
    + exists (S k). cbn [repeat app] in *. f_equal. exact IH.
    + exists k. cbn [app] in *. f_equal. exact IH.
  - exists k. cbn [app] in *. f_equal. exact IH.
Qed.
Lemma value_zeros k : value (repeat 0%N k) = 0%N.
Proof.
  induction k as [|k IH]; [reflexivity|]. change (repeat 0%N (S k)) with ([0%N] ++ repeat 0%N k).
  rewrite value_app, IH. reflexivity.
Qed.
Lemma dropZeros_dig l : Forall isdig l -> Forall isdig (dropZeros l).
Proof.
  intro H. destruct (dropZeros_spec l) as [k E]. rewrite E in H. apply Forall_app in H. apply H.
Qed.
Lemma dropZeros_value a b e :
  (inject_Z (Z.of_N (value (a ++ dropZeros b))) * ten (e - Z.of_nat (List.length (dropZeros b))) ==
   inject_Z (Z.of_N (value (a ++ b))) * ten (e - Z.of_nat (List.length b)))%Q.
Proof.
  destruct (dropZeros_spec b) as [k E]. set (c := dropZeros b) in *. clearbody c. subst b.
  rewrite app_assoc, (value_app (a ++ c) (repeat 0%N k)), value_zeros, N.add_0_r, repeat_length.
  rewrite N2Z.inj_mul, inject_Z_mult, <- ten_nat, <- Qmult_assoc, <- ten_plus.
  rewrite app_length, repeat_length.
  replace (Z.of_nat k + (e - Z.of_nat (List.length c + k)))%Z with (e - Z.of_nat (List.length c))%Z by lia.
  reflexivity.
Qed.
Lemma read_fraction b t : Forall isdig b -> stops t -> match t with [] => True | c :: _ => c <> "."%char end ->
  readFraction (spellFraction b ++ t) = Some (dropZeros b, t).
Proof.
  intros H S ND. unfold readFraction, spellFraction.
  assert (HD := dropZeros_dig b H).
  destruct (dropZeros b) as [|x r] eqn:E.
  - cbn [app]. change (lit ".") with ["."%char]. rewrite (expect_no "."%char t ND). reflexivity.
  - rewrite <- app_assoc, expect_app. apply read_digits; [exact HD|discriminate|exact S].
Qed.
Lemma fraction_stops b t : Forall isdig b -> stops t -> stops (spellFraction b ++ t).
Proof. intros H S. unfold spellFraction. destruct (dropZeros b); [exact S|reflexivity]. Qed.
Lemma read_exponent x t : stops t -> readExponent (spellExp x ++ t) = Some (x, t).
Proof.
  intro S. unfold readExponent, spellExp. rewrite <- !app_assoc, expect_app.
  set (k := Nat.max 2 (ndig (Z.abs_N x))).
  assert (R : readDigits (spellDigits (digs k (Z.abs_N x)) ++ t) = Some (digs k (Z.abs_N x), t))
    by (apply read_digits; [apply digs_dig|apply digs_ne; unfold k; lia|exact S]).
  assert (V : value (digs k (Z.abs_N x)) = Z.abs_N x).
  { apply digs_value. apply (N.lt_le_trans _ _ _ (proj1 (ndig_spec _))). apply N.pow_le_mono_r; unfold k; lia. }
  destruct (Z.ltb_spec x 0).
  - cbn [lit list_ascii_of_string app expect]. cbn [Ascii.eqb Bool.eqb]. rewrite R, V. f_equal. f_equal. lia.
  - cbn [lit list_ascii_of_string app expect]. cbn [Ascii.eqb Bool.eqb]. rewrite R, V. f_equal. f_equal. lia.
Qed.

(** the text of a magnitude, with the exponent or without *)
Lemma read_mag a b ex e t : Forall isdig a -> a <> [] -> Forall isdig b -> ends t ->
  (ex = [] /\ e = 0%Z \/ ex = spellExp e) ->
  exists q, readMag (spellDigits a ++ spellFraction b ++ ex ++ t) = Some (q, t) /\
    (q == inject_Z (Z.of_N (value (a ++ b))) * ten (e - Z.of_nat (List.length b)))%Q.
Proof.
  intros A AN B EN X. unfold readMag.
  assert (ST : stops (ex ++ t)) by (destruct X as [[-> _] | ->]; [apply ends_stops, EN|reflexivity]).
  rewrite read_digits; [|exact A|exact AN|apply fraction_stops; [exact B|exact ST]].
  rewrite read_fraction; [|exact B|exact ST|].
  2:{ destruct X as [[-> _] | ->]; [destruct t; cbn in *; tauto|discriminate]. }
  assert (R : readExponent (ex ++ t) = Some (e, t)).
  { destruct X as [[-> ->] | ->].
    - cbn [app]. unfold readExponent. change (lit "e") with ["e"%char]. rewrite (expect_no "e"%char t); [reflexivity|]. destruct t; cbn in *; tauto.
    - apply read_exponent, ends_stops, EN. }
  rewrite R. eexists. split; [reflexivity|]. apply dropZeros_value.
Qed.

Lemma Forall_firstn' {A} (P : A -> Prop) k l : Forall P l -> Forall P (firstn k l).
Proof. intro H. rewrite <- (firstn_skipn k l) in H. apply Forall_app in H. apply H. Qed.
Lemma Forall_skipn' {A} (P : A -> Prop) k l : Forall P l -> Forall P (skipn k l).
Proof. intro H. rewrite <- (firstn_skipn k l) in H. apply Forall_app in H. apply H. Qed.
Lemma spell_mag m t : (0 < m)%Q -> ends t ->
  exists q, readMag (spellMag m ++ t) = Some (q, t) /\
    (q == inject_Z (Z.of_N (fst (sixDigits m))) * ten (snd (sixDigits m) - 5))%Q.
Proof.
  intros P EN. unfold spellMag.
  destruct (Qeq_bool m 0) eqn:E0; [apply Qeq_bool_iff in E0; lra|]. clear E0.
  destruct (sixDigits m) as [d x] eqn:E. cbn [fst snd].
  destruct (sixDigits_spec m d x P E) as ((DL & DU) & _).
  assert (L6 := digs_length 6 d). assert (D6 := digs_dig 6 d).
  assert (V6 : value (digs 6 d) = d) by (apply digs_value; cbn; lia).
  set (l := digs 6 d) in *. clearbody l.
  assert (FN : forall k, firstn (S k) l <> []) by (intros k H; destruct l; cbn in *; discriminate).
  destruct (Z.leb_spec (-4) x) as [A | A], (Z.ltb_spec x 6) as [B | B]; cbn [andb].
  - destruct (Z.leb_spec 0 x) as [C | C].
    + rewrite <- app_assoc.
      destruct (read_mag (firstn (S (Z.to_nat x)) l) (skipn (S (Z.to_nat x)) l) [] 0%Z t) as (q & R & V).
      * apply Forall_firstn', D6.
      * apply FN.
      * apply Forall_skipn', D6.
      * exact EN.
      * left. auto.
      * exists q. split; [exact R|]. rewrite V, firstn_skipn, V6, skipn_length, L6.
        replace (0 - Z.of_nat (6 - S (Z.to_nat x)))%Z with (x - 5)%Z by lia. reflexivity.
    + rewrite <- app_assoc.
      destruct (read_mag [0%N] (repeat 0%N (Z.to_nat (- x - 1)) ++ l) [] 0%Z t) as (q & R & V).
      * constructor; [reflexivity|constructor].
      * discriminate.
      * apply Forall_app. split; [|exact D6]. apply Forall_forall. intros y Y. apply repeat_spec in Y. subst y. reflexivity.
      * exact EN.
      * left. auto.
      * exists q. split; [exact R|]. rewrite V, app_assoc, value_app, V6.
        change ([0%N] ++ repeat 0%N (Z.to_nat (- x - 1))) with (repeat 0%N (S (Z.to_nat (- x - 1)))).
        rewrite value_zeros, app_length, repeat_length, L6. cbn [N.mul N.add].
        replace (0 - Z.of_nat (Z.to_nat (- x - 1) + 6))%Z with (x - 5)%Z by lia. reflexivity.
  - rewrite <- !app_assoc.
    destruct (read_mag (firstn 1 l) (skipn 1 l) (spellExp x) x t) as (q & R & V);
      [apply Forall_firstn', D6|apply FN|apply Forall_skipn', D6|exact EN|right; reflexivity|].
    exists q. split; [exact R|]. rewrite V, firstn_skipn, V6, skipn_length, L6. reflexivity.
  - rewrite <- !app_assoc.
    destruct (read_mag (firstn 1 l) (skipn 1 l) (spellExp x) x t) as (q & R & V);
      [apply Forall_firstn', D6|apply FN|apply Forall_skipn', D6|exact EN|right; reflexivity|].
    exists q. split; [exact R|]. rewrite V, firstn_skipn, V6, skipn_length, L6. reflexivity.
  - lia.
Qed.
