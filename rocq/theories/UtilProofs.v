(** Proofs about splitting and bounding boxes. *)
From Coq Require Import List Ascii Arith Lia QArith Bool Lqa.
From Verif Require Import Base UtilModel UtilSpec.
Import ListNotations.
Local Open Scope nat_scope.

Lemma prefixb_iff t : forall s, prefixb t s = true <-> exists r, s = t ++ r.
Proof.
  induction t as [|a t IH]; intros s; cbn; [split; [intros; exists s; auto|auto]|].
  destruct s as [|b s]; [split; [discriminate|intros [r H]; discriminate]|].
  rewrite andb_true_iff, IH, Ascii.eqb_eq. split.
  - intros [-> [r ->]]. exists r. auto.
  - intros [r H]. injection H as -> ->. split; [auto|]. exists r; auto.
Qed.

Lemma find_pos_none t : forall s, find_pos t s = None -> ~ contains s t.
Proof.
  induction s as [|c s IH]; intros H [a [b E]].
  - cbn in H. destruct (prefixb t []) eqn:P; [discriminate|].
    symmetry in E. apply app_eq_nil in E as [-> E]. apply app_eq_nil in E as [-> ->].
    cbn in P. discriminate.
  - cbn in H. destruct (prefixb t (c :: s)) eqn:P; [discriminate|].
    destruct (find_pos t s) eqn:F; [discriminate|].
    destruct a as [|c' a]; cbn in E.
    + rewrite (proj2 (prefixb_iff t (c :: s))) in P; [discriminate|]. exists b; auto.
    + injection E as -> E. apply (IH eq_refl). exists a, b. auto.
Qed.

Lemma find_pos_some t : forall s p, find_pos t s = Some p ->
  s = firstn p s ++ t ++ skipn (p + length t) s /\
  (t <> [] -> ~ contains (firstn p s) t) /\ p + length t <= length s.
Proof.
  induction s as [|c s IH]; intros p H.
  - cbn in H. destruct (prefixb t []) eqn:P; [|discriminate]. injection H as <-.
    apply prefixb_iff in P as [r E]. symmetry in E. apply app_eq_nil in E as [-> ->].
    cbn. split; [auto|split; [intros N; congruence|lia]].
  - cbn in H. destruct (prefixb t (c :: s)) eqn:P.
    + injection H as <-. apply prefixb_iff in P as [r E]. rewrite E. cbn [firstn].
      rewrite Nat.add_0_l, skipn_app, skipn_all, Nat.sub_diag. cbn.
      split; [auto|split].
      * intros N [a [b X]]. symmetry in X. apply app_eq_nil in X as [-> X].
        apply app_eq_nil in X as [-> _]. congruence.
      * rewrite app_length. lia.
    + destruct (find_pos t s) as [q|] eqn:F; [|discriminate]. injection H as <-.
      destruct (IH q eq_refl) as [E [N L]]. split; [|split].
      * cbn. f_equal. exact E.
      * intros NE [a [b X]]. cbn in X. destruct a as [|c' a]; cbn in X.
        -- assert (Q : prefixb t (c :: s) = true).
           { apply prefixb_iff.
             exists (b ++ t ++ skipn (q + length t) s).
             rewrite app_assoc, <- X. cbn. f_equal. exact E. }
           congruence.
        -- injection X as -> X. apply (N NE). exists a, b. auto.
      * cbn. lia.
Qed.

Lemma split_loop_ok token : token <> [] -> forall n temp out, length temp < n ->
  exists parts, split_loop n token temp out = Some (out ++ parts) /\
    parts <> [] /\ join token parts = temp /\ forall p, In p parts -> ~ contains p token.
Proof.
  intros NE. induction n as [|n IH]; intros temp out L; [lia|]. cbn.
  destruct (find_pos token temp) as [p|] eqn:F.
  - destruct (find_pos_some _ _ _ F) as [E [N LL]].
    destruct (IH (skipn (p + length token) temp) (out ++ [firstn p temp])) as [parts [S1 [S2 [S3 S4]]]].
    { rewrite skipn_length. destruct token; [congruence|]. cbn in *. lia. }
    exists (firstn p temp :: parts). split; [rewrite S1, <- app_assoc; auto|].
    split; [discriminate|]. split.
    + cbn. destruct parts; [congruence|]. rewrite S3. auto.
    + intros q [<-|I]; [auto|apply S4; auto].
  - exists [temp]. split; [auto|]. split; [discriminate|]. split; [auto|].
    intros q [<-|[]]. apply find_pos_none. auto.
Qed.

Lemma split_loop_mono token : forall n temp out r m, split_loop n token temp out = Some r -> n <= m ->
  split_loop m token temp out = Some r.
Proof.
  induction n as [|n IH]; intros temp out r m H L; [discriminate|].
  destruct m as [|m]; [lia|]. cbn in *. destruct (find_pos token temp); [|auto].
  apply IH; [auto|lia].
Qed.

Lemma split_spec data token : token <> [] ->
  exists parts, (forall rounds, length data < rounds -> split rounds data token = Some parts) /\
    parts <> [] /\ join token parts = data /\ forall p, In p parts -> ~ contains p token.
Proof.
  intros NE. destruct (split_loop_ok token NE (S (length data)) data []) as [parts [A [B [C D]]]]; [lia|].
  exists parts. split; [|auto]. intros rounds L. unfold split.
  apply (split_loop_mono _ _ _ _ _ rounds A). lia.
Qed.

Lemma split_unique data token rounds parts : split rounds data token = Some parts -> token <> [] ->
  join token parts = data /\ forall p, In p parts -> ~ contains p token.
Proof.
  intros H NE. destruct (split_spec data token NE) as [ps [A [B [C D]]]].
  assert (X : split (rounds + S (length data)) data token = Some parts).
  { apply (split_loop_mono _ _ _ _ _ _ H). lia. }
  rewrite A in X by lia. injection X as <-. auto.
Qed.

Lemma split_empty_token data : forall rounds, split rounds data [] = None.
Proof.
  intros n. unfold split. generalize (@nil str). revert data. induction n as [|n IH]; intros; [auto|].
  cbn. destruct data; cbn; apply IH.
Qed.

(** ** Bounding boxes *)
Local Open Scope Q_scope.
Lemma Qltb_iff a b : Qltb a b = true <-> a < b.
Proof.
  unfold Qltb. rewrite negb_true_iff. destruct (Qle_bool b a) eqn:E.
  - apply Qle_bool_iff in E. split; [discriminate|intros; lra].
  - split; [intros _|auto]. destruct (Qlt_le_dec a b); [auto|].
    apply Qle_bool_iff in q. congruence.
Qed.
Lemma Qltb_false a b : Qltb a b = false <-> b <= a.
Proof.
  destruct (Qltb a b) eqn:E; [apply Qltb_iff in E; split; [discriminate|intros; lra]|].
  split; [intros _|auto]. unfold Qltb in E. apply negb_false_iff in E. apply Qle_bool_iff; auto.
Qed.

Lemma growBox_spec b p : minx b <= maxx b -> miny b <= maxy b ->
  let b' := growBox b p in
  within b b' /\ covers b' p /\ minx b' <= maxx b' /\ miny b' <= maxy b' /\
  forall c, within b c -> covers c p -> within b' c.
Proof.
  intros X Y. unfold growBox, within, covers. destruct b as [a b c d], p as [x y]. cbn in *.
  destruct (Qltb x a) eqn:E1; cbn [minx miny maxx maxy];
  [apply Qltb_iff in E1|apply Qltb_false in E1];
  match goal with |- context [Qltb c x] => destruct (Qltb c x) eqn:E2 end; cbn [minx miny maxx maxy];
  [apply Qltb_iff in E2|apply Qltb_false in E2|apply Qltb_iff in E2|apply Qltb_false in E2];
  destruct (Qltb y b) eqn:E3; cbn [minx miny maxx maxy];
  try apply Qltb_iff in E3; try apply Qltb_false in E3;
  destruct (Qltb d y) eqn:E4; cbn [minx miny maxx maxy];
  try apply Qltb_iff in E4; try apply Qltb_false in E4;
  cbn [minx miny maxx maxy]; repeat split; intros; lra.
Qed.

Lemma bbox_fold pcl : forall b, minx b <= maxx b -> miny b <= maxy b ->
  let b' := fold_left growBox pcl b in
  within b b' /\ covers_all b' pcl /\ minx b' <= maxx b' /\ miny b' <= maxy b' /\
  forall c, within b c -> covers_all c pcl -> within b' c.
Proof.
  induction pcl as [|p pcl IH]; intros b X Y; cbn.
  - split; [unfold within; repeat split; lra|]. split; [intros p []|]. auto.
  - destruct (growBox_spec b p X Y) as [A [B [C [D E]]]].
    destruct (IH (growBox b p) C D) as [A' [B' [C' [D' E']]]].
    split; [unfold within in *; repeat split; lra|]. split; [|split; [auto|split; [auto|]]].
    + intros q [<-|I]; [|auto]. unfold within, covers in *. repeat split; lra.
    + intros c W V. apply E'; [apply E; [auto|apply V; left; auto]|].
      intros q I. apply V. right. auto.
Qed.

Lemma bbox_smallest_with_origin pcl : smallest_box (getMinMax2D pcl) ((0, 0) :: pcl).
Proof.
  destruct (bbox_fold pcl (mkBox 0 0 0 0)) as [A [B [_ [_ E]]]]; [cbn; lra|cbn; lra|].
  fold (getMinMax2D pcl) in *. split.
  - intros p [<-|I]; [|auto]. unfold within, covers in *. cbn in *. repeat split; lra.
  - intros c V. apply E; [|intros q I; apply V; right; auto].
    specialize (V _ (or_introl eq_refl)). unfold within, covers in *. cbn in *. repeat split; lra.
Qed.

Lemma bbox_smallest pcl : (exists b, smallest_box b pcl /\ covers b (0, 0)) ->
  smallest_box (getMinMax2D pcl) pcl.
Proof.
  intros [b [[B1 B2] O]]. destruct (bbox_smallest_with_origin pcl) as [A1 A2].
  assert (A1' : covers_all (getMinMax2D pcl) pcl) by (intros p I; apply A1; right; auto).
  split; [auto|]. intros c V. 
  assert (W : within (getMinMax2D pcl) b).
  { apply A2. intros p [<-|I]; auto. }
  specialize (B2 c V). unfold within in *. repeat split; lra.
Qed.

Lemma bbox_not_smallest p : ~ (fst p == 0) \/ ~ (snd p == 0) ->
  ~ smallest_box (getMinMax2D [p]) [p].
Proof.
  intros N [_ H].
  destruct (bbox_smallest_with_origin [p]) as [A _].
  pose proof (A (0, 0) (or_introl eq_refl)) as O. pose proof (A p (or_intror (or_introl eq_refl))) as P.
  specialize (H (mkBox (fst p) (snd p) (fst p) (snd p))).
  destruct H as [H1 [H2 [H3 H4]]].
  { intros q [<-|[]]. unfold covers. cbn. repeat split; lra. }
  unfold covers in *. cbn in *. destruct N as [N|N]; apply N; lra.
Qed.
