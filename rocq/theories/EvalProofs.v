(** Proofs about the two command line tools. *)
From Coq Require Import Reals List ZArith Bool Arith String Ascii Lia Lra.
From Verif Require Import Base LinAlg3 GeoModel GeoSpec GeoProofs UtilModel UtilSpec UtilProofs EvalModel EvalSpec.
Import ListNotations.
Open Scope R_scope.

(** * Geometry *)
Lemma rel_sees p q : sees p q (getPoseFromTransform (relTrans p q)).
Proof.
  unfold sees, relTrans. split.
  - pose proof (inv_pose_apply p (px q, py q)) as H. unfold t2apply in H.
    unfold getPoseFromTransform, t2mul. cbn [px py tx ty fst snd getTransFromPose] in *.
    rewrite <- H. reflexivity.
  - unfold getPoseFromTransform. cbn [pth].
    assert (RI : rigid (t2inv (getTransFromPose p))) by (apply rigid_inv, rigid_pose).
    assert (RM : rigid (t2mul (t2inv (getTransFromPose p)) (getTransFromPose q)))
      by (apply rigid_mul; [exact RI|apply rigid_pose]).
    replace (getAngle (t2mul (t2inv (getTransFromPose p)) (getTransFromPose q)))
      with (normalizeAngle (pth q - pth p)); [apply normalize_wrapped|].
    unfold getAngle, normalizeAngle. rewrite (rigid_rotation _ RM). cbn [fst snd].
    f_equal.
    + unfold t2mul, t2inv. cbn [tc ta td]. rewrite (rigid_det _ (rigid_pose p)).
      unfold getTransFromPose. cbn. rewrite sin_minus. field.
    + unfold t2mul, t2inv. cbn [ta tb tc]. rewrite (rigid_det _ (rigid_pose p)).
      unfold getTransFromPose. cbn. rewrite cos_minus. field.
Qed.
Lemma sees_unique p q r r' : sees p q r -> sees p q r' -> r = r'.
Proof.
  intros [A B] [C D]. rewrite <- A in C. injection C as C1 C2.
  apply pose_eq; [auto|auto|exact (wrapped_unique _ _ _ B D)].
Qed.
Lemma rel_distance p q : getDisplacement (relTrans p q) = distance p q.
Proof.
  destruct (rel_sees p q) as [A _]. unfold getDisplacement, distance.
  assert (X : tx (relTrans p q) = fst (seen_from p (px q, py q)) /\ ty (relTrans p q) = snd (seen_from p (px q, py q)))
    by (rewrite <- A; split; reflexivity).
  destruct X as [-> ->]. f_equal. unfold seen_from. cbn [fst snd].
  pose proof (sc2 (pth p)) as S.
  set (c := cos (pth p)) in *. set (s := sin (pth p)) in *.
  set (u := px q - px p). set (v := py q - py p).
  replace ((c * u + s * v) ^ 2 + (- s * u + c * v) ^ 2) with ((c * c + s * s) * (u ^ 2 + v ^ 2)) by ring.
  rewrite S. ring.
Qed.
Lemma rel_angle p q : getAngle (relTrans p q) = pth (getPoseFromTransform (relTrans p q)).
Proof. reflexivity. Qed.
Lemma apart_iff disp rot p q : apart disp rot p q <->
  rot < Rabs (getAngle (relTrans p q)) /\ disp < getDisplacement (relTrans p q).
Proof.
  rewrite rel_distance, rel_angle. split.
  - intros (r & S & A & B). rewrite (sees_unique _ _ _ _ (rel_sees p q) S). auto.
  - intros [A B]. exists (getPoseFromTransform (relTrans p q)). split; [apply rel_sees|auto].
Qed.

(** * Reading *)
Lemma contains_comma f : contains f comma <-> In ","%char f.
Proof.
  unfold contains, comma, s_. cbn [list_ascii_of_string app]. split.
  - intros (a & b & ->). apply in_or_app. right. left. reflexivity.
  - intro H. destruct (in_split _ _ H) as (a & b & ->). exists a, b. reflexivity.
Qed.
Lemma comma_ne : comma <> [].
Proof. discriminate. Qed.
Lemma join_row_unique : forall fs gs : list str, fs <> [] -> gs <> [] ->
  (forall f, In f fs -> ~ In ","%char f) -> (forall f, In f gs -> ~ In ","%char f) ->
  join comma fs = join comma gs -> fs = gs.
Proof.
  assert (AUX : forall (f g u v : str), ~ In ","%char f -> ~ In ","%char g ->
      f ++ ","%char :: u = g ++ ","%char :: v -> f = g /\ u = v).
  { induction f as [|a f IH]; intros [|b g] u v F G E; cbn in *.
    - injection E as ->. auto.
    - injection E as <- _. exfalso. apply G. left. reflexivity.
    - injection E as -> _. exfalso. apply F. left. reflexivity.
    - injection E as <- E. destruct (IH g u v) as [-> ->]; auto. }
  induction fs as [|f fs IH]; intros gs NF NG F G E; [congruence|].
  destruct gs as [|g gs]; [congruence|].
  destruct fs as [|f2 fs]; destruct gs as [|g2 gs]; cbn [join] in E.
  - rewrite E. reflexivity.
  - exfalso. apply (F f); [left; reflexivity|]. rewrite E. apply in_or_app. right. left. reflexivity.
  - exfalso. apply (G g); [left; reflexivity|]. rewrite <- E. apply in_or_app. right. left. reflexivity.
  - change (f ++ ","%char :: join comma (f2 :: fs) = g ++ ","%char :: join comma (g2 :: gs)) in E.
    destruct (AUX f g (join comma (f2 :: fs)) (join comma (g2 :: gs))) as [-> E2];
      [apply F; left; reflexivity|apply G; left; reflexivity|exact E|].
    f_equal. apply IH; [discriminate|discriminate|intros x X; apply F; right; exact X|intros x X; apply G; right; exact X|exact E2].
Qed.
Lemma fields_row line : exists fs, fields line = Ok fs /\ row line fs.
Proof.
  destruct (split_spec line comma comma_ne) as (ps & A & B & C & D).
  exists ps. unfold fields. rewrite A by lia. split; [reflexivity|].
  repeat split; [exact B|symmetry; exact C|].
  intros f I X. apply (D f I). apply contains_comma. exact X.
Qed.
Lemma row_unique line fs gs : row line fs -> row line gs -> fs = gs.
Proof.
  intros (A & B & C) (A' & B' & C'). apply join_row_unique; auto.
  change comma with (s_ ","). congruence.
Qed.
Lemma readPose_ok atof acc line p : pose_line atof line p -> readPose atof acc line = Ok (acc ++ [p]).
Proof.
  intros (a & x & y & th & rest & R & ->). destruct (fields_row line) as (fs & F & R').
  rewrite (row_unique _ _ _ R' R) in F. unfold readPose. rewrite F. reflexivity.
Qed.
Lemma readPose_ub atof acc line : too_short 4 line -> readPose atof acc line = UB.
Proof.
  intros (fs & R & L). destruct (fields_row line) as (gs & F & R').
  rewrite (row_unique _ _ _ R' R) in F. unfold readPose. rewrite F. cbn [bind].
  destruct fs as [|? [|? [|? [|? ?]]]]; cbn in L; try reflexivity. lia.
Qed.
Lemma readScan_ok atof acc line p : scan_line atof line p -> readScan atof acc line = Ok (acc ++ [p]).
Proof.
  intros (a & x & y & rest & R & ->). destruct (fields_row line) as (fs & F & R').
  rewrite (row_unique _ _ _ R' R) in F. unfold readScan. rewrite F. destruct rest; reflexivity.
Qed.
Lemma readScan_ub atof acc line : too_short 3 line -> readScan atof acc line = UB.
Proof.
  intros (fs & R & L). destruct (fields_row line) as (gs & F & R').
  rewrite (row_unique _ _ _ R' R) in F. unfold readScan. rewrite F. cbn [bind].
  destruct fs as [|? [|? [|? ?]]]; cbn in L; try reflexivity. lia.
Qed.
Lemma pose_line_or atof line : (exists p, pose_line atof line p) \/ too_short 4 line.
Proof.
  destruct (fields_row line) as (fs & _ & R).
  destruct fs as [|a [|x [|y [|th rest]]]];
    try (right; eexists; split; [exact R|cbn; lia]).
  left. eexists. exists a, x, y, th, rest. split; [exact R|reflexivity].
Qed.
Lemma scan_line_or atof line : (exists p, scan_line atof line p) \/ too_short 3 line.
Proof.
  destruct (fields_row line) as (fs & _ & R).
  destruct fs as [|a [|x [|y rest]]];
    try (right; eexists; split; [exact R|cbn; lia]).
  left. eexists. exists a, x, y, rest. split; [exact R|reflexivity].
Qed.

Lemma read_all {A} (good : str -> A -> Prop) (short : str -> Prop) (f : list A -> str -> res (list A)) :
  (forall acc l p, good l p -> f acc l = Ok (acc ++ [p])) -> (forall acc l, short l -> f acc l = UB) ->
  (forall l, (exists p, good l p) \/ short l) ->
  forall lines acc,
  (forall ps, Forall2 good lines ps -> foldM f lines acc = Ok (acc ++ ps)) /\
  (Exists short lines -> foldM f lines acc = UB) /\
  ((exists ps, Forall2 good lines ps) \/ Exists short lines).
Proof.
  intros G S D. induction lines as [|l lines IH]; intros acc.
  - split; [intros ps H; inversion H; subst; cbn; rewrite app_nil_r; reflexivity|].
    split; [intro H; inversion H|]. left. exists []. constructor.
  - split; [|split].
    + intros ps H. inversion H as [|? p ? ps' H1 H2]; subst. cbn [foldM]. rewrite (G acc l p H1). cbn [bind].
      destruct (IH (acc ++ [p])) as (I & _). rewrite (I ps' H2), <- app_assoc. reflexivity.
    + intro H. destruct (D l) as [(p & P)|SH].
      * inversion H as [? ? H1|? ? H1]; subst; [cbn [foldM]; rewrite (S acc l H1); reflexivity|].
        cbn [foldM]. rewrite (G acc l p P). cbn [bind]. apply IH. exact H1.
      * cbn [foldM]. rewrite (S acc l SH). reflexivity.
    + destruct (D l) as [(p & P)|SH]; [|right; left; exact SH].
      destruct (IH acc) as (_ & _ & [(ps & Q)|E]); [left; exists (p :: ps); constructor; assumption|right; right; exact E].
Qed.

Lemma Forall2_len {A B} (P : A -> B -> Prop) l l' : Forall2 P l l' -> List.length l = List.length l'.
Proof. induction 1; cbn; auto. Qed.

(** * The loop of the evaluation *)
Lemma is_true a b : is_ a b = true <-> a = s_ b.
Proof. unfold is_. destruct (list_eq_dec ascii_dec a (s_ b)); split; congruence. Qed.
Lemma s_inj a b : s_ a = s_ b -> a = b.
Proof.
  unfold s_. intro H. rewrite <- (string_of_list_ascii_of_string a), <- (string_of_list_ascii_of_string b), H. reflexivity.
Qed.
Lemma offered_model {A} mode e (fi fo : A -> given A) : offered mode e fi fo ->
  newMatcher (s_ mode) = Some e /\ forall s t, inputs (s_ mode) s t = Some (fi s, fo t).
Proof. destruct 1; split; reflexivity. Qed.
Lemma unknown_model mode : (forall n, In n mode_names -> mode <> s_ n) -> newMatcher mode = None.
Proof.
  intro H. unfold newMatcher.
  assert (K : forall n, In n mode_names -> is_ mode n = false).
  { intros n I. destruct (is_ mode n) eqn:E; [|reflexivity]. apply is_true in E. destruct (H n I E). }
  repeat (rewrite K by (cbn; tauto)). reflexivity.
Qed.

Lemma picks_exist disp rot poses n : forall k i t, (n - i <= k)%nat -> exists l, picks disp rot poses n t i l.
Proof.
  induction k as [|k IH]; intros i t L.
  - exists []. apply picks_end. intros j J. lia.
  - destruct (le_lt_dec n i) as [NI|NI]; [exists []; apply picks_end; intros j J; lia|].
    destruct (Classical_Prop.classic (apart_at disp rot poses t i)) as [A|A].
    + destruct (IH (S i) i ltac:(lia)) as (l & P). exists ((i, t) :: l).
      apply picks_next; [lia|exact A|intros; lia|exact P].
    + destruct (IH (S i) t ltac:(lia)) as (l & P). exists l. inversion P as [? ? H|? ? j l' J1 J2 J3 J4]; subst.
      * apply picks_end. intros j J X. destruct (Nat.eq_dec j i) as [->|]; [auto|]. apply (H j); [lia|exact X].
      * apply picks_next; [lia|exact J2| |exact J4]. intros k' K X. destruct (Nat.eq_dec k' i) as [->|]; [auto|]. apply (J3 k'); [lia|exact X].
Qed.
Lemma picks_unique disp rot poses n : forall t i l, picks disp rot poses n t i l ->
  forall l', picks disp rot poses n t i l' -> l = l'.
Proof.
  induction 1 as [t i H|t i j l J1 J2 J3 J4 IH]; intros l' P; inversion P as [? ? H'|? ? j' l2 K1 K2 K3 K4]; subst; auto.
  - exfalso. apply (H j'); auto.
  - exfalso. apply (H' j); auto.
  - assert (j = j').
    { destruct (lt_eq_lt_dec j j') as [[X|X]|X]; auto; exfalso; [apply (K3 j)|apply (J3 j')]; auto; lia. }
    subst j'. f_equal. apply IH. exact K4.
Qed.
Lemma picks_skip disp rot poses n t i l : picks disp rot poses n t i l -> ~ apart_at disp rot poses t i ->
  picks disp rot poses n t (S i) l.
Proof.
  intros P N. inversion P as [? ? H|? ? j l' J1 J2 J3 J4]; subst.
  - apply picks_end. intros j J. apply H. lia.
  - apply picks_next; [|exact J2|intros k K; apply J3; lia|exact J4].
    destruct (Nat.eq_dec j i) as [->|]; [destruct (N J2)|lia].
Qed.
Lemma picks_take disp rot poses n t i l : picks disp rot poses n t i l -> (i < n)%nat ->
  apart_at disp rot poses t i -> exists l', l = (i, t) :: l' /\ picks disp rot poses n i (S i) l'.
Proof.
  intros P L A. inversion P as [? ? H|? ? j l' J1 J2 J3 J4]; subst.
  - destruct (H i); auto.
  - assert (j = i) as ->.
    { destruct (Nat.eq_dec j i); auto. exfalso. apply (J3 i); auto. lia. }
    eauto.
Qed.

Section Loop.
  Context {A M : Type}.
  Variable align : engine -> M -> given A -> given A -> M * T2.
  Variables (disp rot : R) (poses : list pose) (scans : list A).

  Definition addAll (p : pose) (vs : list pose) : pose := fold_left padd vs p.

  Lemma testMatch_ok mode e fi fo m tot tg it j t s s' p q m' E :
    offered mode e fi fo -> nth_error scans j = Some s -> nth_error scans t = Some s' ->
    nth_error poses t = Some p -> nth_error poses j = Some q ->
    align e m (fi s) (fo s') = (m', E) ->
    testMatch align (s_ mode) (newMatcher (s_ mode)) poses scans (mkTs tot tg it m) j t =
    Ok (mkTs (padd tot (absDiff (getPoseFromTransform (relTrans p q)) (getPoseFromTransform E))) tg it m').
  Proof.
    intros O S S' P Q AL. destruct (offered_model _ _ _ _ O) as [NM IN].
    unfold testMatch, vget. rewrite P, Q, S, S'. cbn [bind]. rewrite NM, IN. cbn [t_m]. rewrite AL. reflexivity.
  Qed.
  Lemma err_rel p q e t j : nth_error poses t = Some p -> nth_error poses j = Some q ->
    error_of poses (j, t) e (absDiff (getPoseFromTransform (relTrans p q)) (getPoseFromTransform e)).
  Proof.
    intros P Q. exists p, q, (getPoseFromTransform (relTrans p q)). split; [exact P|]. split; [exact Q|].
    split; [apply rel_sees|reflexivity].
  Qed.

  (** [room]: how many matchings may still be made *)
  Lemma loop_ok mode e fi fo : offered mode e fi fo ->
    (List.length scans <= List.length poses)%nat ->
    forall k i t tot it m l, (i + k = List.length scans)%nat -> (t < List.length scans)%nat \/ k = 0%nat ->
    picks disp rot poses (List.length scans) t i l -> (Z.of_nat it <= max_matchings)%Z ->
    exists es vs m' t',
      let done := firstn (Z.to_nat (max_matchings + 1) - it) l in
      answers (align e) fi fo scans m done es /\ errors poses done es vs /\
      testLoop align (s_ mode) (newMatcher (s_ mode)) disp rot poses scans (seq i k) (mkTs tot t it m) =
      Ok (mkTs (addAll tot vs) t' (it + List.length done) m').
  Proof.
    intros O LE. induction k as [|k IH]; intros i t tot it m l IK T P IT.
    - assert (l = []) as ->.
      { inversion P as [? ? H|? ? j l' J1 J2 J3 J4]; subst; auto. lia. }
      exists [], [], m, t. rewrite firstn_nil. split; [constructor|]. split; [constructor|].
      cbn [seq testLoop addAll fold_left List.length]. rewrite Nat.add_0_r. reflexivity.
    - assert (TT : (t < List.length scans)%nat) by (destruct T; [assumption|discriminate]).
      destruct (nth_error poses t) as [p|] eqn:Ep; [|apply nth_error_None in Ep; lia].
      destruct (nth_error poses i) as [q|] eqn:Eq; [|apply nth_error_None in Eq; lia].
      cbn [seq testLoop]. unfold vget. cbn [t_target]. rewrite Ep, Eq. cbn [bind].
      assert (AP : apart_at disp rot poses t i <-> apart disp rot p q).
      { split; [intros (p' & q' & A1 & A2 & A3); congruence|intro; exists p, q; auto]. }
      pose proof (apart_iff disp rot p q) as AI.
      assert (SKIP : ~ apart_at disp rot poses t i ->
        exists es vs m' t',
          let done := firstn (Z.to_nat (max_matchings + 1) - it) l in
          answers (align e) fi fo scans m done es /\ errors poses done es vs /\
          testLoop align (s_ mode) (newMatcher (s_ mode)) disp rot poses scans (seq (S i) k) (mkTs tot t it m) =
          Ok (mkTs (addAll tot vs) t' (it + List.length done) m')).
      { intro N. apply IH; auto; [lia|]. apply picks_skip; assumption. }
      destruct (Rlt_dec rot (Rabs (getAngle (relTrans p q)))) as [H1|H1]; [|apply SKIP; tauto].
      destruct (Rlt_dec disp (getDisplacement (relTrans p q))) as [H2|H2]; [|apply SKIP; tauto].
      assert (AA : apart_at disp rot poses t i) by tauto.
      destruct (picks_take _ _ _ _ _ _ _ P ltac:(lia) AA) as (l' & -> & P').
      destruct (nth_error scans i) as [s|] eqn:Es; [|apply nth_error_None in Es; lia].
      destruct (nth_error scans t) as [s'|] eqn:Es'; [|apply nth_error_None in Es'; lia].
      destruct (align e m (fi s) (fo s')) as [m1 E] eqn:EA.
      rewrite (testMatch_ok mode e fi fo m tot t it i t s s' p q m1 E); auto.
      cbn [bind t_total t_iter t_m].
      set (v := absDiff (getPoseFromTransform (relTrans p q)) (getPoseFromTransform E)).
      assert (RM : (Z.to_nat (max_matchings + 1) - it = S (Z.to_nat (max_matchings + 1) - S it))%nat)
        by (unfold max_matchings in *; lia).
      rewrite RM. cbn [firstn].
      destruct (Z.ltb_spec max_matchings (Z.of_nat (S it))) as [H|H].
      + assert (R0 : (Z.to_nat (max_matchings + 1) - S it = 0)%nat) by (unfold max_matchings in *; lia).
        rewrite R0. cbn [firstn]. exists [E], [v], m1, i. split; [|split].
        * eapply answers_cons; eauto. constructor.
        * constructor; [apply err_rel; assumption|constructor].
        * cbn [addAll fold_left List.length]. do 2 f_equal. lia.
      + destruct (IH (S i) i (padd tot v) (S it) m1 l' ltac:(lia) ltac:(lia) P' ltac:(lia))
          as (es & vs & m' & t' & A1 & A2 & A3).
        exists (E :: es), (v :: vs), m', t'. split; [|split].
        * eapply answers_cons; eauto.
        * constructor; [apply err_rel; assumption|exact A2].
        * rewrite A3. cbn [addAll fold_left List.length]. do 2 f_equal. lia.
  Qed.

  (** with a recording without pose *)
  Lemma loop_missing mode e (fi fo : A -> given A) : offered mode e fi fo ->
    (List.length poses < List.length scans)%nat ->
    forall k i t tot it m l, (i + k = List.length poses)%nat -> 
    (t < List.length poses)%nat \/ k = 0%nat -> forall rest,
    picks disp rot poses (List.length poses) t i l -> (Z.of_nat (it + List.length l) <= max_matchings)%Z ->
    testLoop align (s_ mode) (newMatcher (s_ mode)) disp rot poses scans (seq i k ++ List.length poses :: rest) (mkTs tot t it m) = UB.
  Proof.
    intros O LE. induction k as [|k IH]; intros i t tot it m l IK T rest P IT.
    - cbn [seq app testLoop]. unfold vget. cbn [t_target].
      rewrite (proj2 (nth_error_None poses (List.length poses))) by lia.
      destruct (nth_error poses t); reflexivity.
    - assert (TT : (t < List.length poses)%nat) by (destruct T; [assumption|discriminate]).
      destruct (nth_error poses t) as [p|] eqn:Ep; [|apply nth_error_None in Ep; lia].
      destruct (nth_error poses i) as [q|] eqn:Eq; [|apply nth_error_None in Eq; lia].
      cbn [seq app testLoop]. unfold vget at 1 2. cbn [t_target]. rewrite Ep, Eq. cbn [bind].
      assert (AP : apart_at disp rot poses t i <-> apart disp rot p q).
      { split; [intros (p' & q' & A1 & A2 & A3); congruence|intro; exists p, q; auto]. }
      pose proof (apart_iff disp rot p q) as AI.
      assert (SKIP : ~ apart_at disp rot poses t i ->
        testLoop align (s_ mode) (newMatcher (s_ mode)) disp rot poses scans (seq (S i) k ++ List.length poses :: rest) (mkTs tot t it m) = UB).
      { intro N. apply IH with (l := l); auto; [lia|]. apply picks_skip; assumption. }
      destruct (Rlt_dec rot (Rabs (getAngle (relTrans p q)))) as [H1|H1]; [|apply SKIP; tauto].
      destruct (Rlt_dec disp (getDisplacement (relTrans p q))) as [H2|H2]; [|apply SKIP; tauto].
      assert (AA : apart_at disp rot poses t i) by tauto.
      destruct (picks_take _ _ _ _ _ _ _ P ltac:(lia) AA) as (l' & -> & P').
      destruct (nth_error scans i) as [s|] eqn:Es; [|apply nth_error_None in Es; lia].
      destruct (nth_error scans t) as [s'|] eqn:Es'; [|apply nth_error_None in Es'; lia].
      destruct (align e m (fi s) (fo s')) as [m1 E] eqn:EA.
      rewrite (testMatch_ok mode e fi fo m tot t it i t s s' p q m1 E); auto.
      cbn [bind t_total t_iter t_m]. cbn [List.length] in IT.
      destruct (Z.ltb_spec max_matchings (Z.of_nat (S it))) as [H|H]; [lia|].
      apply IH with (l := l'); auto; lia.
  Qed.

  (** with a mode that is none *)
  Lemma loop_unknown mode : newMatcher mode = None -> (List.length scans <= List.length poses)%nat ->
    forall k i t st l, (i + k = List.length scans)%nat -> (t < List.length scans)%nat \/ k = 0%nat -> t_target st = t ->
    picks disp rot poses (List.length scans) t i l -> l <> [] ->
    testLoop align mode (newMatcher mode) disp rot poses scans (seq i k) st = UB.
  Proof.
    intros NM LE. induction k as [|k IH]; intros i t st l IK T ST P NE.
    - inversion P as [? ? H|? ? j l' J1 J2 J3 J4]; subst; [congruence|lia].
    - assert (TT : (t < List.length scans)%nat) by (destruct T; [assumption|discriminate]).
      destruct (nth_error poses t) as [p|] eqn:Ep; [|apply nth_error_None in Ep; lia].
      destruct (nth_error poses i) as [q|] eqn:Eq; [|apply nth_error_None in Eq; lia].
      cbn [seq testLoop]. unfold vget at 1 2. rewrite ST, Ep, Eq. cbn [bind].
      assert (AP : apart_at disp rot poses t i <-> apart disp rot p q).
      { split; [intros (p' & q' & A1 & A2 & A3); congruence|intro; exists p, q; auto]. }
      pose proof (apart_iff disp rot p q) as AI.
      assert (SKIP : ~ apart_at disp rot poses t i ->
        testLoop align mode (newMatcher mode) disp rot poses scans (seq (S i) k) st = UB).
      { intro N. apply IH with (t := t) (l := l); auto; [lia|]. apply picks_skip; assumption. }
      destruct (Rlt_dec rot (Rabs (getAngle (relTrans p q)))) as [H1|H1]; [|apply SKIP; tauto].
      destruct (Rlt_dec disp (getDisplacement (relTrans p q))) as [H2|H2]; [|apply SKIP; tauto].
      unfold testMatch, vget. rewrite Ep, Eq. cbn [bind].
      destruct (nth_error scans i); [|reflexivity]. cbn [bind].
      destruct (nth_error scans t); [|reflexivity]. cbn [bind]. rewrite NM. reflexivity.
  Qed.
End Loop.

Lemma addAll_sum vs : forall p, addAll p vs =
  mkP (px p + sumR (map px vs)) (py p + sumR (map py vs)) (pth p + sumR (map pth vs)).
Proof.
  unfold addAll. induction vs as [|v vs IH]; intro p.
  - apply pose_eq; unfold sumR; cbn [map fold_left fold_right px py pth]; ring.
  - cbn [fold_left]. rewrite IH. apply pose_eq; unfold sumR, padd; cbn [map fold_right px py pth]; ring.
Qed.
Lemma errors_length poses l es vs : errors poses l es vs -> List.length vs = List.length l.
Proof. induction 1; cbn; auto. Qed.

(** * The map of known poses *)
Lemma u64_small z : (0 <= z < 2 ^ 64)%Z -> u64 z = z.
Proof. intro H. unfold u64. apply Z.mod_small. exact H. Qed.

Lemma iter_known {A G} (merge : G -> A -> pose -> res G) poses scans : forall k i g g',
  merged merge poses scans k i g g' ->
  iter_nat k (knownStep merge poses scans) (i, g) = Next ((i + k)%nat, g').
Proof.
  induction k as [|k IH]; intros i g g' H; inversion H; subst.
  - cbn. rewrite Nat.add_0_r. reflexivity.
  - cbn [iter_nat]. unfold knownStep at 1, vget. cbn [fst snd].
    match goal with [X : nth_error poses 0 = Some _ |- _] => rewrite X end.
    match goal with [X : nth_error poses i = Some _ |- _] => rewrite X end.
    match goal with [X : nth_error scans i = Some _ |- _] => rewrite X end. cbn [bind].
    match goal with [X : sees ?p ?q ?r |- _] => rewrite (sees_unique _ _ _ _ (rel_sees p q) X) end.
    match goal with [X : merge _ _ _ = Ok _ |- _] => rewrite X end.
    rewrite IH with (g' := g') by assumption. f_equal. f_equal. lia.
Qed.
