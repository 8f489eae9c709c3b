(** Proofs about the settings of the program. *)
From Coq Require Import Reals Qreals List ZArith QArith Bool Ascii String Lra.
From Verif Require Import Base LinAlg3 GeoModel RegModel RunModel ParamModel ParamSpec.
Import ListNotations.
Open Scope string_scope.

Lemma number_is p k d r : number p k d r -> paramD p k d = r.
Proof.
  unfold paramD. intros [r0 H|z H|H1 H2]; try (rewrite H; reflexivity).
  destruct (p k) as [[]|]; try reflexivity; [exfalso; eapply H2; reflexivity|exfalso; eapply H1; reflexivity].
Qed.
Lemma number_ex p k d : number p k d (paramD p k d).
Proof.
  unfold paramD. destruct (p k) as [[]|] eqn:E; try (apply number_default; intros; congruence).
  - apply number_whole. exact E.
  - apply number_given. exact E.
Qed.
Lemma switch_is p k d b : switch p k d b -> paramB p k d = b.
Proof.
  unfold paramB. intros [b0 H|H]; [rewrite H; reflexivity|].
  destruct (p k) as [[]|]; try reflexivity. exfalso; eapply H; reflexivity.
Qed.
Lemma text_is p k d s : text p k d s -> paramS p k d = s.
Proof.
  unfold paramS. intros [s0 H|H]; [rewrite H; reflexivity|].
  destruct (p k) as [[]|]; try reflexivity. exfalso; eapply H; reflexivity.
Qed.
Lemma text_ex p k d : text p k d (paramS p k d).
Proof.
  unfold paramS. destruct (p k) as [[]|] eqn:E; try (apply text_default; intros; congruence).
  apply text_given. exact E.
Qed.
Lemma name_ex p found k d : frame_name p found k d (prefixed (tfPrefix found) (paramS p k d)).
Proof.
  unfold prefixed, tfPrefix. destruct found as [[s| | | |]|];
    try (apply name_plain; [right; intros; discriminate|apply text_ex]).
  destruct (String.eqb_spec s "") as [->|N].
  - apply name_plain; [left; reflexivity|apply text_ex].
  - apply name_prefixed; [reflexivity|exact N|apply text_ex].
Qed.
Lemma name_is p found k d s : frame_name p found k d s -> prefixed (tfPrefix found) (paramS p k d) = s.
Proof.
  intros [s0 H T|q s0 H N T]; apply text_is in T; rewrite T; unfold prefixed, tfPrefix.
  - destruct H as [->|H]; [reflexivity|]. destruct found as [[q| | | |]|]; try reflexivity. exfalso. eapply H. reflexivity.
  - rewrite H. destruct (String.eqb_spec q ""); [contradiction|reflexivity].
Qed.

Section Init.
Variable flt : R -> Q.
Lemma limit_ok x l : setRejectionLimit x = Ok l <-> l = x /\ (0 < x < 1)%R.
Proof.
  unfold setRejectionLimit. destruct (Rlt_dec x 1), (Rlt_dec 0 x); split; try discriminate; try (intros (-> & ?); lra).
  - intro E. injection E as <-. auto.
  - intros (-> & _). reflexivity.
Qed.
Lemma limit_throw x : setRejectionLimit x = Throw <-> ~ (0 < x < 1)%R.
Proof.
  unfold setRejectionLimit. destruct (Rlt_dec x 1), (Rlt_dec 0 x); split; try discriminate; try reflexivity; try (intros; lra).
Qed.
Lemma init_config p found c : initParameters flt p found = Ok c ->
  (0 < Q2R (flt (paramD p "loop_score_threshold" (6 / 10))) < 1)%R /\
  c = mkConfig (prefixed (tfPrefix found) (paramS p "robot_base_frame_id" "base_link"))
               (prefixed (tfPrefix found) (paramS p "odom_farme_id" "odom"))
               (prefixed (tfPrefix found) (paramS p "map_farme_id" "map"))
               (paramS p "subscribe_mode" "NON") "/scan"
               (flt (paramD p "scanmatch_window_radius" 40)) (flt (paramD p "node_gen_distance" 2))
               (flt (paramD p "loop_max_distance" 30)) (flt (paramD p "loop_min_distance" 14))
               (Q2R (flt (paramD p "loop_score_threshold" (6 / 10)))) (paramB p "serialize_graph" true).
Proof.
  unfold initParameters. intro E. apply bind_ok_inv in E. destruct E as (l & EL & E). apply limit_ok in EL.
  destruct EL as (-> & L). injection E as <-. auto.
Qed.
Lemma init_starts p found x : number p "loop_score_threshold" (6 / 10) x ->
  ((0 < Q2R (flt x) < 1)%R -> exists c, initParameters flt p found = Ok c) /\
  (~ (0 < Q2R (flt x) < 1)%R -> initParameters flt p found = Throw).
Proof.
  intro N. apply number_is in N. unfold initParameters. rewrite N. split; intro H.
  - assert (E : setRejectionLimit (Q2R (flt x)) = Ok (Q2R (flt x))) by (apply limit_ok; auto).
    rewrite E. cbn [bind]. eauto.
  - apply limit_throw in H. rewrite H. reflexivity.
Qed.
Lemma init_only p p' found : (forall k, In k settings -> p k = p' k) -> initParameters flt p found = initParameters flt p' found.
Proof.
  intro H. unfold initParameters, paramD, paramS, paramB.
  rewrite <- !H by (cbn; tauto). reflexivity.
Qed.
End Init.

(** ** Names *)
Lemma app_nil_l s : "" ++ s = s. Proof. reflexivity. Qed.
Lemma app_cons c a b : String c a ++ b = String c (a ++ b). Proof. reflexivity. Qed.
Lemma app_assoc3 a b c : (a ++ b) ++ c = a ++ (b ++ c).
Proof. induction a as [|x a IH]; [reflexivity|]. rewrite !app_cons, IH. reflexivity. Qed.
Lemma slash_tail c a : slash_free (String c a) -> c <> "/"%char /\ slash_free a.
Proof.
  intro H. split.
  - intros ->. apply (H "" a). reflexivity.
  - intros x y E. apply (H (String c x) y). rewrite E. reflexivity.
Qed.
Lemma split_first a : forall a' b b', slash_free a -> slash_free a' -> a ++ String "/" b = a' ++ String "/" b' -> a = a' /\ b = b'.
Proof.
  induction a as [|c a IH]; intros a' b b' H H' E; destruct a' as [|c' a'].
  - injection E as <-. auto.
  - rewrite app_cons, app_nil_l in E. injection E as <- _. apply slash_tail in H'. exfalso. apply (proj1 H'). reflexivity.
  - rewrite app_cons, app_nil_l in E. injection E as -> _. apply slash_tail in H. exfalso. apply (proj1 H). reflexivity.
  - rewrite !app_cons in E. injection E as <- E. apply slash_tail in H, H'.
    destruct (IH _ _ _ (proj2 H) (proj2 H') E) as [-> ->]. auto.
Qed.
Lemma split_last a : forall a' b b', slash_free b -> slash_free b' -> a ++ String "/" b = a' ++ String "/" b' -> a = a' /\ b = b'.
Proof.
  induction a as [|c a IH]; intros a' b b' H H' E; destruct a' as [|c' a'].
  - injection E as <-. auto.
  - rewrite app_cons, app_nil_l in E. injection E as _ E. exfalso. eapply H. exact E.
  - rewrite app_cons, app_nil_l in E. injection E as _ E. exfalso. eapply H'. symmetry. exact E.
  - rewrite !app_cons in E. injection E as <- E. destruct (IH _ _ _ H H' E) as [-> ->]. auto.
Qed.
Fixpoint noslash (s : string) : bool :=
  match s with EmptyString => true | String c r => negb (Ascii.eqb c "/") && noslash r end.
Lemma noslash_free s : noslash s = true -> slash_free s.
Proof.
  induction s as [|c s IH]; intros H a b E.
  - destruct a; discriminate.
  - cbn [noslash] in H. apply andb_true_iff in H. destruct H as [H1 H2]. apply negb_true_iff in H1.
    destruct a as [|x a]; [rewrite app_nil_l in E|rewrite app_cons in E]; injection E as -> E.
    + rewrite Ascii.eqb_refl in H1. discriminate.
    + exact (IH H2 _ _ E).
Qed.
Lemma resolve_relative ns s : slash_free s -> resolve ns s = ns ++ String "/" s.
Proof.
  intro H. unfold resolve. destruct s as [|c s]; [reflexivity|]. apply slash_tail in H. destruct H as [H _].
  destruct c as [[] [] [] [] [] [] [] []]; try reflexivity. contradiction.
Qed.

Section Names.
Context {X : Type}.
Variable flt : R -> Q.
Lemma frames_prefixed p q c laser f : q <> "" -> initParameters flt p (Some (PStr q)) = Ok c ->
  names_frame (X := X) c laser f -> exists n, f = q ++ String "/" n.
Proof.
  intros N IN H. apply init_config in IN. destruct IN as (_ & ->).
  assert (P : forall s, prefixed (tfPrefix (Some (PStr q))) s = q ++ String "/" s).
  { intro s. unfold prefixed, tfPrefix. destruct (String.eqb_spec q ""); [contradiction|reflexivity]. }
  unfold names_frame, lookups, framesOf in H. cbn [c_base c_odom c_fixed] in H. rewrite !P in H.
  destruct H as [(o & H)|(a & b & H & E & NL)].
  - destruct o as [t T|m|m|l|l|l]; cbn [In] in H.
    6: { apply in_map_iff in H. destruct H as (x & <- & _). eauto. }
    all: intuition (subst; eauto).
  - cbn [In] in H. destruct H as [H|[H|[]]]; injection H as <- <-; destruct E as [->| ->]; eauto. contradiction.
Qed.
Lemma topics_named p found c k : initParameters flt p found = Ok c -> uses_topic (X := X) c k ->
  k = "/scan" \/ k = "/tf" \/ slash_free k.
Proof.
  intros IN H. apply init_config in IN. destruct IN as (_ & ->).
  assert (D : k = "/scan" \/ k = "/tf" \/ noslash k = true).
  { destruct H as [H|(o & ->)].
    - unfold inputs in H. cbn [c_mode c_laser] in H.
      destruct (_ =? "ODOM")%string; [|destruct (_ =? "POSE")%string]; cbn [In] in H; intuition (subst; auto).
    - destruct o; cbn [topicName]; auto. }
  destruct D as [D|[D|D]]; auto. right. right. apply noslash_free. exact D.
Qed.
(** the name after the last slash *)
Lemma resolve_tail ns k : k = "/scan" \/ k = "/tf" \/ slash_free k -> exists a b, resolve ns k = a ++ String "/" b /\ slash_free b /\
  (k = String "/" b \/ k = b).
Proof.
  intros [->|[->|H]].
  - exists "", "scan". split; [reflexivity|]. split; [apply noslash_free; reflexivity|auto].
  - exists "", "tf". split; [reflexivity|]. split; [apply noslash_free; reflexivity|auto].
  - exists ns, k. split; [apply resolve_relative; exact H|]. auto.
Qed.
Lemma no_feedback p found c ns i (o : rout X) : initParameters flt p found = Ok c -> In i (inputs c) ->
  resolve ns i <> resolve ns (topicName o).
Proof.
  intros IN I E.
  destruct (resolve_tail ns i) as (a & b & E1 & S1 & K1); [eapply topics_named; [exact IN|left; exact I]|].
  destruct (resolve_tail ns (topicName o)) as (a' & b' & E2 & S2 & K2); [eapply topics_named; [exact IN|right; eauto]|].
  rewrite E1, E2 in E. destruct (split_last _ _ _ _ S1 S2 E) as [_ <-]. clear E1 E2 E S2.
  apply init_config in IN. destruct IN as (_ & ->). unfold inputs in I. cbn [c_mode c_laser] in I.
  assert (J : i = "/scan" \/ i = "odom" \/ i = "pose").
  { destruct (_ =? "ODOM")%string; [|destruct (_ =? "POSE")%string]; cbn [In] in I; intuition. }
  clear I. destruct J as [->|[->| ->]], K1 as [K1|K1]; (try discriminate K1);
    [injection K1 as <-|subst b|subst b|subst b]; destruct K2 as [K2|K2], o; try discriminate K2.
  all: exfalso; apply (S1 "" "scan"); reflexivity.
Qed.
Lemma apart_topics p p' found found' c c' ns ns' k k' : initParameters flt p found = Ok c -> initParameters flt p' found' = Ok c' ->
  ns <> ns' -> uses_topic (X := X) c k -> uses_topic (X := X) c' k' -> k <> "/scan" -> k <> "/tf" -> k' <> "/scan" -> k' <> "/tf" ->
  resolve ns k <> resolve ns' k'.
Proof.
  intros I I' N U U' A1 A2 B1 B2 E.
  destruct (topics_named _ _ _ _ I U) as [H|[H|H]]; try contradiction.
  destruct (topics_named _ _ _ _ I' U') as [H'|[H'|H']]; try contradiction.
  rewrite !resolve_relative in E by assumption. apply split_last in E; tauto.
Qed.
End Names.
