(** Free-space evidence along beams, exactly. *)
From Coq Require Import List ZArith QArith Qround Qabs Lqa Lia Bool.
From Coq Require Import ZifyBool ZifyNat.
From Verif Require Import Base QLemmas VoxelModel VoxelSpec VoxelProofs VoxelOps VoxelAdd
  VoxelQuery VoxelRay VoxelHist VoxelFinal GridModel GridSpec GridProofs GridOps BeamSpec.
Import ListNotations.
Open Scope nat_scope.

(** ** each square once *)
Lemma dedup_two x y t : dedup (x :: y :: t) = if pcell_eqb y x then dedup (y :: t) else x :: dedup (y :: t).
Proof.
  cbn [dedup dedup_from]. destruct (pcell_eqb y x) eqn:E; [|reflexivity].
  apply pcell_eqb_eq in E. subst. reflexivity.
Qed.
Lemma dedup_once (l : list pcell) :
  (forall i j k a, i < j < k -> nth_error l i = Some a -> nth_error l k = Some a -> nth_error l j = Some a) ->
  NoDup (dedup l).
Proof.
  induction l as [|x t IH]; intro V; [constructor|].
  assert (NT : NoDup (dedup t)).
  { apply IH. intros i j k a H A B. apply (V (S i) (S j) (S k) a); [lia|exact A|exact B]. }
  destruct t as [|y t]; [repeat constructor; intros []|].
  rewrite dedup_two. destruct (pcell_eqb y x) eqn:E; [exact NT|].
  constructor; [|exact NT]. intro I. apply (proj1 (dedup_In _ _)) in I.
  destruct (In_nth_error _ _ I) as (k & K). destruct k as [|k].
  - cbn in K. injection K as <-. rewrite (proj2 (pcell_eqb_eq y y) eq_refl) in E. discriminate.
  - pose proof (V 0 1 (S (S k)) x ltac:(lia) eq_refl K) as Y. cbn in Y. injection Y as <-.
    rewrite (proj2 (pcell_eqb_eq y y) eq_refl) in E. discriminate.
Qed.
Lemma between_cell cs c s a (i j k : nat) : i < j < k ->
  in_cell cs c (fst s + inject_Z (Z.of_nat i) * fst a, snd s + inject_Z (Z.of_nat i) * snd a)%Q ->
  in_cell cs c (fst s + inject_Z (Z.of_nat k) * fst a, snd s + inject_Z (Z.of_nat k) * snd a)%Q ->
  in_cell cs c (fst s + inject_Z (Z.of_nat j) * fst a, snd s + inject_Z (Z.of_nat j) * snd a)%Q.
Proof.
  intros O. unfold in_cell. cbn [fst snd].
  assert (A : (inject_Z (Z.of_nat i) <= inject_Z (Z.of_nat j))%Q) by (rewrite <- Zle_Qle; lia).
  assert (B : (inject_Z (Z.of_nat j) <= inject_Z (Z.of_nat k))%Q) by (rewrite <- Zle_Qle; lia).
  revert A B. generalize (inject_Z (Z.of_nat i)) (inject_Z (Z.of_nat j)) (inject_Z (Z.of_nat k)).
  generalize ((inject_Z (fst c) - (1#2)) * cs)%Q ((inject_Z (fst c) + (1#2)) * cs)%Q
    ((inject_Z (snd c) - (1#2)) * cs)%Q ((inject_Z (snd c) + (1#2)) * cs)%Q.
  intros x0 x1 y0 y1 p q r A B (H1 & H2 & H3 & H4) (K1 & K2 & K3 & K4).
  assert (M : forall u, (p * u <= q * u /\ q * u <= r * u)%Q \/ (r * u <= q * u /\ q * u <= p * u)%Q).
  { intro u. destruct (Qlt_le_dec u 0) as [N|N]; [right|left]; split; nra. }
  pose proof (M (fst a)) as M1. pose proof (M (snd a)) as M2. clear M.
  repeat split; destruct M1 as [[? ?] | [? ?]], M2 as [[? ?] | [? ?]]; lra.
Qed.

Section P.
Set Default Proof Using "Type".
Context {X L : Type}.
Notation cell := (ncell X).
Notation grid := (ngrid X).

Lemma trail_once (v : vgrid cell) s e m : (0 < cell_size v)%Q ->
  NoDup (dedup (trail v (ray_delta v s e) s m)).
Proof.
  intro HC. apply dedup_once. intros i j k c O Hi Hk.
  assert (KM : k < m).
  { rewrite <- (trail_length v (ray_delta v s e) s m). apply nth_error_Some. congruence. }
  assert (T : forall n, n < m -> nth_error (trail v (ray_delta v s e) s m) n =
                Some (cell_of (cell_size v) (samp (ray_delta v s e) s n))).
  { intros n N. rewrite (nth_error_nth' _ (0, 0)%Z) by (rewrite trail_length; exact N).
    rewrite trail_nth by exact N. reflexivity. }
  rewrite T in Hi, Hk |- * by lia. injection Hi as Hi. injection Hk as Hk. f_equal.
  assert (I : forall n, cell_of (cell_size v) (samp (ray_delta v s e) s n) = c <->
     in_cell (cell_size v) c (fst s + inject_Z (Z.of_nat n) * fst (ray_delta v s e),
                              snd s + inject_Z (Z.of_nat n) * snd (ray_delta v s e))%Q).
  { intro n. destruct (samp_closed (ray_delta v s e) s n) as [A B]. split; intro H.
    - eapply in_cell_ext; [exact A|exact B|]. rewrite <- H. apply cell_of_in. exact HC.
    - apply in_cell_unique; [exact HC|]. refine (in_cell_ext _ _ _ _ _ _ H); cbn [fst snd]; symmetry; assumption. }
  apply I. eapply between_cell; [exact O|apply I; exact Hi|apply I; exact Hk].
Qed.

Lemma occ_exact (f : cell -> cell) (v : vgrid cell) path : wf v -> NoDup path ->
  (forall d, In d path -> in_box v d = true /\ content v d <> None) ->
  exists l, foldM (fun l i => do o <- vget l i;
                              match o with Some c => vset l i (Some (f c)) | None => UB end)
                  (map (slot_of v) path) (cells v) = Ok l /\
    wf (with_cells v l) /\ same_window v (with_cells v l) /\
    (forall c, In c path -> content (with_cells v l) c = option_map f (content v c)) /\
    (forall c, ~ In c path -> content (with_cells v l) c = content v c).
Proof.
  intros W ND. revert v W. induction ND as [|d t NI ND IH]; intros v W H.
  - exists (cells v). cbn [map foldM]. split; [reflexivity|].
    assert (E : with_cells v (cells v) = v) by (destruct v; reflexivity). rewrite E.
    split; [exact W|]. split; [apply same_window_refl|]. split; [intros c []|reflexivity].
  - cbn [map foldM]. destruct (H d (or_introl eq_refl)) as [B NE].
    rewrite vget_box by auto. cbn [bind].
    destruct (content v d) as [x|] eqn:E; [|congruence].
    unfold vset. pose proof (slot_lt v d B) as SL. rewrite (wf_len v W).
    replace (slot_of v d <? width v * height v) with true by lia. cbn [bind].
    destruct (store_spec v d (Some (f x)) W B) as (SF & W1 & C1 & C2).
    set (v1 := with_cells v (upd (cells v) (slot_of v d) (Some (f x)))) in *.
    destruct (IH v1 W1) as (l & EL & WL & SW & CT & CN).
    { intros e He. destruct (H e (or_intror He)) as [Be Ne]. split; [exact Be|].
      rewrite C2; [exact Ne|]. intros ->. exact (NI He). }
    exists l. split; [exact EL|]. split; [exact WL|]. split; [exact SW|].
    change (with_cells v l) with (with_cells v1 l). split.
    + intros c [<- | Ic].
      * rewrite CN by exact NI. rewrite C1, E. reflexivity.
      * rewrite CT by exact Ic. rewrite C2; [reflexivity|]. intros ->. exact (NI Ic).
    + intros c N. rewrite CN by (intro Q; apply N; right; exact Q). apply C2.
      intros ->. apply N. left. reflexivity.
Qed.

(** The number of steps is at least one, whatever the length. *)
Lemma steps_pos len : (1 <= beam_steps len)%Z.
Proof.
  unfold beam_steps.
  assert (O : ((2 * Qfloor len - 1) mod 2^64 <> 0)%Z).
  { intro H. apply Z.mod_divide in H; [|discriminate]. destruct H as [z H].
    change (2^64)%Z with (2 * 2^63)%Z in H. lia. }
  pose proof (Z.mod_pos_bound (2 * Qfloor len - 1) (2^64) eq_refl). lia.
Qed.

Lemma trail_crosses (v : vgrid cell) s e m : (0 < cell_size v)%Q -> (0 < ray_len v s e)%Q -> 0 < m ->
  (Z.of_nat m <= beam_steps (ray_len v s e))%Z ->
  (Z.of_nat m = beam_steps (ray_len v s e) \/ ~ strictly_inside v (samp (ray_delta v s e) s m))%Z ->
  (forall i, 0 < i < m -> strictly_inside v (samp (ray_delta v s e) s i)) ->
  forall c, In c (trail v (ray_delta v s e) s m) <-> crosses v s e c.
Proof.
  intros HC LP M0 M1 ST SI c. pose proof (fun k => samp_sample v s e k HC LP) as SS.
  change (ray_len v s e) with (seg_len (cell_size v) s e) in M1, ST. split.
  - intro I. unfold trail in I. apply in_map_iff in I. destruct I as (k & <- & K). apply in_seq in K.
    exists k. split; [lia|]. split.
    + destruct (SS k) as [A B]. eapply in_cell_ext; [exact A|exact B|]. apply cell_of_in. exact HC.
    + intros j J. destruct (SS j) as [A B]. eapply strictly_inside_ext; [exact A|exact B|]. apply SI. lia.
  - intros (k & K & I & IN).
    assert (KM : k < m).
    { destruct (Nat.lt_ge_cases k m) as [Q|Q]; [exact Q|exfalso]. destruct ST as [ST|ST]; [lia|].
      apply ST. destruct (SS m) as [A B]. eapply strictly_inside_ext; [symmetry; exact A|symmetry; exact B|].
      apply IN. lia. }
    unfold trail. apply in_map_iff. exists k. split; [|apply in_seq; lia].
    apply in_cell_unique; [exact HC|]. destruct (SS k) as [A B].
    eapply in_cell_ext; [symmetry; exact A|symmetry; exact B|exact I].
Qed.

Lemma crosses_window (v v' : vgrid cell) s e c : same_window v v' -> (crosses v s e c <-> crosses v' s e c).
Proof.
  intros (A & B & C & D & E). unfold crosses, strictly_inside. rewrite A, B, C, D, E. reflexivity.
Qed.

(** [crosses] is decidable. *)
Lemma q_lt_dec (a b : Q) : (a < b)%Q \/ ~ (a < b)%Q.
Proof. destruct (Qlt_le_dec a b) as [H|H]; [left; exact H|right; lra]. Qed.
Lemma q_le_dec (a b : Q) : (a <= b)%Q \/ ~ (a <= b)%Q.
Proof. destruct (Qlt_le_dec b a) as [H|H]; [right; lra|left; exact H]. Qed.
Lemma and_dec (A B : Prop) : A \/ ~ A -> B \/ ~ B -> (A /\ B) \/ ~ (A /\ B).
Proof. tauto. Qed.
Lemma inside_dec (v : vgrid cell) p : strictly_inside v p \/ ~ strictly_inside v p.
Proof. unfold strictly_inside. repeat apply and_dec; apply q_lt_dec. Qed.
Lemma cell_dec cs c p : in_cell cs c p \/ ~ in_cell cs c p.
Proof. unfold in_cell. repeat apply and_dec; first [apply q_lt_dec|apply q_le_dec]. Qed.
Lemma some_below (P : nat -> Prop) n : (forall k, P k \/ ~ P k) -> (exists k, k < n /\ P k) \/ ~ (exists k, k < n /\ P k).
Proof.
  intro D. induction n as [|n [IH|IH]].
  - right. intros (k & K & _). lia.
  - left. destruct IH as (k & K & H). exists k. split; [lia|exact H].
  - destruct (D n) as [Y|N]; [left; exists n; split; [lia|exact Y]|].
    right. intros (k & K & H). destruct (Nat.eq_dec k n) as [->|Q]; [exact (N H)|].
    apply IH. exists k. split; [lia|exact H].
Qed.
Lemma crosses_dec (v : vgrid cell) s e c : crosses v s e c \/ ~ crosses v s e c.
Proof.
  set (n := Z.to_nat (beam_steps (seg_len (cell_size v) s e))).
  pose proof (steps_pos (seg_len (cell_size v) s e)) as SP.
  destruct (some_below (fun k => in_cell (cell_size v) c (ray_sample (cell_size v) s e k) /\
      forall j, 0 < j <= k -> strictly_inside v (ray_sample (cell_size v) s e j)) n) as [Y|N].
  { intro k. apply and_dec; [apply cell_dec|].
    destruct (some_below (fun j => 0 < j /\ ~ strictly_inside v (ray_sample (cell_size v) s e j)) (S k)) as [Y|N].
    - intro j. apply and_dec; [lia|]. destruct (inside_dec v (ray_sample (cell_size v) s e j)); tauto.
    - right. intro H. destruct Y as (j & J & J0 & NJ). apply NJ, H. lia.
    - left. intros j J. destruct (inside_dec v (ray_sample (cell_size v) s e j)) as [Q|Q]; [exact Q|].
      exfalso. apply N. exists j. split; [lia|]. split; [lia|exact Q]. }
  - left. destruct Y as (k & K & A & H). exists k. split; [unfold n in K; lia|]. split; assumption.
  - right. intros (k & K & A & H). apply N. exists k. split; [unfold n; lia|]. split; assumption.
Qed.
Variable dflt : cell.
Variable occRay : cell -> point -> cell -> cell.

Lemma evidence_app s a b o : evidence dflt occRay s (a ++ b) o = evidence dflt occRay s b (evidence dflt occRay s a o).
Proof.
  destruct a as [|x a]; [reflexivity|]. destruct b as [|y b]; [rewrite app_nil_r; reflexivity|].
  unfold evidence. cbn [app]. rewrite app_comm_cons, fold_left_app. reflexivity.
Qed.

Lemma beam_one start (v : vgrid cell) e c0 : wf v ->
  in_cell (cell_size v) c0 start -> in_box v c0 = true -> beams_ok (cell_size v) start [e] ->
  exists v', traceCell dflt occRay start v e = Ok v' /\ wf v' /\ same_window v v' /\
    forall c, (nc_gauss e = true -> crosses v start (nc_mean e) c ->
                 content v' c = evidence dflt occRay start [e] (content v c)) /\
              (~ (nc_gauss e = true /\ crosses v start (nc_mean e) c) -> content v' c = content v c).
Proof.
  intros W IC B R. unfold traceCell. destruct (nc_gauss e) eqn:G.
  2: { exists v. split; [reflexivity|]. split; [exact W|]. split; [apply same_window_refl|].
       intro c. split; [discriminate|reflexivity]. }
  pose proof (R e (or_introl eq_refl) G) as LP. change (seg_len (cell_size v) start (nc_mean e)) with (ray_len v start (nc_mean e)) in LP.
  pose proof (wf_cs v W) as HC.
  destruct (rayTrace_general dflt v start (nc_mean e) c0 W IC B) as (v1 & m & E1 & M & ST & BX & SI & W1 & SF & CT).
  { intro Z0. rewrite Z0 in LP. exact (Qlt_irrefl 0 LP). }
  pose proof (steps_pos (ray_len v start (nc_mean e))) as SP.
  assert (RC : Z.of_nat (Nat.max (N.to_nat (ray_count v start (nc_mean e))) 1) = beam_steps (ray_len v start (nc_mean e))).
  { unfold ray_count. unfold beam_steps in *. unfold u64.
    change 18446744073709551616%Z with (2^64)%Z in *. lia. }
  assert (TC : forall c, In c (trail v (ray_delta v start (nc_mean e)) start m) <-> crosses v start (nc_mean e) c).
  { apply trail_crosses; [exact HC|exact LP|lia|lia| |exact SI].
    destruct ST as [-> | ST]; [left; exact RC|right; exact ST]. }
  set (path := trail v (ray_delta v start (nc_mean e)) start m) in *.
  rewrite E1. cbn [bind fst snd]. unfold occSlots.
  assert (SW1 : same_window v v1) by (destruct SF as (S1 & S2 & S3 & S4 & S5 & _); repeat split; assumption).
  assert (SLOT : map (slot_of v) (dedup path) = map (slot_of v1) (dedup path)).
  { apply map_ext. intro d. unfold slot_of, width.
    destruct SF as (S1 & S2 & S3 & S4 & _). rewrite S1, S2, S3. reflexivity. }
  rewrite SLOT.
  assert (EXP : forall d, existsb (pcell_eqb d) path = true <-> In d path).
  { intro d. rewrite existsb_exists. split.
    - intros (x & Hx & Q). apply pcell_eqb_eq in Q. subst. exact Hx.
    - intro Hd. exists d. split; [exact Hd|]. apply pcell_eqb_eq. reflexivity. }
  destruct (occ_exact (fun c => occRay c start e) v1 (dedup path) W1) as (l & EL & WL & SL & CL & CN).
  { apply trail_once. exact HC. }
  { intros d Hd. apply (proj1 (dedup_In _ _)) in Hd. split.
    - rewrite (same_window_box _ _ _ SW1). unfold path, trail in Hd. apply in_map_iff in Hd.
      destruct Hd as (k & <- & K). apply in_seq in K. apply BX. lia.
    - rewrite CT, (proj2 (EXP d) Hd). discriminate. }
  rewrite EL. cbn [bind]. exists (with_cells v1 l). split; [reflexivity|]. split; [exact WL|].
  split; [eapply same_window_trans; eauto|]. intro c. split.
  - intros _ CR. apply TC in CR. rewrite CL by (apply dedup_In; exact CR).
    rewrite CT, (proj2 (EXP c) CR). reflexivity.
  - intro N. assert (NI : ~ In c path). { intro I. apply N. split; [reflexivity|]. apply TC. exact I. }
    rewrite CN by (intro I; apply (proj1 (dedup_In _ _)) in I; exact (NI I)).
    rewrite CT. destruct (existsb (pcell_eqb c) path) eqn:Q; [|reflexivity].
    exfalso. apply NI. apply EXP. exact Q.
Qed.

Lemma beam_all start l : forall (v : vgrid cell) c0, wf v ->
  in_cell (cell_size v) c0 start -> in_box v c0 = true -> beams_ok (cell_size v) start l ->
  exists v', foldM (traceCell dflt occRay start) l v = Ok v' /\ wf v' /\ same_window v v' /\
    forall c hit, seen_through v start l c hit ->
      content v' c = evidence dflt occRay start (filter hit l) (content v c).
Proof.
  induction l as [|e t IH]; intros v c0 W IC B R.
  - exists v. split; [reflexivity|]. split; [exact W|]. split; [apply same_window_refl|]. reflexivity.
  - cbn [foldM]. destruct (beam_one start v e c0 W IC B) as (v1 & E1 & W1 & S1 & T1).
    { intros x [<-|[]]. apply R. left. reflexivity. }
    rewrite E1. cbn [bind]. assert (CS : cell_size v1 = cell_size v) by apply S1.
    destruct (IH v1 c0 W1) as (v' & E & W' & S & T).
    { rewrite CS. exact IC. }
    { rewrite (same_window_box _ _ _ S1). exact B. }
    { rewrite CS. intros x Hx. apply R. right. exact Hx. }
    exists v'. split; [exact E|]. split; [exact W'|].
    split; [eapply same_window_trans; eauto|]. intros c hit H.
    rewrite (T c hit).
    2: { intros x Hx. rewrite (H x (or_intror Hx)). rewrite (crosses_window v v1 start (nc_mean x) c S1). reflexivity. }
    destruct (T1 c) as [TA TB]. cbn [filter]. pose proof (H e (or_introl eq_refl)) as HE.
    destruct (hit e).
    + destruct (proj1 HE eq_refl) as [G CR]. rewrite (TA G CR). symmetry.
      exact (evidence_app start [e] (filter hit t) (content v c)).
    + rewrite TB; [reflexivity|]. intro Q. apply HE in Q. discriminate.
Qed.

End P.
