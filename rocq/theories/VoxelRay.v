(** Proofs about rayTrace. *)
From Coq Require Import List ZArith QArith Qround Qabs Qminmax Lqa Lia Bool.
From Coq Require Import ZifyBool ZifyNat.
From Verif Require Import Base QLemmas VoxelModel VoxelSpec VoxelProofs VoxelOps VoxelAdd VoxelQuery.
Import ListNotations.
Open Scope nat_scope.

(** ** dedup *)
Lemma pcell_eqb_eq a b : pcell_eqb a b = true <-> a = b.
Proof.
  unfold pcell_eqb. destruct a as [x y], b as [u v]; simpl. split; intro H.
  - f_equal; lia.
  - inversion H; subst. lia.
Qed.

Lemma dedup_from_snoc l : forall prev x,
  dedup_from prev (l ++ [x]) =
  dedup_from prev l ++ (if pcell_eqb x (last l prev) then [] else [x]).
Proof.
  induction l as [|y t IH]; intros prev x; simpl.
  - destruct (pcell_eqb x prev); reflexivity.
  - destruct (pcell_eqb y prev) eqn:E.
    + apply pcell_eqb_eq in E. subst y. rewrite IH. destruct t; reflexivity.
    + rewrite IH. simpl. f_equal. f_equal.
      destruct t as [|z t']; [reflexivity|]. 
      replace (last (z :: t') prev) with (last (z :: t') y); [reflexivity|].
      clear. revert z. induction t' as [|w t IH]; intro z; [reflexivity|]. apply (IH w).
Qed.

Lemma last_indep {A} (l : list A) a b : l <> [] -> last l a = last l b.
Proof.
  induction l as [|x t IH]; intro H; [congruence|].
  destruct t; [reflexivity|]. apply IH. discriminate.
Qed.

Lemma dedup_snoc l x d : l <> [] ->
  dedup (l ++ [x]) = dedup l ++ (if pcell_eqb x (last l d) then [] else [x]).
Proof.
  destruct l as [|y t]; intro H; [congruence|]. simpl app. cbn [dedup].
  rewrite dedup_from_snoc. cbn [app]. f_equal. f_equal.
  destruct t as [|z t']; [reflexivity|].
  rewrite (last_indep (z :: t') y d) by discriminate. reflexivity.
Qed.

Lemma dedup_from_In l : forall prev x, In x (prev :: dedup_from prev l) <-> In x (prev :: l).
Proof.
  induction l as [|y t IH]; intros prev x; simpl; [tauto|].
  destruct (pcell_eqb y prev) eqn:E.
  - apply pcell_eqb_eq in E. subst y. specialize (IH prev x). simpl in IH. tauto.
  - specialize (IH y x). simpl in *. tauto.
Qed.

Lemma dedup_In l x : In x (dedup l) <-> In x l.
Proof. destruct l as [|y t]; simpl; [tauto|]. apply (dedup_from_In t y x). Qed.

Section P.
Context {C : Type}.
Variable dflt : C.
Implicit Type g : vgrid C.

(** The model's running point. *)
Fixpoint samp (delta s : point) (k : nat) : point :=
  match k with
  | O => s
  | S n => (fst (samp delta s n) + fst delta, snd (samp delta s n) + snd delta)%Q
  end.

Lemma samp_closed delta s k :
  (fst (samp delta s k) == fst s + inject_Z (Z.of_nat k) * fst delta)%Q /\
  (snd (samp delta s k) == snd s + inject_Z (Z.of_nat k) * snd delta)%Q.
Proof.
  induction k as [|k [IH1 IH2]].
  - cbn. split; ring.
  - rewrite Nat2Z.inj_succ, <- Z.add_1_r, inject_Z_plus. change (inject_Z 1) with 1%Q.
    cbn [samp fst snd]. rewrite IH1, IH2. split; ring.
Qed.

Definition in_strict g (p : point) : bool :=
  negb (Qle_bool (maxx g) (fst p) || Qle_bool (fst p) (minx g) ||
         (Qle_bool (maxy g) (snd p) || Qle_bool (snd p) (miny g))).

Lemma in_strict_iff g p : (0 < cell_size g)%Q ->
  (in_strict g p = true <-> strictly_inside g p).
Proof.
  intro H. unfold in_strict, strictly_inside.
  rewrite negb_true_iff, !orb_false_iff, !Qle_bool_false.
  rewrite minx_u, maxx_u, miny_u, maxy_u by auto. unfold qn. tauto.
Qed.

Lemma strict_box g p : (0 < cell_size g)%Q -> strictly_inside g p ->
  in_box g (cell_of (cell_size g) p) = true.
Proof.
  intros H S.
  assert (I : isInside g p = true).
  { destruct S as (A & B & D & E). unfold isInside.
    rewrite !andb_true_iff, !Qle_bool_iff.
    rewrite minx_u, maxx_u, miny_u, maxy_u by auto. unfold qn.
    repeat split; apply Qlt_le_weak; auto. }
  destruct (inside_cell g p H I) as (R & EX & EY).
  destruct S as (A & B & D & E). 
  apply in_box_iff.
  assert (fst (cell_of (cell_size g) p) <> Z.of_nat (w_right g) + 1)%Z.
  { intro Q. specialize (EX Q). rewrite EX, maxx_u in B by auto.
    apply (Qlt_irrefl _ B). }
  assert (snd (cell_of (cell_size g) p) <> - Z.of_nat (h_down g) - 1)%Z.
  { intro Q. specialize (EY Q). rewrite EY, miny_u in D by auto.
    apply (Qlt_irrefl _ D). }
  lia.
Qed.

(** ** the loop *)
Definition trail g (delta s : point) (m : nat) : list pcell :=
  map (fun k => cell_of (cell_size g) (samp delta s k)) (seq 0 m).

Lemma trail_S g delta s m :
  trail g delta s (S m) = trail g delta s m ++ [cell_of (cell_size g) (samp delta s m)].
Proof. unfold trail. rewrite seq_S, map_app. reflexivity. Qed.

Lemma trail_last g delta s m d : 0 < m ->
  last (trail g delta s m) d = cell_of (cell_size g) (samp delta s (m - 1)).
Proof.
  destruct m as [|m]; [lia|]. intros _. rewrite trail_S, last_last.
  f_equal. f_equal. lia.
Qed.

Lemma trail_nonnil g delta s m : 0 < m -> trail g delta s m <> [].
Proof. destruct m; [lia|]. intros _. unfold trail. simpl. discriminate. Qed.

(** storage after touching the cells of a list *)
Definition touched g (l : list (option C)) (tr : list pcell) : Prop :=
  length l = length (cells g) /\
  forall c, in_box g c = true ->
    nth (slot_of g c) l None =
    if existsb (pcell_eqb c) tr
    then Some (match content g c with Some v => v | None => dflt end)
    else content g c.

Lemma touched_step g l tr c : wf g -> in_box g c = true -> touched g l tr ->
  exists l', touch dflt l (slot_of g c) = Ok l' /\ touched g l' (tr ++ [c]).
Proof.
  intros W B [L H]. pose proof (slot_lt g c B) as SL. rewrite <- (wf_len g W) in SL.
  unfold touch. rewrite (vget_nth l _ None) by lia. cbn [bind].
  rewrite (H c B).
  assert (TAIL : forall d, existsb (pcell_eqb d) (tr ++ [c]) =
                           existsb (pcell_eqb d) tr || pcell_eqb d c).
  { intro d. rewrite existsb_app. simpl. rewrite orb_false_r. reflexivity. }
  destruct (existsb (pcell_eqb c) tr) eqn:EX.
  - eexists. split; [reflexivity|]. split; [exact L|]. intros d Bd. rewrite TAIL, (H d Bd).
    destruct (pcell_eqb d c) eqn:E.
    + apply pcell_eqb_eq in E. subst d. rewrite EX. reflexivity.
    + rewrite orb_false_r. reflexivity.
  - destruct (content g c) as [v|] eqn:CT.
    + eexists. split; [reflexivity|]. split; [exact L|]. intros d Bd. rewrite TAIL, (H d Bd).
      destruct (pcell_eqb d c) eqn:E.
      * apply pcell_eqb_eq in E. subst d. rewrite EX, CT. reflexivity.
      * rewrite orb_false_r. reflexivity.
    + eexists. split; [reflexivity|]. split; [rewrite length_upd; exact L|].
      intros d Bd. rewrite TAIL, nth_upd, L.
      assert (T : (slot_of g c <? length (cells g)) = true) by (apply Nat.ltb_lt; auto).
      rewrite T, andb_true_r. destruct (pcell_eqb d c) eqn:E.
      * apply pcell_eqb_eq in E. subst d. rewrite Nat.eqb_refl, CT, orb_true_r. reflexivity.
      * rewrite orb_false_r. destruct (Nat.eqb_spec (slot_of g d) (slot_of g c)) as [S|S].
        { apply slot_inj in S; auto. subst d.
          assert (pcell_eqb c c = true) by (apply pcell_eqb_eq; auto). congruence. }
        apply H; auto.
Qed.

Section Loop.
Variables (g : vgrid C) (delta s : point).
Hypothesis W : wf g.
Hypothesis B0 : in_box g (cell_of (cell_size g) s) = true.

Let cellk k := cell_of (cell_size g) (samp delta s k).

(** what has been reported and created after samples 0..m-1 *)
Definition reported (m : nat) (st : @ray_state C) : Prop :=
  r_res st = map (slot_of g) (dedup (trail g delta s m)) /\
  touched g (r_cells st) (dedup (trail g delta s m)).

Definition inv (k : nat) (st : @ray_state C) : Prop :=
  reported (Nat.max k 1) st /\ r_p st = samp delta s k /\
  r_cur st = slot_of g (cellk k) /\ r_old st = slot_of g (cellk (k - 1)) /\
  (forall i, i <= k -> in_box g (cellk i) = true) /\
  (forall i, 0 < i <= k -> strictly_inside g (samp delta s i)).

Lemma rayStep_inv k st : inv k st ->
  (exists st', rayStep dflt g delta st = Next st' /\ inv (S k) st') \/
  (exists st', rayStep dflt g delta st = Break st' /\ reported (S k) st' /\
     ~ strictly_inside g (samp delta s (S k))).
Proof.
  intros ((RES & TCH) & P & CUR & OLD & BOX & STR).
  pose proof (wf_cs g W) as HC.
  assert (Bk : in_box g (cellk k) = true) by (apply BOX; lia).
  assert (PUSH : exists l out,
    (if r_cur st =? r_old st then Ok (r_cells st, r_res st)
     else do l <- touch dflt (r_cells st) (r_cur st); Ok (l, r_res st ++ [r_cur st]))
     = Ok (l, out) /\
    out = map (slot_of g) (dedup (trail g delta s (S k))) /\
    touched g l (dedup (trail g delta s (S k)))).
  { destruct k as [|k'].
    - exists (r_cells st), (r_res st). rewrite CUR, OLD. simpl Nat.sub.
      rewrite Nat.eqb_refl. split; [reflexivity|]. split; [exact RES|exact TCH].
    - replace (Nat.max (S k') 1) with (S k') in * by lia.
      assert (Bp : in_box g (cellk (S k' - 1)) = true) by (apply BOX; lia).
      assert (DD : dedup (trail g delta s (S (S k'))) = dedup (trail g delta s (S k')) ++
                   (if pcell_eqb (cellk (S k')) (cellk (S k' - 1)) then [] else [cellk (S k')])).
      { rewrite (trail_S g delta s (S k')).
        rewrite (dedup_snoc _ _ (0, 0)%Z) by (apply trail_nonnil; lia).
        rewrite trail_last by lia. reflexivity. }
      rewrite DD. rewrite CUR, OLD.
      destruct (Nat.eqb_spec (slot_of g (cellk (S k'))) (slot_of g (cellk (S k' - 1)))) as [E|E].
      + apply slot_inj in E; auto.
        assert (T : pcell_eqb (cellk (S k')) (cellk (S k' - 1)) = true) by (apply pcell_eqb_eq; auto).
        rewrite T, app_nil_r. exists (r_cells st), (r_res st). auto.
      + assert (T : pcell_eqb (cellk (S k')) (cellk (S k' - 1)) = false).
        { apply not_true_is_false. intro X. apply pcell_eqb_eq in X. apply E. rewrite X. reflexivity. }
        rewrite T.
        destruct (touched_step g (r_cells st) _ (cellk (S k')) W Bk TCH) as (l' & E' & T').
        rewrite E'. cbn [bind]. exists l', (r_res st ++ [slot_of g (cellk (S k'))]).
        split; [reflexivity|]. split; [|exact T']. rewrite RES, map_app. reflexivity. }
  destruct PUSH as (l & out & E & EO & ET). unfold rayStep. rewrite E. cbn iota beta.
  rewrite P.
  change (fst (samp delta s k) + fst delta, snd (samp delta s k) + snd delta)%Q
    with (samp delta s (S k)).
  cbv zeta.
  destruct (Qle_bool (maxx g) (fst (samp delta s (S k))) || Qle_bool (fst (samp delta s (S k))) (minx g)
         || (Qle_bool (maxy g) (snd (samp delta s (S k))) || Qle_bool (snd (samp delta s (S k))) (miny g))) eqn:OUT.
  - right. eexists. split; [reflexivity|]. split; [split; [exact EO|exact ET]|].
    rewrite <- in_strict_iff by auto. unfold in_strict. rewrite OUT. simpl. discriminate.
  - left.
    assert (ST : strictly_inside g (samp delta s (S k))).
    { apply in_strict_iff; auto. unfold in_strict. rewrite OUT. reflexivity. }
    assert (Bn : in_box g (cellk (S k)) = true) by (apply strict_box; auto).
    rewrite (calcIndex_box g (samp delta s (S k)) HC Bn).
    eexists. split; [reflexivity|]. unfold inv. cbn [r_p r_cur r_old r_res r_cells].
    replace (Nat.max (S k) 1) with (S k) by lia.
    split; [split; [exact EO|exact ET]|]. split; [reflexivity|]. split; [reflexivity|].
    split. { replace (S k - 1) with k by lia. exact CUR. }
    split.
    + intros i Hi. destruct (Nat.eq_dec i (S k)) as [->|N]; [exact Bn|]. apply BOX. lia.
    + intros i Hi. destruct (Nat.eq_dec i (S k)) as [->|N]; [exact ST|]. apply STR. lia.
Qed.

Lemma ray_loop n : forall k st, inv k st ->
  exists st' m, 0 < m /\ (k < m \/ n = 0) /\ m <= Nat.max (k + n) 1 /\ reported m st' /\
    (forall i, i < m -> in_box g (cellk i) = true) /\
    (forall i, 0 < i < m -> strictly_inside g (samp delta s i)) /\
    ((iter_nat n (rayStep dflt g delta) st = Next st' /\ m = Nat.max (k + n) 1) \/
     (iter_nat n (rayStep dflt g delta) st = Break st' /\ ~ strictly_inside g (samp delta s m))).
Proof.
  induction n as [|n IH]; intros k st I.
  - exists st, (Nat.max k 1). destruct I as (R & _ & _ & _ & BX & ST).
    replace (k + 0) with k by lia.
    split; [lia|]. split; [lia|]. split; [lia|]. split; [exact R|].
    split; [intros i Hi; apply BX; lia|]. split; [intros i Hi; apply ST; lia|].
    left. auto.
  - destruct (rayStep_inv k st I) as [(st1 & E & I1)|(st1 & E & R1 & NS)].
    + destruct (IH (S k) st1 I1) as (st' & m & M0 & M1 & M2 & R & BX & ST & O).
      exists st', m. cbn [iter_nat]. rewrite E.
      assert (KM : k < m).
      { destruct M1 as [M1|M1]; [lia|]. subst n.
        destruct O as [[_ ->]|[X _]]; [lia|discriminate]. }
      split; [lia|]. split; [lia|]. split; [lia|]. split; [exact R|].
      split; [exact BX|]. split; [exact ST|].
      destruct O as [[O1 O2]|O]; [left|right; exact O].
      split; [exact O1|lia].
    + exists st1, (S k). cbn [iter_nat]. rewrite E.
      destruct I as (_ & _ & _ & _ & BX & ST).
      split; [lia|]. split; [lia|]. split; [lia|]. split; [exact R1|].
      split; [intros i Hi; apply BX; lia|]. split; [intros i Hi; apply ST; lia|].
      right. auto.
Qed.

End Loop.

Lemma touched_content g l tr : wf g -> touched g l tr ->
  let g' := with_cells g l in
  same_frame g g' /\ wf g' /\
  forall c, content g' c =
    if in_box g c && existsb (pcell_eqb c) tr
    then Some (match content g c with Some v => v | None => dflt end)
    else content g c.
Proof.
  intros W [L H] g'. assert (SF : same_frame g g') by (apply same_frame_with_cells; auto).
  split; [exact SF|]. split; [apply (same_frame_wf g); auto|]. intro c.
  unfold content at 1. rewrite (same_frame_box _ _ _ SF), (same_frame_slot _ _ _ SF).
  destruct (in_box g c) eqn:B; cbn [andb].
  - change (cells g') with l. rewrite (H c B). reflexivity.
  - symmetry. apply content_None_out; auto.
Qed.

(** The general result, for whatever iteration count the code computes. *)
Lemma rayTrace_general g s e c0 :
  wf g -> in_cell (cell_size g) c0 s -> in_box g c0 = true ->
  ~ (ray_len g s e == 0)%Q ->
  let n := Nat.max (N.to_nat (ray_count g s e)) 1 in
  let delta := ray_delta g s e in
  exists g' m,
    rayTrace dflt g s e = Ok (g', map (slot_of g) (dedup (trail g delta s m))) /\
    0 < m <= n /\
    (m = n \/ ~ strictly_inside g (samp delta s m)) /\
    (forall i, i < m -> in_box g (cell_of (cell_size g) (samp delta s i)) = true) /\
    (forall i, 0 < i < m -> strictly_inside g (samp delta s i)) /\
    wf g' /\ same_frame g g' /\
    (forall c, content g' c =
       if existsb (pcell_eqb c) (trail g delta s m)
       then Some (match content g c with Some v => v | None => dflt end)
       else content g c).
Proof.
  intros W IC B NZ n delta. pose proof (wf_cs g W) as HC.
  assert (CO : cell_of (cell_size g) s = c0) by (apply in_cell_unique; auto).
  assert (B0 : in_box g (cell_of (cell_size g) s) = true) by (rewrite CO; auto).
  unfold rayTrace. rewrite (box_inside g s HC B0). cbn [negb].
  rewrite (calcIndex_box g s HC B0). cbn [bind].
  assert (T0 : touched g (cells g) []).
  { split; [reflexivity|]. intros c Bc. simpl. unfold content. rewrite Bc. reflexivity. }
  destruct (touched_step g (cells g) [] _ W B0 T0) as (l0 & E0 & T1).
  rewrite E0. cbn [bind].
  destruct (Qeq_bool (ray_len g s e) 0) eqn:Z; [apply Qeq_bool_iff in Z; contradiction|].
  assert (I : inv g delta s 0 (mkRay l0 [slot_of g (cell_of (cell_size g) s)] s
      (slot_of g (cell_of (cell_size g) s)) (slot_of g (cell_of (cell_size g) s)))).
  { unfold inv. cbn [r_p r_cur r_old]. split.
    - split; [reflexivity|exact T1].
    - split; [reflexivity|]. split; [reflexivity|]. split; [reflexivity|]. split.
      + intros i Hi. replace i with 0 by lia. exact B0.
      + intros i Hi. lia. }
  rewrite iter_N_nat. change (ray_delta g s e) with delta.
  destruct (ray_loop g delta s W B0 (N.to_nat (ray_count g s e)) 0 _ I)
    as (st & m & M0 & _ & M2 & [RES TCH] & BX & ST & O).
  destruct (touched_content g (r_cells st) _ W TCH) as (SF & W' & CT).
  exists (with_cells g (r_cells st)), m. cbn [plus] in M2, O.
  split. { destruct O as [[-> _]|[-> _]]; rewrite RES; reflexivity. }
  split; [unfold n; lia|].
  split. { destruct O as [[_ O]|[_ O]]; [left; exact O|right; exact O]. }
  split; [exact BX|]. split; [exact ST|]. split; [exact W'|]. split; [exact SF|].
  intro c. rewrite CT.
  assert (EQ : existsb (pcell_eqb c) (dedup (trail g delta s m)) =
               existsb (pcell_eqb c) (trail g delta s m)).
  { apply eq_true_iff_eq. rewrite !existsb_exists. split; intros (x & Hx & E); exists x;
      split; auto; apply dedup_In; auto. }
  rewrite EQ. destruct (existsb (pcell_eqb c) (trail g delta s m)) eqn:EX.
  - rewrite existsb_exists in EX. destruct EX as (x & Hx & E).
    apply pcell_eqb_eq in E. subst x. unfold trail in Hx. apply in_map_iff in Hx.
    destruct Hx as (i & Ei & Hi). apply in_seq in Hi.
    assert (Bc : in_box g c = true) by (rewrite <- Ei; apply BX; lia).
    rewrite Bc. reflexivity.
  - rewrite andb_false_r. reflexivity.
Qed.

(** ** step size: consecutive samples lie in adjacent cells *)
Lemma ray_len_nonneg g s e : (0 < cell_size g)%Q -> (0 <= ray_len g s e)%Q.
Proof.
  intro H. unfold ray_len. apply Qle_trans with (Qabs (fst e - fst s) / cell_size g)%Q.
  - apply Qle_shift_div_l; auto. rewrite Qmult_0_l. apply Qabs_nonneg.
  - apply Q.le_max_l.
Qed.

Lemma half_step (a L cs : Q) : (0 < cs)%Q -> (0 < L)%Q -> (Qabs a / cs <= L)%Q ->
  (- (1#2) <= a / L * (1#2) / cs <= (1#2))%Q.
Proof.
  intros H1 H2 H.
  assert (H3 : (Qabs a <= L * cs)%Q).
  { rewrite (Qdiv_mul (Qabs a) cs H1). apply Qmult_le_compat_r; [exact H|apply Qlt_le_weak; auto]. }
  apply Qabs_Qle_condition in H3. destruct H3 as [A B].
  assert (P : (0 < 2 * (L * cs))%Q).
  { apply Qmult_lt_0_compat; [reflexivity|]. apply Qmult_lt_0_compat; auto. }
  assert (E : (a / L * (1#2) / cs == a / (2 * (L * cs)))%Q).
  { field. split; apply cs_nz; auto. }
  rewrite E. split.
  - apply Qle_shift_div_l; auto. lra.
  - apply Qle_shift_div_r; auto. lra.
Qed.

Lemma cell_of_step cs p q : (0 < cs)%Q ->
  (- (1#2) <= (fst q - fst p) / cs <= (1#2))%Q ->
  (- (1#2) <= (snd q - snd p) / cs <= (1#2))%Q ->
  within 1 (cell_of cs p) (cell_of cs q).
Proof.
  intros H X Y.
  pose proof (cell_of_in cs p H) as P. pose proof (cell_of_in cs q H) as Q.
  apply in_cell_uv in P; auto. apply in_cell_uv in Q; auto.
  destruct P as (P1 & P2 & P3 & P4). destruct Q as (Q1 & Q2 & Q3 & Q4).
  assert (EX : ((fst q - fst p) / cs == fst q / cs - fst p / cs)%Q) by (field; apply cs_nz; auto).
  assert (EY : ((snd q - snd p) / cs == snd q / cs - snd p / cs)%Q) by (field; apply cs_nz; auto).
  rewrite EX in X. rewrite EY in Y. unfold within.
  set (a := cell_of cs p) in *. set (b := cell_of cs q) in *.
  assert (A1 : (fst b < fst a + 2)%Z).
  { apply inj_lt. rewrite inject_Z_plus. change (inject_Z 2) with 2%Q. lra. }
  assert (A2 : (fst a < fst b + 2)%Z).
  { apply inj_lt. rewrite inject_Z_plus. change (inject_Z 2) with 2%Q. lra. }
  assert (A3 : (snd b < snd a + 2)%Z).
  { apply inj_lt. rewrite inject_Z_plus. change (inject_Z 2) with 2%Q. lra. }
  assert (A4 : (snd a < snd b + 2)%Z).
  { apply inj_lt. rewrite inject_Z_plus. change (inject_Z 2) with 2%Q. lra. }
  lia.
Qed.

Lemma samp_step g s e k : (0 < cell_size g)%Q -> (0 < ray_len g s e)%Q ->
  within 1 (cell_of (cell_size g) (samp (ray_delta g s e) s k))
           (cell_of (cell_size g) (samp (ray_delta g s e) s (S k))).
Proof.
  intros H L. apply cell_of_step; auto; cbn [samp fst snd].
  - assert (E : (fst (samp (ray_delta g s e) s k) + fst (ray_delta g s e)
                 - fst (samp (ray_delta g s e) s k) == fst (ray_delta g s e))%Q) by ring.
    rewrite E. unfold ray_delta. cbn [fst]. apply half_step; auto.
    unfold ray_len. apply Q.le_max_l.
  - assert (E : (snd (samp (ray_delta g s e) s k) + snd (ray_delta g s e)
                 - snd (samp (ray_delta g s e) s k) == snd (ray_delta g s e))%Q) by ring.
    rewrite E. unfold ray_delta. cbn [snd]. apply half_step; auto.
    unfold ray_len. apply Q.le_max_r.
Qed.

Lemma dedup_chain l : forall prev,
  (forall i, S i < length (prev :: l) ->
     within 1 (nth i (prev :: l) prev) (nth (S i) (prev :: l) prev)) ->
  step_chain prev (dedup_from prev l).
Proof.
  induction l as [|x t IH]; intros prev H; cbn [dedup_from step_chain]; auto.
  destruct (pcell_eqb x prev) eqn:E.
  - apply pcell_eqb_eq in E. subst x. apply IH. intros i Hi.
    specialize (H (S i) ltac:(simpl in *; lia)). exact H.
  - cbn [step_chain]. split; [|split].
    + intro X. subst x. assert (pcell_eqb prev prev = true) by (apply pcell_eqb_eq; auto). congruence.
    + exact (H 0 ltac:(simpl; lia)).
    + apply IH. intros i Hi. specialize (H (S i) ltac:(simpl in *; lia)).
      cbn [nth] in *. destruct i.
      * destruct t; [simpl in Hi; lia|exact H].
      * rewrite (nth_indep t x prev), (nth_indep t x prev) by (simpl in Hi; lia). exact H.
Qed.

Lemma trail_nth g delta s m i d : i < m ->
  nth i (trail g delta s m) d = cell_of (cell_size g) (samp delta s i).
Proof.
  intro H. unfold trail.
  rewrite nth_indep with (d' := cell_of (cell_size g) (samp delta s 0))
    by (rewrite map_length, seq_length; auto).
  rewrite (map_nth (fun k => cell_of (cell_size g) (samp delta s k))).
  rewrite seq_nth by auto. reflexivity.
Qed.

Lemma trail_length g delta s m : length (trail g delta s m) = m.
Proof. unfold trail. rewrite map_length, seq_length. reflexivity. Qed.

Lemma trail_chain g s e m : (0 < cell_size g)%Q -> (0 < ray_len g s e)%Q -> 0 < m ->
  exists rest, dedup (trail g (ray_delta g s e) s m) = cell_of (cell_size g) s :: rest /\
    step_chain (cell_of (cell_size g) s) rest.
Proof.
  intros H L M. destruct m as [|m]; [lia|].
  assert (E : trail g (ray_delta g s e) s (S m) =
     cell_of (cell_size g) s ::
     map (fun k => cell_of (cell_size g) (samp (ray_delta g s e) s k)) (seq 1 m)) by reflexivity.
  rewrite E. cbn [dedup]. eexists. split; [reflexivity|].
  apply dedup_chain. rewrite <- E. intros i Hi. rewrite trail_length in Hi.
  rewrite !trail_nth by lia. apply samp_step; auto.
Qed.

(** samples in closed form *)
Lemma samp_sample g s e k : (0 < cell_size g)%Q -> (0 < ray_len g s e)%Q ->
  (fst (samp (ray_delta g s e) s k) == fst (ray_sample (cell_size g) s e k))%Q /\
  (snd (samp (ray_delta g s e) s k) == snd (ray_sample (cell_size g) s e k))%Q.
Proof.
  intros H L. destruct (samp_closed (ray_delta g s e) s k) as [A B].
  rewrite A, B. unfold ray_sample, seg_point, ray_delta, seg_len. cbn [fst snd].
  change (Qmax (Qabs (fst e - fst s) / cell_size g) (Qabs (snd e - snd s) / cell_size g))
    with (ray_len g s e).
  split; field; apply cs_nz; auto.
Qed.

Lemma in_cell_ext cs c p q : (fst p == fst q)%Q -> (snd p == snd q)%Q ->
  in_cell cs c p -> in_cell cs c q.
Proof. intros A B. unfold in_cell. rewrite A, B. auto. Qed.

Lemma strictly_inside_ext g p q : (fst p == fst q)%Q -> (snd p == snd q)%Q ->
  strictly_inside g p -> strictly_inside g q.
Proof. intros A B. unfold strictly_inside. rewrite A, B. auto. Qed.

Lemma rayTrace_outside g s e : isInside g s = false -> rayTrace dflt g s e = Ok (g, []).
Proof. intro I. unfold rayTrace. rewrite I. reflexivity. Qed.

Lemma rayTrace_nan g s e c0 : wf g -> in_cell (cell_size g) c0 s -> in_box g c0 = true ->
  (ray_len g s e == 0)%Q -> rayTrace dflt g s e = UB.
Proof.
  intros W IC B Z. pose proof (wf_cs g W) as HC.
  assert (CO : cell_of (cell_size g) s = c0) by (apply in_cell_unique; auto).
  assert (B0 : in_box g (cell_of (cell_size g) s) = true) by (rewrite CO; auto).
  unfold rayTrace. rewrite (box_inside g s HC B0). cbn [negb].
  rewrite (calcIndex_box g s HC B0). cbn [bind].
  unfold touch. rewrite (vget_box g _ W B0). cbn [bind].
  apply Qeq_bool_iff in Z. rewrite Z. reflexivity.
Qed.

End P.
