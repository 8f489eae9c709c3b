(** Proofs about the voxel grid: geometry and indexing. *)
From Coq Require Import List ZArith QArith Qround Lqa Lia Bool.
From Coq Require Import ZifyBool ZifyNat.
From Verif Require Import Base QLemmas VoxelModel VoxelSpec.
Import ListNotations.
Open Scope nat_scope.

Section P.
Context {C : Type}.
Implicit Type g : vgrid C.

(** the plane cell of a point, in closed form *)
Definition cell_of (cs : Q) (p : point) : pcell :=
  (Qfloor (fst p / cs + (1#2)), (- Qfloor (- (snd p / cs) + (1#2)))%Z).

Lemma in_cell_uv cs c p : (0 < cs)%Q ->
  (in_cell cs c p <->
   (inject_Z (fst c) - (1#2) <= fst p / cs /\
    fst p / cs < inject_Z (fst c) + (1#2) /\
    inject_Z (snd c) - (1#2) < snd p / cs /\
    snd p / cs <= inject_Z (snd c) + (1#2))%Q).
Proof.
  intro H. unfold in_cell.
  rewrite (Qdiv_mul (fst p) cs H) at 1 2. rewrite (Qdiv_mul (snd p) cs H) at 1 2.
  rewrite !Qle_scale, !Qlt_scale by assumption. tauto.
Qed.

Lemma cell_of_in cs p : (0 < cs)%Q -> in_cell cs (cell_of cs p) p.
Proof.
  intro H. apply in_cell_uv; auto. unfold cell_of. cbn [fst snd].
  generalize (fst p / cs)%Q (snd p / cs)%Q. intros u v.
  pose proof (Qfloor_spec (u + (1#2))) as [A1 A2].
  pose proof (Qfloor_spec (- v + (1#2))) as [B1 B2].
  rewrite inject_Z_opp. repeat split; lra.
Qed.

Lemma in_cell_unique cs c p : (0 < cs)%Q -> in_cell cs c p -> cell_of cs p = c.
Proof.
  intros H I. apply in_cell_uv in I; auto. destruct I as (A & B & D & E).
  destruct c as [i j]. simpl in *. unfold cell_of. f_equal.
  - apply Qfloor_unique; lra.
  - rewrite (Qfloor_unique _ (- j)%Z); [lia| |]; rewrite inject_Z_opp; lra.
Qed.

Lemma in_cell_iff cs c p : (0 < cs)%Q -> (in_cell cs c p <-> cell_of cs p = c).
Proof.
  intro H; split; [apply in_cell_unique; auto|intro E; subst; apply cell_of_in; auto].
Qed.

Lemma qn_nonneg n : (0 <= qn n)%Q.
Proof. unfold qn. change 0%Q with (inject_Z 0). apply le_inj. lia. Qed.

Lemma div_aux a b cs : (0 < cs)%Q ->
  ((a * cs + b * cs) / cs == a + b)%Q.
Proof. intro H. field. intro E. rewrite E in H. apply (Qlt_irrefl 0 H). Qed.

(** isInside in cell units *)
Lemma isInside_uv g p : (0 < cell_size g)%Q ->
  (isInside g p = true <->
   (- qn (w_left g) - (1#2) <= fst p / cell_size g /\
    fst p / cell_size g <= qn (w_right g) + (1#2) /\
    - qn (h_down g) - (1#2) <= snd p / cell_size g /\
    snd p / cell_size g <= qn (h_up g) + (1#2))%Q).
Proof.
  intro H. unfold isInside, minx, maxx, miny, maxy, half.
  rewrite !andb_true_iff, !Qle_bool_iff.
  set (cs := cell_size g) in *.
  rewrite (Qdiv_mul (fst p) cs H) at 1 2. rewrite (Qdiv_mul (snd p) cs H) at 1 2.
  assert (E1 : forall a, (- a * cs - cs / 2 == (- a - (1#2)) * cs)%Q)
    by (intro; field).
  assert (E2 : forall a, (a * cs + cs / 2 == (a + (1#2)) * cs)%Q)
    by (intro; field).
  rewrite !E1, !E2, !Qle_scale by assumption. tauto.
Qed.

Lemma coord_x g p : (0 < cell_size g)%Q ->
  Qfloor ((fst p + cell_size g * qn (w_left g) + half g) / cell_size g)
  = (fst (cell_of (cell_size g) p) + Z.of_nat (w_left g))%Z.
Proof.
  intro H. unfold cell_of, half. cbn [fst snd]. rewrite <- Qfloor_plus_Z.
  apply Qfloor_comp. fold (qn (w_left g)). field.
  intro E. rewrite E in H. apply (Qlt_irrefl 0 H).
Qed.

Lemma coord_y g p : (0 < cell_size g)%Q ->
  Qfloor ((- snd p + cell_size g * qn (h_up g) + half g) / cell_size g)
  = (Z.of_nat (h_up g) - snd (cell_of (cell_size g) p))%Z.
Proof.
  intro H. unfold cell_of, half. cbn [fst snd].
  replace (Z.of_nat (h_up g) - - Qfloor (- (snd p / cell_size g) + (1 # 2)))%Z
    with (Qfloor (- (snd p / cell_size g) + (1 # 2)) + Z.of_nat (h_up g))%Z by lia.
  rewrite <- Qfloor_plus_Z.
  apply Qfloor_comp. fold (qn (h_up g)). field.
  intro E. rewrite E in H. apply (Qlt_irrefl 0 H).
Qed.

(** index arithmetic in the window *)
Lemma in_box_iff g c :
  in_box g c = true <->
  (- Z.of_nat (w_left g) <= fst c <= Z.of_nat (w_right g) /\
   - Z.of_nat (h_down g) <= snd c <= Z.of_nat (h_up g))%Z.
Proof. unfold in_box. lia. Qed.

Definition colrow g (c : pcell) : nat * nat :=
  (Z.to_nat (fst c + Z.of_nat (w_left g)), Z.to_nat (Z.of_nat (h_up g) - snd c)).

Lemma slot_colrow g c : in_box g c = true ->
  slot_of g c = snd (colrow g c) * width g + fst (colrow g c)
  /\ fst (colrow g c) < width g /\ snd (colrow g c) < height g.
Proof.
  intro H. apply in_box_iff in H. unfold slot_of, colrow, width, height. simpl.
  split; [|lia]. nia.
Qed.

Lemma slot_lt g c : in_box g c = true -> slot_of g c < width g * height g.
Proof.
  intro H. destruct (slot_colrow g c H) as (E & A & B). rewrite E.
  generalize dependent (fst (colrow g c)).
  generalize dependent (snd (colrow g c)). intros. nia.
Qed.

Lemma divmod_unique w r c : c < w -> (r * w + c) / w = r /\ (r * w + c) mod w = c.
Proof.
  intro H. split.
  - symmetry. apply (Nat.div_unique _ _ r c); lia.
  - symmetry. apply (Nat.mod_unique _ _ r c); lia.
Qed.

Lemma slot_inj g c d : in_box g c = true -> in_box g d = true ->
  slot_of g c = slot_of g d -> c = d.
Proof.
  intros Hc Hd E.
  destruct (slot_colrow g c Hc) as (E1 & A1 & _).
  destruct (slot_colrow g d Hd) as (E2 & A2 & _).
  rewrite E1, E2 in E.
  pose proof (divmod_unique (width g) (snd (colrow g c)) _ A1) as [D1 M1].
  pose proof (divmod_unique (width g) (snd (colrow g d)) _ A2) as [D2 M2].
  rewrite E in D1, M1. rewrite D1 in D2. rewrite M1 in M2.
  apply in_box_iff in Hc. apply in_box_iff in Hd.
  unfold colrow in *. simpl in *. destruct c, d; simpl in *. f_equal; lia.
Qed.

(** the plane cell shown in slot [k] *)
Definition cell_at g (k : nat) : pcell :=
  (Z.of_nat (k mod width g) - Z.of_nat (w_left g),
   Z.of_nat (h_up g) - Z.of_nat (k / width g))%Z.

Lemma width_pos g : 0 < width g. Proof. unfold width. lia. Qed.
Lemma height_pos g : 0 < height g. Proof. unfold height. lia. Qed.

Lemma cell_at_box g k : k < width g * height g ->
  in_box g (cell_at g k) = true /\ slot_of g (cell_at g k) = k.
Proof.
  intro H. pose proof (width_pos g).
  assert (A : k mod width g < width g) by (apply Nat.mod_upper_bound; lia).
  assert (B : k / width g < height g) by (apply Nat.div_lt_upper_bound; lia).
  assert (I : in_box g (cell_at g k) = true).
  { apply in_box_iff. unfold cell_at. cbn [fst snd]. revert A B. generalize (k / width g) (k mod width g). unfold width, height. intros. lia. }
  split; [exact I|].
  destruct (slot_colrow g _ I) as (E & _ & _). rewrite E.
  unfold colrow, cell_at. cbn [fst snd].
  pose proof (Nat.div_mod k (width g) ltac:(lia)) as DM.
  revert DM. generalize (k / width g) (k mod width g). intros q r DM.
  replace (Z.to_nat (Z.of_nat (h_up g) - (Z.of_nat (h_up g) - Z.of_nat q)))
    with q by lia.
  replace (Z.to_nat (Z.of_nat r - Z.of_nat (w_left g) + Z.of_nat (w_left g)))
    with r by lia.
  lia.
Qed.

Lemma cell_at_slot g c : in_box g c = true -> cell_at g (slot_of g c) = c.
Proof.
  intro H. pose proof (slot_lt g c H) as L.
  destruct (cell_at_box g _ L) as [B E]. apply (slot_inj g); auto.
Qed.

Lemma content_cell_at g k : k < width g * height g ->
  content g (cell_at g k) = nth k (cells g) None.
Proof.
  intro H. destruct (cell_at_box g k H) as [B E]. unfold content. rewrite B, E. auto.
Qed.

(** calcIndex of a point whose cell is in the window *)
Lemma calcCoordinates_box g p : (0 < cell_size g)%Q ->
  in_box g (cell_of (cell_size g) p) = true ->
  calcCoordinates g p = Ok (colrow g (cell_of (cell_size g) p)).
Proof.
  intros H I. unfold calcCoordinates. rewrite coord_x, coord_y by assumption.
  apply in_box_iff in I. unfold to_size_t.
  destruct (Z.ltb_spec (fst (cell_of (cell_size g) p) + Z.of_nat (w_left g)) 0); [lia|].
  destruct (Z.ltb_spec (Z.of_nat (h_up g) - snd (cell_of (cell_size g) p)) 0); [lia|].
  reflexivity.
Qed.

Lemma calcIndex_box g p : (0 < cell_size g)%Q ->
  in_box g (cell_of (cell_size g) p) = true ->
  calcIndex g p = Ok (slot_of g (cell_of (cell_size g) p)).
Proof.
  intros H I. unfold calcIndex. rewrite calcCoordinates_box by assumption. simpl.
  unfold calcIndexC. destruct (slot_colrow g _ I) as (E & _). rewrite E. reflexivity.
Qed.

(** A point inside the closed borders lies in a window cell, or exactly on the
    right or lower border. *)
Lemma inside_cell g p : (0 < cell_size g)%Q -> isInside g p = true ->
  let c := cell_of (cell_size g) p in
  (- Z.of_nat (w_left g) <= fst c <= Z.of_nat (w_right g) + 1 /\
   - Z.of_nat (h_down g) - 1 <= snd c <= Z.of_nat (h_up g))%Z /\
  (fst c = Z.of_nat (w_right g) + 1 -> fst p == maxx g)%Z%Q /\
  (snd c = - Z.of_nat (h_down g) - 1 -> snd p == miny g)%Z%Q.
Proof.
  intros H I. cbv zeta. pose proof (cell_of_in (cell_size g) p H) as IC.
  apply in_cell_uv in IC; auto. apply isInside_uv in I; auto.
  destruct IC as (A1 & A2 & A3 & A4). destruct I as (B1 & B2 & B3 & B4).
  unfold qn in *. set (c := cell_of (cell_size g) p) in *.
  assert (L1 : (- Z.of_nat (w_left g) - 1 < fst c)%Z).
  { apply inj_lt. rewrite inj_minus, inject_Z_opp. change (inject_Z 1) with 1%Q. lra. }
  assert (L2 : (fst c <= Z.of_nat (w_right g) + 1)%Z).
  { apply inj_le. rewrite inject_Z_plus. change (inject_Z 1) with 1%Q. lra. }
  assert (L3 : (- Z.of_nat (h_down g) - 1 <= snd c)%Z).
  { apply inj_le. rewrite inj_minus, inject_Z_opp. change (inject_Z 1) with 1%Q. lra. }
  assert (L4 : (snd c < Z.of_nat (h_up g) + 1)%Z).
  { apply inj_lt. rewrite inject_Z_plus. change (inject_Z 1) with 1%Q. lra. }
  split; [lia|]. split; intro E.
  - rewrite E, inject_Z_plus in A1. change (inject_Z 1) with 1%Q in A1.
    assert (U : (fst p / cell_size g == inject_Z (Z.of_nat (w_right g)) + (1#2))%Q) by lra.
    rewrite (Qdiv_mul (fst p) _ H), U. unfold maxx, half, qn. field.
  - rewrite E, inj_minus, inject_Z_opp in A4. change (inject_Z 1) with 1%Q in A4.
    assert (U : (snd p / cell_size g == - inject_Z (Z.of_nat (h_down g)) - (1#2))%Q) by lra.
    rewrite (Qdiv_mul (snd p) _ H), U. unfold miny, half, qn. field.
Qed.

(** and conversely window cells are inside *)
Lemma box_inside g p : (0 < cell_size g)%Q ->
  in_box g (cell_of (cell_size g) p) = true -> isInside g p = true.
Proof.
  intros H I. pose proof (cell_of_in (cell_size g) p H) as IC.
  apply in_cell_uv in IC; auto. apply isInside_uv; auto.
  apply in_box_iff in I. destruct I as ((I1 & I2) & (I3 & I4)).
  apply le_inj in I1. apply le_inj in I2. apply le_inj in I3. apply le_inj in I4.
  rewrite inject_Z_opp in I1, I3. unfold qn. lra.
Qed.

Lemma wf_len g : wf g -> length (cells g) = width g * height g.
Proof. intros [_ H]. auto. Qed.
Lemma wf_cs g : wf g -> (0 < cell_size g)%Q.
Proof. intros [H _]. auto. Qed.

(** Two grids of the same extent with the same contents have the same storage. *)
Lemma content_ext_cells g g' :
  w_left g = w_left g' -> w_right g = w_right g' ->
  h_up g = h_up g' -> h_down g = h_down g' ->
  length (cells g) = width g * height g -> length (cells g') = width g' * height g' ->
  (forall c, content g c = content g' c) -> cells g = cells g'.
Proof.
  intros E1 E2 E3 E4 L1 L2 H.
  assert (EW : width g = width g') by (unfold width; congruence).
  assert (EH : height g = height g') by (unfold height; congruence).
  apply (list_eq_nth None); [congruence|]. intros i Hi.
  assert (Hi1 : i < width g * height g) by lia.
  assert (Hi2 : i < width g' * height g') by congruence.
  rewrite <- content_cell_at, <- (content_cell_at g') by assumption.
  rewrite H. f_equal. unfold cell_at. rewrite EW, E1, E3. reflexivity.
Qed.

(** writing one slot *)
Lemma content_upd g g' c v :
  wf g -> in_box g c = true ->
  w_left g' = w_left g -> w_right g' = w_right g ->
  h_up g' = h_up g -> h_down g' = h_down g ->
  cells g' = upd (cells g) (slot_of g c) v ->
  forall d, content g' d = if (fst d =? fst c)%Z && (snd d =? snd c)%Z then v else content g d.
Proof.
  intros W I E1 E2 E3 E4 EC d.
  assert (EB : in_box g' d = in_box g d) by (unfold in_box; rewrite E1, E2, E3, E4; auto).
  assert (ES : slot_of g' d = slot_of g d)
    by (unfold slot_of, width; rewrite E1, E2, E3; auto).
  unfold content. rewrite EB, ES, EC, nth_upd.
  pose proof (slot_lt g c I) as L. rewrite <- (wf_len g W) in L.
  assert (HL : (slot_of g c <? length (cells g)) = true) by (apply Nat.ltb_lt; auto).
  rewrite HL, andb_true_r.
  destruct ((fst d =? fst c)%Z && (snd d =? snd c)%Z) eqn:E.
  - assert (d = c) by (destruct c, d; simpl in *; f_equal; lia). subst d.
    rewrite I, Nat.eqb_refl. reflexivity.
  - destruct (in_box g d) eqn:B; [|reflexivity].
    destruct (slot_of g d =? slot_of g c) eqn:S; [|reflexivity].
    apply Nat.eqb_eq in S. assert (d = c) by (apply (slot_inj g); auto). subst d.
    rewrite !Z.eqb_refl in E. discriminate.
Qed.

End P.
