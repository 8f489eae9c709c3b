(** Proofs about the voxel grid: enlarging, adding, looking up, removing. *)
From Coq Require Import List ZArith QArith Qround Lqa Lia Bool Permutation.
From Coq Require Import ZifyBool ZifyNat.
From Verif Require Import Base QLemmas VoxelModel VoxelSpec VoxelProofs VoxelOps.
Import ListNotations.
Open Scope nat_scope.

Section P.
Context {C : Type}.
Variable mrg : C -> C -> C.
Implicit Type g : vgrid C.

Lemma Qlt_b_iff a b : Qlt_b a b = true <-> (a < b)%Q.
Proof.
  unfold Qlt_b. rewrite negb_true_iff. apply Qle_bool_false.
Qed.
Lemma Qlt_b_false a b : Qlt_b a b = false <-> (b <= a)%Q.
Proof. unfold Qlt_b. rewrite negb_false_iff. apply Qle_bool_iff. Qed.

(** borders and increments in cell units *)
Lemma minx_u g : (0 < cell_size g)%Q -> (minx g == (- qn (w_left g) - (1#2)) * cell_size g)%Q.
Proof. intro H. unfold minx, half. field. Qed.
Lemma maxx_u g : (0 < cell_size g)%Q -> (maxx g == (qn (w_right g) + (1#2)) * cell_size g)%Q.
Proof. intro H. unfold maxx, half. field. Qed.
Lemma miny_u g : (0 < cell_size g)%Q -> (miny g == (- qn (h_down g) - (1#2)) * cell_size g)%Q.
Proof. intro H. unfold miny, half. field. Qed.
Lemma maxy_u g : (0 < cell_size g)%Q -> (maxy g == (qn (h_up g) + (1#2)) * cell_size g)%Q.
Proof. intro H. unfold maxy, half. field. Qed.

Lemma cs_nz (cs : Q) : (0 < cs)%Q -> ~ (cs == 0)%Q.
Proof. intros H E. rewrite E in H. apply (Qlt_irrefl 0 H). Qed.

(** generic increment: ceil of the overshoot when positive *)
Lemma inc_generic (lim : nat) (over : Q) (b : bool) (z : Z) :
  (b = true <-> (0 < over)%Q) ->
  (over <= inject_Z z - qn lim)%Q -> (inject_Z z - qn lim < over + 1)%Q ->
  Z.of_nat (lim + (if b then Z.to_nat (Qceiling over) else 0)) = Z.max (Z.of_nat lim) z.
Proof.
  intros Hb H1 H2. unfold qn in *.
  assert (EC : Qceiling over = (z - Z.of_nat lim)%Z).
  { apply Qceiling_unique; rewrite inj_minus; lra. }
  rewrite EC. destruct b.
  - assert (P : (0 < over)%Q) by (apply Hb; reflexivity).
    assert ((Z.of_nat lim < z)%Z).
    { apply inj_lt. lra. }
    lia.
  - assert (NP : ~ (0 < over)%Q) by (intro P; apply Hb in P; discriminate).
    assert ((z - 1 < Z.of_nat lim)%Z).
    { apply inj_lt. rewrite inj_minus. change (inject_Z 1) with 1%Q. lra. }
    lia.
Qed.

Lemma incLeft_val g x z : (0 < cell_size g)%Q ->
  (inject_Z z - (1#2) <= x / cell_size g)%Q -> (x / cell_size g < inject_Z z + (1#2))%Q ->
  Z.of_nat (w_left g + calcIncLeft g x) = Z.max (Z.of_nat (w_left g)) (- z).
Proof.
  intros H A B. unfold calcIncLeft.
  assert (EO : ((minx g - x) / cell_size g == - qn (w_left g) - (1#2) - x / cell_size g)%Q).
  { rewrite minx_u by auto. field. apply cs_nz; auto. }
  rewrite (Qceiling_comp _ _ EO).
  apply inc_generic.
  - rewrite Qlt_b_iff, minx_u by auto. rewrite (Qdiv_mul x _ H) at 1.
    rewrite Qlt_scale by auto. split; intro; lra.
  - rewrite inject_Z_opp. lra.
  - rewrite inject_Z_opp. lra.
Qed.

(** [z] is the ceiling of the position minus one half *)
Lemma incRight_val g x z : (0 < cell_size g)%Q ->
  (inject_Z z - (1#2) < x / cell_size g)%Q -> (x / cell_size g <= inject_Z z + (1#2))%Q ->
  Z.of_nat (w_right g + calcIncRight g x) = Z.max (Z.of_nat (w_right g)) z.
Proof.
  intros H A B. unfold calcIncRight.
  assert (EO : ((x - maxx g) / cell_size g == x / cell_size g - qn (w_right g) - (1#2))%Q).
  { rewrite maxx_u by auto. field. apply cs_nz; auto. }
  rewrite (Qceiling_comp _ _ EO).
  apply inc_generic.
  - rewrite Qlt_b_iff, maxx_u by auto. rewrite (Qdiv_mul x _ H) at 1.
    rewrite Qlt_scale by auto. split; intro; lra.
  - lra.
  - lra.
Qed.

Lemma incUp_val g y z : (0 < cell_size g)%Q ->
  (inject_Z z - (1#2) < y / cell_size g)%Q -> (y / cell_size g <= inject_Z z + (1#2))%Q ->
  Z.of_nat (h_up g + calcIncUp g y) = Z.max (Z.of_nat (h_up g)) z.
Proof.
  intros H A B. unfold calcIncUp.
  assert (EO : ((y - maxy g) / cell_size g == y / cell_size g - qn (h_up g) - (1#2))%Q).
  { rewrite maxy_u by auto. field. apply cs_nz; auto. }
  rewrite (Qceiling_comp _ _ EO).
  apply inc_generic.
  - rewrite Qlt_b_iff, maxy_u by auto. rewrite (Qdiv_mul y _ H) at 1.
    rewrite Qlt_scale by auto. split; intro; lra.
  - lra.
  - lra.
Qed.

Lemma incDown_val g y z : (0 < cell_size g)%Q ->
  (inject_Z z - (1#2) <= y / cell_size g)%Q -> (y / cell_size g < inject_Z z + (1#2))%Q ->
  Z.of_nat (h_down g + calcIncDown g y) = Z.max (Z.of_nat (h_down g)) (- z).
Proof.
  intros H A B. unfold calcIncDown.
  assert (EO : ((miny g - y) / cell_size g == - qn (h_down g) - (1#2) - y / cell_size g)%Q).
  { rewrite miny_u by auto. field. apply cs_nz; auto. }
  rewrite (Qceiling_comp _ _ EO).
  apply inc_generic.
  - rewrite Qlt_b_iff, miny_u by auto. rewrite (Qdiv_mul y _ H) at 1.
    rewrite Qlt_scale by auto. split; intro; lra.
  - rewrite inject_Z_opp. lra.
  - rewrite inject_Z_opp. lra.
Qed.

(** every coordinate has such an integer, rounding either way *)
Lemma round_left (u : Q) : exists z, (inject_Z z - (1#2) <= u)%Q /\ (u < inject_Z z + (1#2))%Q.
Proof.
  exists (Qfloor (u + (1#2))). pose proof (Qfloor_spec (u + (1#2))) as [A B].
  split; lra.
Qed.
Lemma round_right (u : Q) : exists z, (inject_Z z - (1#2) < u)%Q /\ (u <= inject_Z z + (1#2))%Q.
Proof.
  exists (Qceiling (u - (1#2))). pose proof (Qceiling_spec (u - (1#2))) as [A B].
  split; lra.
Qed.

(** isInside exactly when no increment is needed *)
Lemma isInside_incs g p : (0 < cell_size g)%Q ->
  (isInside g p = true <->
   calcIncLeft g (fst p) = 0 /\ calcIncRight g (fst p) = 0 /\
   calcIncUp g (snd p) = 0 /\ calcIncDown g (snd p) = 0).
Proof.
  intro H. rewrite isInside_uv by auto.
  destruct (round_left (fst p / cell_size g)) as (a & A1 & A2).
  destruct (round_right (fst p / cell_size g)) as (b & B1 & B2).
  destruct (round_right (snd p / cell_size g)) as (c & D1 & D2).
  destruct (round_left (snd p / cell_size g)) as (d & E1 & E2).
  pose proof (incLeft_val g (fst p) a H A1 A2).
  pose proof (incRight_val g (fst p) b H B1 B2).
  pose proof (incUp_val g (snd p) c H D1 D2).
  pose proof (incDown_val g (snd p) d H E1 E2).
  assert (QA : (- qn (w_left g) - (1#2) <= fst p / cell_size g)%Q <-> (- Z.of_nat (w_left g) <= a)%Z).
  { unfold qn. split; intro L.
    - assert ((- Z.of_nat (w_left g) - 1 < a)%Z); [|lia].
      apply inj_lt. rewrite inj_minus, inject_Z_opp. change (inject_Z 1) with 1%Q. lra.
    - apply le_inj in L. rewrite inject_Z_opp in L. lra. }
  assert (QB : (fst p / cell_size g <= qn (w_right g) + (1#2))%Q <-> (b <= Z.of_nat (w_right g))%Z).
  { unfold qn. split; intro L.
    - assert ((b < Z.of_nat (w_right g) + 1)%Z); [|lia].
      apply inj_lt. rewrite inject_Z_plus. change (inject_Z 1) with 1%Q. lra.
    - apply le_inj in L. lra. }
  assert (QC : (snd p / cell_size g <= qn (h_up g) + (1#2))%Q <-> (c <= Z.of_nat (h_up g))%Z).
  { unfold qn. split; intro L.
    - assert ((c < Z.of_nat (h_up g) + 1)%Z); [|lia].
      apply inj_lt. rewrite inject_Z_plus. change (inject_Z 1) with 1%Q. lra.
    - apply le_inj in L. lra. }
  assert (QD : (- qn (h_down g) - (1#2) <= snd p / cell_size g)%Q <-> (- Z.of_nat (h_down g) <= d)%Z).
  { unfold qn. split; intro L.
    - assert ((- Z.of_nat (h_down g) - 1 < d)%Z); [|lia].
      apply inj_lt. rewrite inj_minus, inject_Z_opp. change (inject_Z 1) with 1%Q. lra.
    - apply le_inj in L. rewrite inject_Z_opp in L. lra. }
  rewrite QA, QB, QC, QD. lia.
Qed.

Lemma enlargeToFit_eq g p : (0 < cell_size g)%Q ->
  enlargeToFit g p =
  enlargeGrid g (calcIncLeft g (fst p)) (calcIncRight g (fst p))
                (calcIncUp g (snd p)) (calcIncDown g (snd p)).
Proof.
  intro H. unfold enlargeToFit. destruct (isInside g p) eqn:I; [|reflexivity].
  apply isInside_incs in I; auto. destruct I as (-> & -> & -> & ->). reflexivity.
Qed.

(** window after enlargeToFit, in terms of the cell of the point *)
Lemma enlargeToFit_spec g p c :
  wf g -> in_cell (cell_size g) c p ->
  exists g1, enlargeToFit g p = Ok g1 /\ wf g1 /\ grows g g1 /\
    n_valid g1 = n_valid g /\ (forall d, content g1 d = content g d) /\
    (Z.of_nat (w_left g1) = Z.max (Z.of_nat (w_left g)) (- fst c))%Z /\
    (Z.of_nat (h_up g1) = Z.max (Z.of_nat (h_up g)) (snd c))%Z /\
    ((fst p == (inject_Z (fst c) - (1#2)) * cell_size g)%Q /\
       Z.of_nat (w_right g1) = Z.max (Z.of_nat (w_right g)) (fst c - 1)
     \/ ~ (fst p == (inject_Z (fst c) - (1#2)) * cell_size g)%Q /\
       Z.of_nat (w_right g1) = Z.max (Z.of_nat (w_right g)) (fst c))%Z /\
    ((snd p == (inject_Z (snd c) + (1#2)) * cell_size g)%Q /\
       Z.of_nat (h_down g1) = Z.max (Z.of_nat (h_down g)) (- snd c - 1)
     \/ ~ (snd p == (inject_Z (snd c) + (1#2)) * cell_size g)%Q /\
       Z.of_nat (h_down g1) = Z.max (Z.of_nat (h_down g)) (- snd c))%Z.
Proof.
  intros [HC HL] IC. rewrite enlargeToFit_eq by auto.
  apply in_cell_uv in IC; auto. destruct IC as (U1 & U2 & V1 & V2).
  destruct (enlargeGrid_spec g (calcIncLeft g (fst p)) (calcIncRight g (fst p))
              (calcIncUp g (snd p)) (calcIncDown g (snd p)) HL)
    as (g1 & E & A1 & A2 & A3 & A4 & A5 & A6 & A7 & A8).
  exists g1. split; [exact E|].
  split; [split; [rewrite A5; auto|auto]|].
  split; [unfold grows; rewrite A1, A2, A3, A4; repeat split; auto; lia|].
  split; [exact A6|]. split; [exact A8|].
  rewrite A1, A2, A3, A4.
  split; [apply incLeft_val; auto|]. split; [apply incUp_val; auto|].
  assert (EX : forall a (z : Q), (a == z * cell_size g <-> a / cell_size g == z)%Q).
  { intros a z. split; intro Q.
    - rewrite Q. field. apply cs_nz; auto.
    - rewrite <- Q. field. apply cs_nz; auto. }
  split.
  - destruct (Qeq_dec (fst p / cell_size g) (inject_Z (fst c) - (1#2))) as [Q|Q].
    + left. split; [apply EX; auto|]. apply incRight_val; auto;
        rewrite inj_minus; change (inject_Z 1) with 1%Q; lra.
    + right. split; [rewrite EX; auto|]. apply incRight_val; auto; [|lra].
      apply Qle_lteq in U1. destruct U1 as [L|L]; [exact L|].
      exfalso. apply Q. symmetry. exact L.
  - destruct (Qeq_dec (snd p / cell_size g) (inject_Z (snd c) + (1#2))) as [Q|Q].
    + left. split; [apply EX; auto|].
      replace (- snd c - 1)%Z with (- (snd c + 1))%Z by lia.
      apply incDown_val; auto;
        rewrite inject_Z_plus; change (inject_Z 1) with 1%Q; lra.
    + right. split; [rewrite EX; auto|]. apply incDown_val; auto; [lra|].
      apply Qle_lteq in V2. destruct V2 as [L|L]; [exact L|].
      exfalso. apply Q. exact L.
Qed.

(** ** addCell *)

Lemma pcell_eq_dec (c d : pcell) : {c = d} + {c <> d}.
Proof.
  destruct c as [a b], d as [x y].
  destruct (Z.eq_dec a x), (Z.eq_dec b y); [left|right|right|right]; congruence.
Qed.

Lemma pcell_eqb_false (c d : pcell) : c <> d -> ((fst c =? fst d)%Z && (snd c =? snd d)%Z) = false.
Proof.
  intro H. destruct c, d; simpl. apply not_true_is_false. intro E.
  apply H. f_equal; lia.
Qed.

(** storing into one slot of a grid *)
Lemma store_spec g c v : wf g -> in_box g c = true ->
  let g' := with_cells g (upd (cells g) (slot_of g c) v) in
  same_frame g g' /\ wf g' /\ content g' c = v /\
  (forall d, d <> c -> content g' d = content g d).
Proof.
  intros W B g'.
  assert (SF : same_frame g g') by (apply same_frame_with_cells; apply length_upd).
  split; [exact SF|]. split; [apply (same_frame_wf g); auto|].
  assert (HC : forall d, content g' d =
     if (fst d =? fst c)%Z && (snd d =? snd c)%Z then v else content g d).
  { apply content_upd; auto. }
  split.
  - rewrite HC, !Z.eqb_refl. reflexivity.
  - intros d Hd. rewrite HC, (pcell_eqb_false d c Hd). reflexivity.
Qed.

Lemma vget_box g c : wf g -> in_box g c = true ->
  vget (cells g) (slot_of g c) = Ok (content g c).
Proof.
  intros W B. rewrite (vget_nth _ _ None).
  - unfold content. rewrite B. reflexivity.
  - rewrite (wf_len g W). apply slot_lt; auto.
Qed.

Lemma wf_with_valid g n : wf g -> wf (with_valid g n).
Proof. intros [A B]. split; auto. Qed.
Lemma content_with_valid g n c : content (with_valid g n) c = content g c.
Proof. reflexivity. Qed.

Lemma addCell_spec g p c v merging :
  wf g -> in_cell (cell_size g) c p -> ~ on_outer_edge g c p ->
  exists g', addCell mrg g p v merging = Ok g' /\
    wf g' /\ hull g c g' /\
    content g' c = Some (new_value mrg (content g c) v merging) /\
    (forall d, d <> c -> content g' d = content g d) /\
    n_valid g' = match content g c with
                 | None => u64 (n_valid g + 1) | Some _ => n_valid g end.
Proof.
  intros W IC NE. destruct (enlargeToFit_spec g p c W IC)
    as (g1 & E & W1 & GR & NV & CT & L & U & R & D).
  assert (CS : cell_size g1 = cell_size g) by (destruct GR; auto).
  assert (HU : hull g c g1 /\ in_box g1 c = true).
  { unfold hull. rewrite in_box_iff.
    unfold on_outer_edge in NE.
    assert (R' : Z.of_nat (w_right g1) = Z.max (Z.of_nat (w_right g)) (fst c)).
    { destruct R as [[Q R]|[Q R]]; auto.
      destruct (Z_lt_le_dec (Z.of_nat (w_right g)) (fst c)); [|lia].
      exfalso. apply NE. left. auto. }
    assert (D' : Z.of_nat (h_down g1) = Z.max (Z.of_nat (h_down g)) (- snd c)).
    { destruct D as [[Q D]|[Q D]]; auto.
      destruct (Z_lt_le_dec (snd c) (- Z.of_nat (h_down g))); [|lia].
      exfalso. apply NE. right. auto. }
    repeat split; auto; lia. }
  destruct HU as [HU B].
  unfold addCell. rewrite E. cbn [bind].
  assert (CO : cell_of (cell_size g1) p = c).
  { rewrite CS. apply in_cell_unique; auto. apply wf_cs; auto. }
  rewrite calcIndex_box; [|apply wf_cs; auto|rewrite CO; auto]. rewrite CO. cbn [bind].
  rewrite (vget_box g1 c W1 B). cbn [bind]. rewrite CT.
  destruct (content g c) as [o|] eqn:OLD.
  - destruct (store_spec g1 c (Some (if merging then mrg o v else v)) W1 B)
      as (SF & W2 & C1 & C2).
    eexists. split; [reflexivity|]. split; [exact W2|].
    split; [exact HU|]. split; [exact C1|]. split; [|exact NV].
    intros d Hd. rewrite C2 by auto. apply CT.
  - destruct (store_spec g1 c (Some v) W1 B) as (SF & W2 & C1 & C2).
    eexists. split; [reflexivity|]. split; [apply wf_with_valid; exact W2|].
    split; [exact HU|]. split; [exact C1|]. split; [|simpl; congruence].
    intros d Hd. rewrite content_with_valid, C2 by auto. apply CT.
Qed.

(** on the outer edge the value does not arrive where it belongs *)
Lemma addCell_edge g p c v merging :
  wf g -> in_cell (cell_size g) c p -> on_outer_edge g c p ->
  addCell mrg g p v merging = UB \/
  exists g' d, addCell mrg g p v merging = Ok g' /\ d <> c /\
    content g' c = None /\ content g' d = Some (new_value mrg (content g d) v merging).
Proof.
  intros W IC NE. destruct (enlargeToFit_spec g p c W IC)
    as (g1 & E & W1 & GR & NV & CT & L & U & R & D).
  assert (CS : cell_size g1 = cell_size g) by (destruct GR; auto).
  assert (CO : cell_of (cell_size g1) p = c).
  { rewrite CS. apply in_cell_unique; auto. apply wf_cs; auto. }
  assert (OUT : (fst c = Z.of_nat (w_right g1) + 1 \/ snd c = - Z.of_nat (h_down g1) - 1)%Z).
  { destruct NE as [[A Q]|[A Q]].
    - left. destruct R as [[_ R]|[NQ R]]; [lia|exfalso; auto].
    - right. destruct D as [[_ D]|[NQ D]]; [lia|exfalso; auto]. }
  assert (RNG : (- Z.of_nat (w_left g1) <= fst c <= Z.of_nat (w_right g1) + 1 /\
                 - Z.of_nat (h_down g1) - 1 <= snd c <= Z.of_nat (h_up g1))%Z) by lia.
  unfold addCell. rewrite E. cbn [bind]. unfold calcIndex, calcCoordinates.
  rewrite coord_x, coord_y by (apply wf_cs; auto). rewrite CO. unfold to_size_t.
  destruct (Z.ltb_spec (fst c + Z.of_nat (w_left g1)) 0); [lia|].
  destruct (Z.ltb_spec (Z.of_nat (h_up g1) - snd c) 0); [lia|].
  cbn [bind calcIndexC fst snd].
  pose proof (wf_len g1 W1) as LEN.
  set (idx := Z.to_nat (Z.of_nat (h_up g1) - snd c) * width g1 +
              Z.to_nat (fst c + Z.of_nat (w_left g1))).
  destruct (Nat.lt_ge_cases idx (width g1 * height g1)) as [LT|GE].
  2:{ left. rewrite vget_oob; [reflexivity|]. rewrite LEN. exact GE. }
  right. destruct (cell_at_box g1 idx LT) as [B S]. set (d := cell_at g1 idx) in *.
  assert (NBc : in_box g1 c = false).
  { apply not_true_is_false. intro X. apply in_box_iff in X. lia. }
  assert (ND : d <> c) by (intro X; rewrite X in B; congruence).
  change (vget (cells g1) _) with (vget (cells g1) idx).
  change (calcIndexC g1 _) with idx.
  rewrite <- S, (vget_box g1 d W1 B). cbn [bind]. rewrite CT.
  destruct (content g d) as [o|] eqn:OLD.
  - destruct (store_spec g1 d (Some (if merging then mrg o v else v)) W1 B)
      as (SF & W2 & C1 & C2).
    eexists. exists d. split; [reflexivity|]. split; [exact ND|].
    split; [|rewrite OLD; exact C1].
    rewrite C2 by auto. apply content_None_out; auto.
  - destruct (store_spec g1 d (Some v) W1 B) as (SF & W2 & C1 & C2).
    eexists. exists d. split; [reflexivity|]. split; [exact ND|].
    rewrite !content_with_valid. split; [|rewrite OLD; exact C1].
    rewrite C2 by auto. apply content_None_out; auto.
Qed.

(** ** look-ups *)

Lemma lookup_in g p c : wf g -> in_cell (cell_size g) c p -> in_box g c = true ->
  isInside g p = true /\
  cellExists g p = Ok (match content g c with Some _ => true | None => false end) /\
  getCellPtr g p = Ok (content g c) /\
  getCell g p = match content g c with Some v => Ok v | None => UB end.
Proof.
  intros W IC B. pose proof (wf_cs g W) as HC.
  assert (CO : cell_of (cell_size g) p = c) by (apply in_cell_unique; auto).
  assert (I : isInside g p = true) by (apply box_inside; auto; rewrite CO; auto).
  assert (EI : calcIndex g p = Ok (slot_of g c))
    by (rewrite calcIndex_box; auto; rewrite CO; auto).
  unfold cellExists, getCell, getCellPtr. rewrite I, EI. cbn [negb bind].
  rewrite (vget_box g c W B). cbn [bind]. auto.
Qed.

Lemma lookup_out g p : isInside g p = false -> cellExists g p = Ok false.
Proof. intro I. unfold cellExists. rewrite I. reflexivity. Qed.

(** a point inside the closed borders but in no window cell *)
Lemma lookup_edge g p c : wf g -> in_cell (cell_size g) c p ->
  isInside g p = true -> in_box g c = false ->
  on_outer_edge g c p /\
  (getCellPtr g p = UB \/
   exists d, d <> c /\ in_box g d = true /\ getCellPtr g p = Ok (content g d)).
Proof.
  intros W IC I NB. pose proof (wf_cs g W) as HC.
  assert (CO : cell_of (cell_size g) p = c) by (apply in_cell_unique; auto).
  destruct (inside_cell g p HC I) as (RNG & EX & EY). rewrite CO in RNG, EX, EY.
  assert (OUT : (fst c = Z.of_nat (w_right g) + 1 \/ snd c = - Z.of_nat (h_down g) - 1)%Z).
  { destruct (Z.eq_dec (fst c) (Z.of_nat (w_right g) + 1)); [auto|].
    destruct (Z.eq_dec (snd c) (- Z.of_nat (h_down g) - 1)); [auto|].
    exfalso. assert (in_box g c = true) by (apply in_box_iff; lia). congruence. }
  split.
  { unfold on_outer_edge. destruct OUT as [O|O].
    - left. split; [lia|]. rewrite (EX O), maxx_u by auto. rewrite O, inject_Z_plus.
      change (inject_Z 1) with 1%Q. unfold qn. ring.
    - right. split; [lia|]. rewrite (EY O), miny_u by auto. rewrite O, inj_minus, inject_Z_opp.
      change (inject_Z 1) with 1%Q. unfold qn. ring. }
  unfold getCellPtr, calcIndex, calcCoordinates.
  rewrite coord_x, coord_y by auto. rewrite CO. unfold to_size_t.
  destruct (Z.ltb_spec (fst c + Z.of_nat (w_left g)) 0); [lia|].
  destruct (Z.ltb_spec (Z.of_nat (h_up g) - snd c) 0); [lia|].
  cbn [bind calcIndexC fst snd].
  pose proof (wf_len g W) as LEN.
  set (idx := Z.to_nat (Z.of_nat (h_up g) - snd c) * width g +
              Z.to_nat (fst c + Z.of_nat (w_left g))).
  destruct (Nat.lt_ge_cases idx (width g * height g)) as [LT|GE].
  2:{ left. apply vget_oob. rewrite LEN. exact GE. }
  right. destruct (cell_at_box g idx LT) as [B S]. exists (cell_at g idx).
  split; [intro X; rewrite X in B; congruence|]. split; [exact B|].
  transitivity (vget (cells g) (slot_of g (cell_at g idx)));
    [rewrite S; reflexivity|]. apply vget_box; auto.
Qed.

(** ** removeCell *)
Lemma removeCell_in g p c : wf g -> in_cell (cell_size g) c p -> in_box g c = true ->
  exists g', removeCell g p = Ok (g', None) /\ wf g' /\
    w_left g' = w_left g /\ w_right g' = w_right g /\ h_up g' = h_up g /\
    h_down g' = h_down g /\ cell_size g' = cell_size g /\
    content g' c = None /\ (forall d, d <> c -> content g' d = content g d) /\
    n_valid g' = match content g c with None => n_valid g | Some _ => u64 (n_valid g - 1) end.
Proof.
  intros W IC B. pose proof (wf_cs g W) as HC.
  assert (CO : cell_of (cell_size g) p = c) by (apply in_cell_unique; auto).
  assert (I : isInside g p = true) by (apply box_inside; auto; rewrite CO; auto).
  unfold removeCell. rewrite I. cbn [negb].
  rewrite calcIndex_box by (auto; rewrite CO; auto). rewrite CO. cbn [bind].
  rewrite (vget_box g c W B). cbn [bind].
  destruct (store_spec g c None W B) as (SF & W2 & C1 & C2).
  eexists. split; [reflexivity|]. split; [apply wf_with_valid; exact W2|].
  repeat (split; [reflexivity|]). split; [exact C1|]. split; [exact C2|]. reflexivity.
Qed.

Lemma removeCell_out g p : isInside g p = false -> removeCell g p = Ok (g, Some false).
Proof. intro I. unfold removeCell. rewrite I. reflexivity. Qed.

(** ** enlarge *)
Lemma enlarge_spec g a b x y : wf g ->
  exists g', enlarge g a b x y = Ok g' /\ wf g' /\ grows g g' /\ n_valid g' = n_valid g /\
    (forall c, content g' c = content g c) /\
    (forall p, isInside g p = true -> isInside g' p = true) /\
    (forall p, (a <= fst p <= x /\ b <= snd p <= y)%Q -> isInside g' p = true) /\
    enlarge g' a b x y = Ok g'.
Proof.
  intros [HC HL]. unfold enlarge.
  destruct (enlargeGrid_spec g (calcIncLeft g a) (calcIncRight g x)
              (calcIncUp g y) (calcIncDown g b) HL)
    as (g' & E & A1 & A2 & A3 & A4 & A5 & A6 & A7 & A8).
  exists g'. split; [exact E|].
  split; [split; [rewrite A5; auto|auto]|].
  split; [unfold grows; rewrite A1, A2, A3, A4; repeat split; auto; lia|].
  split; [exact A6|]. split; [exact A8|].
  assert (HC' : (0 < cell_size g')%Q) by (rewrite A5; auto).
  destruct (round_left (a / cell_size g)) as (za & Za1 & Za2).
  destruct (round_right (x / cell_size g)) as (zx & Zx1 & Zx2).
  destruct (round_right (y / cell_size g)) as (zy & Zy1 & Zy2).
  destruct (round_left (b / cell_size g)) as (zb & Zb1 & Zb2).
  pose proof (incLeft_val g a za HC Za1 Za2) as IL.
  pose proof (incRight_val g x zx HC Zx1 Zx2) as IR.
  pose proof (incUp_val g y zy HC Zy1 Zy2) as IU.
  pose proof (incDown_val g b zb HC Zb1 Zb2) as ID.
  rewrite <- A1 in IL. rewrite <- A2 in IR. rewrite <- A3 in IU. rewrite <- A4 in ID.
  assert (QL : (inject_Z (Z.of_nat (w_left g)) <= inject_Z (Z.of_nat (w_left g')))%Q
             /\ (inject_Z (- za) <= inject_Z (Z.of_nat (w_left g')))%Q)
    by (split; apply le_inj; lia).
  assert (QR : (inject_Z (Z.of_nat (w_right g)) <= inject_Z (Z.of_nat (w_right g')))%Q
             /\ (inject_Z zx <= inject_Z (Z.of_nat (w_right g')))%Q)
    by (split; apply le_inj; lia).
  assert (QU : (inject_Z (Z.of_nat (h_up g)) <= inject_Z (Z.of_nat (h_up g')))%Q
             /\ (inject_Z zy <= inject_Z (Z.of_nat (h_up g')))%Q)
    by (split; apply le_inj; lia).
  assert (QD : (inject_Z (Z.of_nat (h_down g)) <= inject_Z (Z.of_nat (h_down g')))%Q
             /\ (inject_Z (- zb) <= inject_Z (Z.of_nat (h_down g')))%Q)
    by (split; apply le_inj; lia).
  rewrite inject_Z_opp in QL, QD.
  split.
  { intros p I. apply isInside_uv in I; auto. apply isInside_uv; auto.
    rewrite A5. unfold qn in *. lra. }
  split.
  { intros p [[P1 P2] [P3 P4]].
    assert (DIV : forall s t, (s <= t)%Q -> (s / cell_size g <= t / cell_size g)%Q).
    { intros s t L. rewrite <- (Qle_scale _ _ (cell_size g) HC), <- !Qdiv_mul by auto. auto. }
    apply DIV in P1. apply DIV in P2. apply DIV in P3. apply DIV in P4.
    apply isInside_uv; auto. rewrite A5. unfold qn in *. lra. }
  assert (Z1 : calcIncLeft g' a = 0).
  { assert (X := incLeft_val g' a za HC'). rewrite A5 in X. specialize (X Za1 Za2). lia. }
  assert (Z2 : calcIncRight g' x = 0).
  { assert (X := incRight_val g' x zx HC'). rewrite A5 in X. specialize (X Zx1 Zx2). lia. }
  assert (Z3 : calcIncUp g' y = 0).
  { assert (X := incUp_val g' y zy HC'). rewrite A5 in X. specialize (X Zy1 Zy2). lia. }
  assert (Z4 : calcIncDown g' b = 0).
  { assert (X := incDown_val g' b zb HC'). rewrite A5 in X. specialize (X Zb1 Zb2). lia. }
  rewrite Z1, Z2, Z3, Z4. reflexivity.
Qed.

(** ** clear *)
Lemma clear_spec g : wf g ->
  wf (clear g) /\ (forall c, content (clear g) c = None) /\
  w_left (clear g) = w_left g /\ w_right (clear g) = w_right g /\
  h_up (clear g) = h_up g /\ h_down (clear g) = h_down g /\
  cell_size (clear g) = cell_size g /\ n_valid (clear g) = n_valid g /\
  length (cells (clear g)) = length (cells g).
Proof.
  intros [A B]. unfold clear. repeat split; auto.
  - simpl. rewrite map_length. exact B.
  - intro c. unfold content. destruct (in_box _ c); auto.
    simpl. generalize (slot_of (with_cells g (map (fun _ => None) (cells g))) c).
    clear B. induction (cells g) as [|h t IH]; intros [|n]; simpl; auto.
  - simpl. apply map_length.
Qed.

(** ** copying *)
Lemma copyCells_all (l : list (option C)) : forall acc,
  foldM (fun acc c => match c with Some v => Ok (acc ++ [Some v]) | None => UB end) l acc
  = if forallb (fun c => match c with Some _ => true | None => false end) l
    then Ok (acc ++ l) else UB.
Proof.
  induction l as [|[v|] t IH]; intros acc; simpl.
  - rewrite app_nil_r. reflexivity.
  - rewrite IH. destruct (forallb _ t); auto. rewrite <- app_assoc. reflexivity.
  - reflexivity.
Qed.

Lemma copy_spec g : wf g ->
  ((exists c, in_box g c = true /\ content g c = None) /\ copyGrid g = UB) \/
  ((forall c, in_box g c = true -> content g c <> None) /\
   exists g', copyGrid g = Ok g' /\ length (cells g') = 2 * (width g' * height g') /\
     (forall c, content g' c = None)).
Proof.
  intro W. unfold copyGrid, copyCells. rewrite copyCells_all.
  destruct (forallb _ (cells g)) eqn:F.
  - right. split.
    + intros c B E. rewrite forallb_forall in F.
      unfold content in E. rewrite B in E.
      assert (L : slot_of g c < length (cells g))
        by (rewrite (wf_len g W); apply slot_lt; auto).
      specialize (F _ (nth_In (cells g) None L)). rewrite E in F. discriminate.
    + eexists. split; [reflexivity|]. simpl.
      split.
      * rewrite app_length, repeat_length. pose proof (wf_len g W).
        change (width (with_cells g (repeat None (length (cells g)) ++ cells g))) with (width g).
        change (height (with_cells g (repeat None (length (cells g)) ++ cells g))) with (height g).
        lia.
      * intro c. unfold content. destruct (in_box _ c) eqn:B; auto.
        simpl. rewrite app_nth1.
        { apply nth_repeat_any. }
        rewrite repeat_length, (wf_len g W). apply (slot_lt g c). exact B.
  - left. split; [|reflexivity].
    assert (EX : exists k, k < length (cells g) /\ nth k (cells g) None = None).
    { clear W. induction (cells g) as [|[v|] t IH]; simpl in F; [discriminate| |].
      - destruct (IH F) as (k & A & B). exists (S k). simpl. split; [lia|auto].
      - exists 0. simpl. split; [lia|auto]. }
    destruct EX as (k & A & B). rewrite (wf_len g W) in A.
    exists (cell_at g k). split; [apply cell_at_box; auto|].
    rewrite content_cell_at; auto.
Qed.

End P.
