(** Proofs about the voxel grid: re-allocation and shifting loops. *)
From Coq Require Import List ZArith QArith Qround Lqa Lia Bool.
From Coq Require Import ZifyBool ZifyNat.
From Verif Require Import Base QLemmas VoxelModel VoxelSpec VoxelProofs.
Import ListNotations.
Open Scope nat_scope.

Lemma divmod_S w k : 0 < w ->
  (k mod w + 1 = w /\ (k + 1) / w = k / w + 1 /\ (k + 1) mod w = 0) \/
  (k mod w + 1 < w /\ (k + 1) / w = k / w /\ (k + 1) mod w = k mod w + 1).
Proof.
  intro H. pose proof (Nat.div_mod k w ltac:(lia)) as D.
  pose proof (Nat.mod_upper_bound k w ltac:(lia)) as M.
  revert D M. generalize (k / w) (k mod w). intros q r D M.
  destruct (Nat.eq_dec (r + 1) w) as [E|E].
  - left. split; [auto|].
    destruct (divmod_unique w (q + 1) 0 H) as [A B].
    replace (k + 1) with ((q + 1) * w + 0) by nia. auto.
  - right. split; [lia|].
    destruct (divmod_unique w q (r + 1) ltac:(lia)) as [A B].
    replace (k + 1) with (q * w + (r + 1)) by nia. auto.
Qed.

Section P.
Context {C : Type}.
Implicit Type g : vgrid C.

(* ------------------------------------------------------------------ *)
(** * enlargeGrid *)

Lemma enlarge_loop (old : list (option C)) w h l r u nw nsize :
  0 < w -> length old = w * h -> nw = w + l + r ->
  (u + h) * nw <= nsize ->
  let f := fun i => (i / w + u) * nw + (i mod w + l) in
  exists large a b,
    foldM (enlargeStep old w nw l r u) (seq 0 (length old)) (repeat None nsize, 0, 0)
      = Ok (large, a, b) /\
    length large = nsize /\
    (forall i, i < length old -> nth (f i) large None = nth i old None) /\
    (forall j, (forall i, i < length old -> f i <> j) -> nth j large None = None).
Proof.
  intros Hw Hlen Hnw Hsz f.
  set (P := fun k (s : list (option C) * nat * nat) =>
    let '(large, used, off) := s in
    length large = nsize /\ used = k mod w /\ off = k / w * (l + r) /\
    (forall i, i < k -> nth (f i) large None = nth i old None) /\
    (forall j, (forall i, i < k -> f i <> j) -> nth j large None = None)).
  destruct (foldM_seq_inv (enlargeStep old w nw l r u) P (length old)
              (repeat None nsize, 0, 0)) as (s' & E & HP).
  - unfold P. rewrite repeat_length, Nat.mod_0_l, Nat.div_0_l by lia.
    repeat split; auto.
    + intros i Hi. lia.
    + intros. apply nth_repeat_any.
  - intros k [[large used] off] Hk (HL & HU & HO & H1 & H2).
    assert (Hq : k / w < h) by (apply Nat.div_lt_upper_bound; lia).
    assert (Hr : k mod w < w) by (apply Nat.mod_upper_bound; lia).
    pose proof (Nat.div_mod k w ltac:(lia)) as DM.
    unfold enlargeStep.
    match goal with |- context [vset large ?x _] => set (ni := x) end.
    assert (Hni : ni = f k).
    { unfold ni, f. subst off.
      revert DM Hq Hr. generalize (k / w) (k mod w). intros q m DM Hq Hr. subst nw.
      destruct (Nat.ltb_spec 0 u), (Nat.eqb_spec l 0), (Nat.eqb_spec u 0);
        cbn [andb]; nia. }
    assert (Hf : f k < nsize).
    { unfold f. revert Hq Hr. generalize (k / w) (k mod w). intros q m Hq Hr. nia. }
    rewrite (vget_nth old k None Hk). cbn [bind].
    rewrite vset_ok by (rewrite HL, Hni; exact Hf). cbn [bind].
    assert (finj : forall i, i < k -> f i <> f k).
    { intros i Hi. unfold f.
      assert (Hri : i mod w < w) by (apply Nat.mod_upper_bound; lia).
      pose proof (Nat.div_mod i w ltac:(lia)) as DMi. intro Ef.
      assert (i / w = k / w).
      { revert Ef Hr Hri. generalize (i / w) (k / w) (i mod w) (k mod w).
        intros; nia. }
      assert (i mod w = k mod w) by lia. nia. }
    assert (I1 : forall i, i < k + 1 ->
              nth (f i) (upd large ni (nth k old None)) None = nth i old None).
    { intros i Hi. rewrite nth_upd, HL, Hni.
      assert (HT : (f k <? nsize) = true) by (apply Nat.ltb_lt; auto).
      rewrite HT, andb_true_r.
      destruct (Nat.eq_dec i k) as [->|N].
      - rewrite Nat.eqb_refl. reflexivity.
      - destruct (Nat.eqb_spec (f i) (f k)) as [Ef|_].
        + exfalso. apply (finj i); [lia|exact Ef].
        + apply H1. lia. }
    assert (I2 : forall j, (forall i, i < k + 1 -> f i <> j) ->
              nth j (upd large ni (nth k old None)) None = None).
    { intros j Hj. rewrite nth_upd, Hni.
      destruct (Nat.eqb_spec j (f k)) as [->|_].
      - exfalso. apply (Hj k); [lia|reflexivity].
      - simpl. apply H2. intros i Hi. apply Hj. lia. }
    destruct (divmod_S w k Hw) as [(A & B & D)|(A & B & D)].
    + assert (T : (used + 1 =? w) = true) by lia. rewrite T.
      eexists. split; [reflexivity|]. unfold P. rewrite length_upd.
      replace (S k) with (k + 1) by lia. rewrite B, D.
      repeat split; auto; subst off; lia.
    + assert (T : (used + 1 =? w) = false) by lia. rewrite T.
      eexists. split; [reflexivity|]. unfold P. rewrite length_upd.
      replace (S k) with (k + 1) by lia. rewrite B, D.
      repeat split; auto; lia.
  - destruct s' as [[large a] b]. destruct HP as (A & _ & _ & B & D).
    exists large, a, b. auto.
Qed.

Lemma enlargeGrid_spec g l r u d :
  length (cells g) = width g * height g ->
  exists g', enlargeGrid g l r u d = Ok g' /\
    w_left g' = w_left g + l /\ w_right g' = w_right g + r /\
    h_up g' = h_up g + u /\ h_down g' = h_down g + d /\
    cell_size g' = cell_size g /\ n_valid g' = n_valid g /\
    length (cells g') = width g' * height g' /\
    (forall c, content g' c = content g c).
Proof.
  intro HL. unfold enlargeGrid.
  destruct (Nat.eqb_spec (l + r + u + d) 0) as [E|E].
  { exists g. repeat split; auto; lia. }
  destruct (enlarge_loop (cells g) (width g) (height g) l r u (width g + l + r)
              ((width g + l + r) * (height g + u + d)) (width_pos g) HL eq_refl)
    as (large & a & b & EF & LL & H1 & H2); [nia|].
  rewrite EF. cbn [bind]. eexists. split; [reflexivity|].
  cbn [w_left w_right h_up h_down cell_size n_valid cells].
  set (g' := mkGrid _ _ _ _ _ _ large).
  assert (EW : width g' = width g + l + r) by (unfold width, g'; simpl; lia).
  assert (EH : height g' = height g + u + d) by (unfold height, g'; simpl; lia).
  repeat split; auto.
  { rewrite LL, EW, EH. reflexivity. }
  assert (HB : forall c, in_box g c = true -> in_box g' c = true).
  { intros c I. apply in_box_iff in I. apply in_box_iff. unfold g'. simpl. lia. }
  assert (HF : forall c, in_box g c = true ->
     slot_of g' c = (slot_of g c / width g + u) * (width g + l + r)
                    + (slot_of g c mod width g + l)).
  { intros c I. destruct (slot_colrow g' c (HB c I)) as (S1 & _ & _).
    destruct (slot_colrow g c I) as (S2 & A & _).
    rewrite S1, S2, EW.
    destruct (divmod_unique (width g) (snd (colrow g c)) _ A) as [-> ->].
    apply in_box_iff in I. unfold colrow, g'. cbn [fst snd w_left h_up].
    f_equal; [f_equal|]; lia. }
  intro c. unfold content.
  destruct (in_box g c) eqn:B.
  - rewrite (HB c B), (HF c B). change (cells g') with large.
    rewrite H1; [reflexivity|]. rewrite HL. apply slot_lt; auto.
  - destruct (in_box g' c) eqn:B'; [|reflexivity].
    change (cells g') with large. apply H2. intros i Hi Ef.
    rewrite HL in Hi. destruct (cell_at_box g i Hi) as [Bi Si].
    pose proof (HF _ Bi) as F. rewrite Si in F. rewrite Ef in F.
    assert (EC : cell_at g i = c) by (apply (slot_inj g'); auto).
    rewrite EC in Bi. congruence.
Qed.

(* ------------------------------------------------------------------ *)
(** * Shifting loops *)

Lemma mvslot_ok (l : list (option C)) i j :
  i < length l -> j < length l ->
  exists l', mvslot l i j = Ok l' /\ length l' = length l /\
    forall k, nth k l' None = if k =? i then nth j l None
                              else if k =? j then None else nth k l None.
Proof.
  intros Hi Hj. unfold mvslot. rewrite (vget_nth l j None Hj). cbn [bind].
  rewrite vset_ok by auto. cbn [bind].
  rewrite vset_ok by (rewrite length_upd; auto).
  eexists. split; [reflexivity|]. rewrite !length_upd. split; [reflexivity|].
  intro k. rewrite !nth_upd, length_upd.
  assert (A : (i <? length l) = true) by (apply Nat.ltb_lt; auto).
  assert (B : (j <? length l) = true) by (apply Nat.ltb_lt; auto).
  rewrite A, B, !andb_true_r. reflexivity.
Qed.

Lemma vset_none (l : list (option C)) i :
  i < length l ->
  vset l i None = Ok (upd l i None) /\ length (upd l i None) = length l /\
  forall k, nth k (upd l i None) None = if k =? i then None else nth k l None.
Proof.
  intro Hi. rewrite vset_ok by auto. rewrite length_upd. repeat split.
  intro k. rewrite nth_upd.
  assert (A : (i <? length l) = true) by (apply Nat.ltb_lt; auto).
  rewrite A, andb_true_r. reflexivity.
Qed.

Lemma moveLeft_loop (l : list (option C)) w h m :
  0 < m <= w -> length l = w * h ->
  exists l' a b,
    foldM (moveLeftStep (length l) (w - m) m) (seq 0 (length l)) (l, 0, 0) = Ok (l', a, b) /\
    length l' = length l /\
    forall k, k < length l ->
      nth k l' None = if k mod w <? w - m then nth (k + m) l None else None.
Proof.
  intros Hm HL. set (n := length l) in *.
  set (P := fun k (s : list (option C) * nat * nat) =>
    let '(l', used, unused) := s in
    length l' = n /\
    (used, unused) = (if k mod w <=? w - m then (k mod w, 0) else (0, k mod w - (w - m))) /\
    (forall i, i < k -> nth i l' None =
        if i mod w <? w - m then nth (i + m) l None else None) /\
    (forall i, k + m <= i -> nth i l' None = nth i l None)).
  destruct (foldM_seq_inv (moveLeftStep n (w - m) m) P n (l, 0, 0)) as (s & E & HP).
  - unfold P. rewrite Nat.mod_0_l by lia. simpl. repeat split; auto. intros; lia.
  - intros k [[l1 used] unused] Hk (A & B & D & F).
    pose proof (Nat.mod_upper_bound k w ltac:(lia)) as Hr.
    pose proof (Nat.div_mod k w ltac:(lia)) as DM.
    assert (Hq : k / w < h) by (apply Nat.div_lt_upper_bound; lia).
    pose proof (divmod_S w k ltac:(lia)) as DS.
    unfold moveLeftStep.
    destruct (Nat.ltb_spec (k mod w) (w - m)) as [G|G].
    + (* moved *)
      assert (HI : k + m < n).
      { rewrite HL. revert DM Hq G Hr. generalize (k / w) (k mod w). intros. nia. }
      assert (Hc : used = k mod w /\ unused = 0).
      { destruct (Nat.leb_spec (k mod w) (w - m)); [|lia]. inversion B; auto. }
      destruct Hc as [-> ->].
      assert (T1 : (k + m <? n) = true) by (apply Nat.ltb_lt; auto).
      assert (T2 : (k mod w <? w - m) = true) by (apply Nat.ltb_lt; auto).
      rewrite T1, T2. simpl andb. cbn iota.
      destruct (mvslot_ok l1 k (k + m)) as (l2 & E2 & L2 & N2); try lia.
      rewrite E2. cbn [bind]. eexists. split; [reflexivity|].
      unfold P. split; [lia|].
      replace (S k) with (k + 1) by lia.
      destruct DS as [(X & Y & Z)|(X & Y & Z)]; [lia|]. rewrite Z.
      split. { destruct (Nat.leb_spec (k mod w + 1) (w - m)); [auto|lia]. }
      split.
      * intros i Hi. rewrite N2. destruct (Nat.eqb_spec i k) as [->|Ne].
        { rewrite T2. apply F. lia. }
        destruct (Nat.eqb_spec i (k + m)); [lia|]. apply D. lia.
      * intros i Hi. rewrite N2.
        destruct (Nat.eqb_spec i k); [lia|]. destruct (Nat.eqb_spec i (k + m)); [lia|].
        apply F. lia.
    + (* reset *)
      assert (TF : (k + m <? n) && (used <? w - m) && (unused =? 0) = false).
      { destruct (Nat.leb_spec (k mod w) (w - m)); inversion B; lia. }
      rewrite TF.
      destruct (vset_none l1 k ltac:(lia)) as (E2 & L2 & N2). rewrite E2.
      cbn [bind]. eexists. split; [reflexivity|]. unfold P. split; [lia|].
      replace (S k) with (k + 1) by lia.
      assert (HU : unused = k mod w - (w - m)).
      { destruct (Nat.leb_spec (k mod w) (w - m)); inversion B; lia. }
      split.
      { destruct DS as [(X & Y & Z)|(X & Y & Z)]; rewrite Z.
        - destruct (Nat.eqb_spec (unused + 1) m); [|lia].
          destruct (Nat.leb_spec 0 (w - m)); [auto|lia].
        - destruct (Nat.eqb_spec (unused + 1) m); [lia|].
          destruct (Nat.leb_spec (k mod w + 1) (w - m)); [lia|].
          f_equal. lia. }
      split.
      * intros i Hi. rewrite N2. destruct (Nat.eqb_spec i k) as [->|Ne].
        { destruct (Nat.ltb_spec (k mod w) (w - m)); [lia|auto]. }
        apply D. lia.
      * intros i Hi. rewrite N2. destruct (Nat.eqb_spec i k); [lia|]. apply F. lia.
  - destruct s as [[l' a] b]. destruct HP as (A & _ & B & _).
    exists l', a, b. auto.
Qed.

Lemma mirror_mod w h k : 0 < w -> k < w * h ->
  (w * h - 1 - k) mod w = w - 1 - k mod w.
Proof.
  intros Hw Hk.
  pose proof (Nat.div_mod k w ltac:(lia)) as DM.
  pose proof (Nat.mod_upper_bound k w ltac:(lia)) as Hr.
  assert (Hq : k / w < h) by (apply Nat.div_lt_upper_bound; lia).
  revert DM Hr Hq. generalize (k / w) (k mod w). intros q r DM Hr Hq.
  set (t := h - 1 - q). assert (Eh : h = q + 1 + t) by lia. clearbody t. subst h.
  destruct (divmod_unique w t (w - 1 - r) ltac:(lia)) as [_ M].
  assert (X : w * (q + 1 + t) = w * q + w + t * w) by nia.
  replace (w * (q + 1 + t) - 1 - k) with (t * w + (w - 1 - r)) by lia. exact M.
Qed.

Lemma moveRight_loop (l : list (option C)) w h m :
  0 < m <= w -> length l = w * h ->
  exists l' a b,
    foldM (moveRightStep (w - m) m) (rev (seq 0 (length l))) (l, 0, 0) = Ok (l', a, b) /\
    length l' = length l /\
    forall k, k < length l ->
      nth k l' None = if m <=? k mod w then nth (k - m) l None else None.
Proof.
  intros Hm HL. set (n := length l) in *.
  set (P := fun k (s : list (option C) * nat * nat) =>
    let '(l', used, unused) := s in
    length l' = n /\
    (used, unused) = (if k mod w <=? w - m then (k mod w, 0) else (0, k mod w - (w - m))) /\
    (forall i, n - k <= i < n -> nth i l' None =
        if m <=? i mod w then nth (i - m) l None else None) /\
    (forall i, i + m + k < n -> nth i l' None = nth i l None)).
  destruct (foldM_rev_seq_inv (moveRightStep (w - m) m) P n (l, 0, 0)) as (s & E & HP).
  - unfold P. rewrite Nat.mod_0_l by lia. simpl. repeat split; auto. intros; lia.
  - intros k [[l1 used] unused] Hk (A & B & D & F).
    pose proof (Nat.mod_upper_bound k w ltac:(lia)) as Hr.
    pose proof (Nat.div_mod k w ltac:(lia)) as DM.
    assert (Hq : k / w < h) by (apply Nat.div_lt_upper_bound; lia).
    pose proof (divmod_S w k ltac:(lia)) as DS.
    pose proof (mirror_mod w h k ltac:(lia) ltac:(lia)) as MM. rewrite <- HL in MM.
    assert (HI0 : k mod w < w - m -> m <= n - 1 - k).
    { clear - DM Hq Hr HL Hm. intro G. rewrite HL. clear HL.
      revert DM Hq G Hr. generalize (k / w) (k mod w). intros q r DM Hq G Hr.
      subst k. assert (w * (q + 1) <= w * h) by (apply Nat.mul_le_mono_l; lia). lia. }
    unfold moveRightStep.
    remember (n - 1 - k) as i0 eqn:Ei0.
    clear DM Hq. clearbody n. clear HL.
    remember ((k + 1) mod w) as r' eqn:Er'.
    revert B D DS MM HI0 Hr. generalize (k mod w) (k / w) ((k+1)/w).
    intros r q q' B D DS MM HI0 Hr.
    assert (MM' : i0 mod w + r + 1 = w) by (clear - MM Hr; lia). clear MM.
    assert (Ei1 : i0 + k + 1 = n) by (clear - Ei0 Hk; lia). clear Ei0 Hk.
    remember (w - m) as gd eqn:Egd0.
    assert (Egd : gd + m = w) by (clear - Egd0 Hm; lia).
    assert (DS' : (r + 1 = w /\ r' = 0) \/ (r + 1 < w /\ r' = r + 1))
      by (clear - DS; tauto).
    clear DS.
    assert (Hm0 : 0 < m) by (clear - Hm; lia). clear Hm.
    destruct (Nat.ltb_spec (r) (gd)) as [G|G].
    + assert (HI : m <= i0) by (apply HI0; exact G).
      assert (Hc : used = r /\ unused = 0).
      { destruct (Nat.leb_spec (r) (gd)); [|lia]. inversion B; auto. }
      destruct Hc as [-> ->].
      assert (T1 : (m <=? i0) = true) by (apply Nat.leb_le; auto).
      assert (T2 : (r <? gd) = true) by (apply Nat.ltb_lt; auto).
      rewrite T1, T2. simpl andb. cbn iota.
      destruct (mvslot_ok l1 i0 (i0 - m)) as (l2 & E2 & L2 & N2); try lia.
      rewrite E2. cbn [bind]. eexists. split; [reflexivity|].
      unfold P. rewrite <- ?Egd0. split; [lia|].
      replace (S k) with (k + 1) by lia.
      split. { destruct DS' as [(X & Z)|(X & Z)]; [lia|]. rewrite <- Er', Z.
               destruct (Nat.leb_spec (r + 1) (gd)); [auto|lia]. }
      split.
      * intros i Hi. rewrite N2. destruct (Nat.eqb_spec i i0) as [->|Ne].
        { destruct (Nat.leb_spec m (i0 mod w)); [|lia]. apply F. lia. }
        destruct (Nat.eqb_spec i (i0 - m)); [lia|]. apply D. lia.
      * intros i Hi. rewrite N2.
        destruct (Nat.eqb_spec i i0); [lia|]. destruct (Nat.eqb_spec i (i0 - m)); [lia|].
        apply F. lia.
    + assert (TF : (m <=? i0) && (used <? gd) && (unused =? 0) = false).
      { destruct (Nat.leb_spec (r) (gd)); inversion B; lia. }
      rewrite TF.
      destruct (vset_none l1 i0 ltac:(lia)) as (E2 & L2 & N2). rewrite E2.
      cbn [bind]. eexists. split; [reflexivity|]. unfold P. rewrite <- ?Egd0. split; [lia|].
      replace (S k) with (k + 1) by lia.
      assert (HU : unused = r - (gd)).
      { destruct (Nat.leb_spec (r) (gd)); inversion B; lia. }
      split.
      { destruct DS' as [(X & Z)|(X & Z)]; rewrite <- Er', Z.
        - destruct (Nat.eqb_spec (unused + 1) m); [|lia].
          destruct (Nat.leb_spec 0 (gd)); [auto|lia].
        - destruct (Nat.eqb_spec (unused + 1) m); [lia|].
          destruct (Nat.leb_spec (r + 1) (gd)); [lia|].
          f_equal. lia. }
      split.
      * intros i Hi. rewrite N2. destruct (Nat.eqb_spec i i0) as [->|Ne].
        { destruct (Nat.leb_spec m (i0 mod w)); [lia|auto]. }
        apply D. lia.
      * intros i Hi. rewrite N2. destruct (Nat.eqb_spec i i0); [lia|]. apply F. lia.
  - destruct s as [[l' a] b]. destruct HP as (A & _ & B & _).
    exists l', a, b. repeat split; auto. intros k Hk. apply B. lia.
Qed.

Lemma moveUp_loop (l : list (option C)) s :
  0 < s ->
  exists l',
    foldM (moveUpStep (length l) s) (seq 0 (length l)) l = Ok l' /\
    length l' = length l /\
    forall k, k < length l ->
      nth k l' None = if k + s <? length l then nth (k + s) l None else None.
Proof.
  intros Hs. set (n := length l) in *.
  set (P := fun k (l' : list (option C)) =>
    length l' = n /\
    (forall i, i < k -> nth i l' None =
        if i + s <? n then nth (i + s) l None else None) /\
    (forall i, k + s <= i -> nth i l' None = nth i l None)).
  destruct (foldM_seq_inv (moveUpStep n s) P n l) as (l' & E & HP).
  - unfold P. repeat split; auto. intros; lia.
  - intros k l1 Hk (A & D & F). unfold moveUpStep.
    destruct (Nat.ltb_spec (k + s) n) as [G|G].
    + destruct (mvslot_ok l1 k (k + s)) as (l2 & E2 & L2 & N2); try lia.
      rewrite E2. eexists. split; [reflexivity|]. unfold P. split; [lia|]. split.
      * intros i Hi. rewrite N2. destruct (Nat.eqb_spec i k) as [->|Ne].
        { destruct (Nat.ltb_spec (k + s) n); [|lia]. apply F. lia. }
        destruct (Nat.eqb_spec i (k + s)); [lia|]. apply D. lia.
      * intros i Hi. rewrite N2.
        destruct (Nat.eqb_spec i k); [lia|]. destruct (Nat.eqb_spec i (k + s)); [lia|].
        apply F. lia.
    + destruct (vset_none l1 k ltac:(lia)) as (E2 & L2 & N2). rewrite E2.
      eexists. split; [reflexivity|]. unfold P. split; [lia|]. split.
      * intros i Hi. rewrite N2. destruct (Nat.eqb_spec i k) as [->|Ne].
        { destruct (Nat.ltb_spec (k + s) n); [lia|auto]. }
        apply D. lia.
      * intros i Hi. rewrite N2. destruct (Nat.eqb_spec i k); [lia|]. apply F. lia.
  - destruct HP as (A & B & _). exists l'. auto.
Qed.

Lemma moveDown_loop (l : list (option C)) s :
  0 < s ->
  exists l',
    foldM (moveDownStep s) (rev (seq 0 (length l))) l = Ok l' /\
    length l' = length l /\
    forall k, k < length l ->
      nth k l' None = if s <=? k then nth (k - s) l None else None.
Proof.
  intros Hs. set (n := length l) in *.
  set (P := fun k (l' : list (option C)) =>
    length l' = n /\
    (forall i, n - k <= i < n -> nth i l' None =
        if s <=? i then nth (i - s) l None else None) /\
    (forall i, i + s + k < n -> nth i l' None = nth i l None)).
  destruct (foldM_rev_seq_inv (moveDownStep s) P n l) as (l' & E & HP).
  - unfold P. repeat split; auto. intros; lia.
  - intros k l1 Hk (A & D & F). unfold moveDownStep. set (i0 := n - 1 - k).
    destruct (Nat.leb_spec s i0) as [G|G].
    + destruct (mvslot_ok l1 i0 (i0 - s)) as (l2 & E2 & L2 & N2); try lia.
      rewrite E2. eexists. split; [reflexivity|]. unfold P. split; [lia|]. split.
      * intros i Hi. rewrite N2. destruct (Nat.eqb_spec i i0) as [->|Ne].
        { destruct (Nat.leb_spec s i0); [|lia]. apply F. lia. }
        destruct (Nat.eqb_spec i (i0 - s)); [lia|]. apply D. lia.
      * intros i Hi. rewrite N2.
        destruct (Nat.eqb_spec i i0); [lia|]. destruct (Nat.eqb_spec i (i0 - s)); [lia|].
        apply F. lia.
    + destruct (vset_none l1 i0 ltac:(lia)) as (E2 & L2 & N2). rewrite E2.
      eexists. split; [reflexivity|]. unfold P. split; [lia|]. split.
      * intros i Hi. rewrite N2. destruct (Nat.eqb_spec i i0) as [->|Ne].
        { destruct (Nat.leb_spec s i0); [lia|auto]. }
        apply D. lia.
      * intros i Hi. rewrite N2. destruct (Nat.eqb_spec i i0); [lia|]. apply F. lia.
  - destruct HP as (A & B & _). exists l'. repeat split; auto. intros k Hk. apply B. lia.
Qed.

(** ** the shifts seen in the plane *)

(** same window, cell size and counter; storage length kept *)
Lemma same_frame_refl g : same_frame g g.
Proof. repeat split. Qed.
Lemma same_frame_trans (a b c : vgrid C) : same_frame a b -> same_frame b c -> same_frame a c.
Proof. unfold same_frame. intuition congruence. Qed.
Lemma same_frame_box g g' c : same_frame g g' -> in_box g' c = in_box g c.
Proof.
  intros (A & B & D & E & _). unfold in_box. rewrite A, B, D, E. reflexivity.
Qed.
Lemma same_frame_slot g g' c : same_frame g g' -> slot_of g' c = slot_of g c.
Proof.
  intros (A & B & D & E & _). unfold slot_of, width. rewrite A, B, D. reflexivity.
Qed.
Lemma same_frame_dims g g' : same_frame g g' -> width g' = width g /\ height g' = height g.
Proof.
  intros (A & B & D & E & _). unfold width, height. rewrite A, B, D, E. auto.
Qed.
Lemma same_frame_wf g g' : same_frame g g' -> wf g -> wf g'.
Proof.
  intros S [W1 W2]. destruct (same_frame_dims _ _ S) as [A B].
  destruct S as (_ & _ & _ & _ & E & _ & L).
  split; [rewrite E; auto|congruence].
Qed.
Lemma same_frame_with_cells g l : length l = length (cells g) -> same_frame g (with_cells g l).
Proof. intro H. unfold same_frame, with_cells. simpl. auto 10. Qed.

Lemma content_None_out g c : in_box g c = false -> content g c = None.
Proof. intro H. unfold content. rewrite H. reflexivity. Qed.

Lemma moveLeft_spec g m : length (cells g) = width g * height g ->
  exists g', moveLeft g m = Ok g' /\ same_frame g g' /\
    forall c, content g' c =
      if in_box g c then content g (fst c + Z.of_nat m, snd c)%Z else None.
Proof.
  intro HL. unfold moveLeft. destruct (Nat.eqb_spec m 0) as [->|Hm].
  { exists g. split; auto. split; [apply same_frame_refl|]. intros [i j]. simpl.
    rewrite Z.add_0_r. destruct (in_box g (i, j)) eqn:B; auto. apply content_None_out; auto. }
  set (m' := Nat.min m (width g)).
  pose proof (width_pos g) as WP.
  destruct (moveLeft_loop (cells g) (width g) (height g) m' ltac:(lia) HL)
    as (l' & a & b & E & L & N).
  rewrite E. cbn [bind]. eexists. split; [reflexivity|].
  assert (SF : same_frame g (with_cells g l')) by (apply same_frame_with_cells; auto).
  split; [exact SF|]. intro c. unfold content at 1.
  rewrite (same_frame_box _ _ _ SF), (same_frame_slot _ _ _ SF).
  destruct (in_box g c) eqn:B; [|reflexivity].
  change (cells (with_cells g l')) with l'.
  pose proof (slot_lt g c B) as SL. rewrite N by lia.
  destruct (slot_colrow g c B) as (SE & Ac & Bc).
  destruct (divmod_unique (width g) (snd (colrow g c)) _ Ac) as [_ MM].
  rewrite <- SE in MM. rewrite MM.
  pose proof B as B0. apply in_box_iff in B0.
  destruct (Nat.ltb_spec (fst (colrow g c)) (width g - m')) as [G|G].
  - assert (B1 : in_box g (fst c + Z.of_nat m, snd c)%Z = true).
    { apply in_box_iff. cbn [fst snd]. unfold colrow, m', width in *. cbn [fst snd] in *. lia. }
    unfold content. rewrite B1. f_equal.
    destruct (slot_colrow g _ B1) as (SE1 & _ & _). rewrite SE, SE1.
    assert (m' = m) by (unfold colrow, m', width in *; cbn [fst snd] in *; lia).
    unfold colrow in *. cbn [fst snd] in *. lia.
  - rewrite content_None_out; [reflexivity|].
    destruct (in_box g (fst c + Z.of_nat m, snd c)%Z) eqn:B1; auto.
    apply in_box_iff in B1. unfold colrow, m', width in *. cbn [fst snd] in *. lia.
Qed.

Lemma moveRight_spec g m : length (cells g) = width g * height g ->
  exists g', moveRight g m = Ok g' /\ same_frame g g' /\
    forall c, content g' c =
      if in_box g c then content g (fst c - Z.of_nat m, snd c)%Z else None.
Proof.
  intro HL. unfold moveRight. destruct (Nat.eqb_spec m 0) as [->|Hm].
  { exists g. split; auto. split; [apply same_frame_refl|]. intros [i j]. simpl.
    rewrite Z.sub_0_r. destruct (in_box g (i, j)) eqn:B; auto. apply content_None_out; auto. }
  set (m' := Nat.min m (width g)).
  pose proof (width_pos g) as WP.
  destruct (moveRight_loop (cells g) (width g) (height g) m' ltac:(lia) HL)
    as (l' & a & b & E & L & N).
  rewrite E. cbn [bind]. eexists. split; [reflexivity|].
  assert (SF : same_frame g (with_cells g l')) by (apply same_frame_with_cells; auto).
  split; [exact SF|]. intro c. unfold content at 1.
  rewrite (same_frame_box _ _ _ SF), (same_frame_slot _ _ _ SF).
  destruct (in_box g c) eqn:B; [|reflexivity].
  change (cells (with_cells g l')) with l'.
  pose proof (slot_lt g c B) as SL. rewrite N by lia.
  destruct (slot_colrow g c B) as (SE & Ac & Bc).
  destruct (divmod_unique (width g) (snd (colrow g c)) _ Ac) as [_ MM].
  rewrite <- SE in MM. rewrite MM.
  pose proof B as B0. apply in_box_iff in B0.
  destruct (Nat.leb_spec m' (fst (colrow g c))) as [G|G].
  - assert (B1 : in_box g (fst c - Z.of_nat m, snd c)%Z = true).
    { apply in_box_iff. cbn [fst snd]. unfold colrow, m', width in *. cbn [fst snd] in *. lia. }
    unfold content. rewrite B1. f_equal.
    destruct (slot_colrow g _ B1) as (SE1 & _ & _). rewrite SE, SE1.
    assert (m' = m) by (unfold colrow, m', width in *; cbn [fst snd] in *; lia).
    unfold colrow in *. cbn [fst snd] in *. lia.
  - rewrite content_None_out; [reflexivity|].
    destruct (in_box g (fst c - Z.of_nat m, snd c)%Z) eqn:B1; auto.
    apply in_box_iff in B1. unfold colrow, m', width in *. cbn [fst snd] in *. lia.
Qed.

(** moving up: content of the row below (smaller j) moves to the row above *)
Lemma moveUp_spec g m : length (cells g) = width g * height g ->
  exists g', moveUp g m = Ok g' /\ same_frame g g' /\
    forall c, content g' c =
      if in_box g c then content g (fst c, snd c - Z.of_nat m)%Z else None.
Proof.
  intro HL. unfold moveUp. destruct (Nat.eqb_spec m 0) as [->|Hm].
  { exists g. split; auto. split; [apply same_frame_refl|]. intros [i j]. simpl.
    rewrite Z.sub_0_r. destruct (in_box g (i, j)) eqn:B; auto. apply content_None_out; auto. }
  set (m' := Nat.min m (height g)).
  pose proof (width_pos g) as WP. pose proof (height_pos g) as HP.
  destruct (moveUp_loop (cells g) (m' * width g) ltac:(nia)) as (l' & E & L & N).
  rewrite E. cbn [bind]. eexists. split; [reflexivity|].
  assert (SF : same_frame g (with_cells g l')) by (apply same_frame_with_cells; auto).
  split; [exact SF|]. intro c. unfold content at 1.
  rewrite (same_frame_box _ _ _ SF), (same_frame_slot _ _ _ SF).
  destruct (in_box g c) eqn:B; [|reflexivity].
  change (cells (with_cells g l')) with l'.
  pose proof (slot_lt g c B) as SL. rewrite N by lia.
  destruct (slot_colrow g c B) as (SE & Ac & Bc).
  pose proof B as B0. apply in_box_iff in B0.
  destruct (Nat.ltb_spec (slot_of g c + m' * width g) (length (cells g))) as [G|G].
  - assert (RB : snd (colrow g c) + m' < height g).
    { rewrite SE, HL in G. nia. }
    assert (B1 : in_box g (fst c, snd c - Z.of_nat m)%Z = true).
    { apply in_box_iff. cbn [fst snd]. unfold colrow, m', height in *. cbn [fst snd] in *. lia. }
    unfold content. rewrite B1. f_equal.
    destruct (slot_colrow g _ B1) as (SE1 & _ & _). rewrite SE, SE1.
    assert (m' = m) by (unfold colrow, m', height in *; cbn [fst snd] in *; lia).
    unfold colrow in *. cbn [fst snd] in *.
    replace (Z.to_nat (Z.of_nat (h_up g) - (snd c - Z.of_nat m)))
      with (Z.to_nat (Z.of_nat (h_up g) - snd c) + m) by lia. nia.
  - assert (RB : height g <= snd (colrow g c) + m').
    { rewrite SE, HL in G. nia. }
    rewrite content_None_out; [reflexivity|].
    destruct (in_box g (fst c, snd c - Z.of_nat m)%Z) eqn:B1; auto.
    apply in_box_iff in B1. unfold colrow, m', height in *. cbn [fst snd] in *. lia.
Qed.

Lemma moveDown_spec g m : length (cells g) = width g * height g ->
  exists g', moveDown g m = Ok g' /\ same_frame g g' /\
    forall c, content g' c =
      if in_box g c then content g (fst c, snd c + Z.of_nat m)%Z else None.
Proof.
  intro HL. unfold moveDown. destruct (Nat.eqb_spec m 0) as [->|Hm].
  { exists g. split; auto. split; [apply same_frame_refl|]. intros [i j]. simpl.
    rewrite Z.add_0_r. destruct (in_box g (i, j)) eqn:B; auto. apply content_None_out; auto. }
  set (m' := Nat.min m (height g)).
  pose proof (width_pos g) as WP. pose proof (height_pos g) as HP.
  destruct (moveDown_loop (cells g) (m' * width g) ltac:(nia)) as (l' & E & L & N).
  rewrite E. cbn [bind]. eexists. split; [reflexivity|].
  assert (SF : same_frame g (with_cells g l')) by (apply same_frame_with_cells; auto).
  split; [exact SF|]. intro c. unfold content at 1.
  rewrite (same_frame_box _ _ _ SF), (same_frame_slot _ _ _ SF).
  destruct (in_box g c) eqn:B; [|reflexivity].
  change (cells (with_cells g l')) with l'.
  pose proof (slot_lt g c B) as SL. rewrite N by lia.
  destruct (slot_colrow g c B) as (SE & Ac & Bc).
  pose proof B as B0. apply in_box_iff in B0.
  destruct (Nat.leb_spec (m' * width g) (slot_of g c)) as [G|G].
  - assert (RB : m' <= snd (colrow g c)).
    { rewrite SE in G. nia. }
    assert (B1 : in_box g (fst c, snd c + Z.of_nat m)%Z = true).
    { apply in_box_iff. cbn [fst snd]. unfold colrow, m', height in *. cbn [fst snd] in *. lia. }
    unfold content. rewrite B1. f_equal.
    destruct (slot_colrow g _ B1) as (SE1 & _ & _). rewrite SE, SE1.
    assert (m' = m) by (unfold colrow, m', height in *; cbn [fst snd] in *; lia).
    unfold colrow in *. cbn [fst snd] in *.
    replace (Z.to_nat (Z.of_nat (h_up g) - snd c))
      with (Z.to_nat (Z.of_nat (h_up g) - (snd c + Z.of_nat m)) + m) by lia. nia.
  - assert (RB : snd (colrow g c) < m').
    { rewrite SE in G. nia. }
    rewrite content_None_out; [reflexivity|].
    destruct (in_box g (fst c, snd c + Z.of_nat m)%Z) eqn:B1; auto.
    apply in_box_iff in B1. unfold colrow, m', height in *. cbn [fst snd] in *. lia.
Qed.

(** The four shifts in a row. *)
Lemma moves_spec g l r u d : length (cells g) = width g * height g ->
  l = 0 \/ r = 0 -> u = 0 \/ d = 0 ->
  exists g', (do g1 <- moveLeft g l; do g2 <- moveRight g1 r;
              do g3 <- moveUp g2 u; moveDown g3 d) = Ok g' /\ same_frame g g' /\
    forall c, content g' c =
      if in_box g c
      then content g (fst c + Z.of_nat l - Z.of_nat r, snd c + Z.of_nat d - Z.of_nat u)%Z
      else None.
Proof.
  intros HL HX HY.
  destruct (moveLeft_spec g l HL) as (g1 & E1 & S1 & C1).
  destruct (same_frame_dims _ _ S1) as [W1 H1].
  assert (L1 : length (cells g1) = width g1 * height g1)
    by (destruct S1 as (_&_&_&_&_&_&->); congruence).
  destruct (moveRight_spec g1 r L1) as (g2 & E2 & S2 & C2).
  destruct (same_frame_dims _ _ S2) as [W2 H2].
  assert (L2 : length (cells g2) = width g2 * height g2)
    by (destruct S2 as (_&_&_&_&_&_&->); congruence).
  destruct (moveUp_spec g2 u L2) as (g3 & E3 & S3 & C3).
  destruct (same_frame_dims _ _ S3) as [W3 H3].
  assert (L3 : length (cells g3) = width g3 * height g3)
    by (destruct S3 as (_&_&_&_&_&_&->); congruence).
  destruct (moveDown_spec g3 d L3) as (g4 & E4 & S4 & C4).
  exists g4. rewrite E1. cbn [bind]. rewrite E2. cbn [bind]. rewrite E3. cbn [bind].
  split; [exact E4|].
  assert (S12 := same_frame_trans _ _ _ S1 S2).
  assert (S13 := same_frame_trans _ _ _ S12 S3).
  assert (S14 := same_frame_trans _ _ _ S13 S4).
  split; [exact S14|]. intros [i j]. cbn [fst snd].
  rewrite C4, C3, C2, C1. cbn [fst snd].
  rewrite !(same_frame_box g g3) by assumption.
  rewrite !(same_frame_box g g2) by assumption.
  rewrite !(same_frame_box g g1) by assumption.
  destruct (in_box g (i, j)) eqn:B; [|reflexivity].
  (* intermediate windows: where an intermediate place is outside, the final
     place is outside as well *)
  set (src := (i + Z.of_nat l - Z.of_nat r, j + Z.of_nat d - Z.of_nat u)%Z).
  assert (OUT : forall c', (in_box g src = true -> in_box g c' = true) ->
      forall x, (in_box g src = true -> x = content g src) ->
      (in_box g src = false -> x = None) ->
      (if in_box g c' then x else None) = content g src).
  { intros c' Hc x Hx Hn. destruct (in_box g src) eqn:BS.
    - rewrite Hc by reflexivity. auto.
    - rewrite (content_None_out g src BS). rewrite Hn by reflexivity.
      destruct (in_box g c'); reflexivity. }
  apply in_box_iff in B. cbn [fst snd] in B.
  assert (BB : in_box g src = true ->
     (- Z.of_nat (w_left g) <= i + Z.of_nat l - Z.of_nat r <= Z.of_nat (w_right g) /\
      - Z.of_nat (h_down g) <= j + Z.of_nat d - Z.of_nat u <= Z.of_nat (h_up g))%Z).
  { intro BS. apply in_box_iff in BS. exact BS. }
  apply OUT; [intro BS; apply in_box_iff; cbn [fst snd]; specialize (BB BS); lia| |].
  - intro BS.
    apply OUT; [intro BS'; apply in_box_iff; cbn [fst snd]; specialize (BB BS'); lia| |].
    + intros _. 
      apply OUT; [intro BS'; apply in_box_iff; cbn [fst snd]; specialize (BB BS'); lia| |].
      * intros _. f_equal. unfold src. f_equal; lia.
      * intro; congruence.
    + intro; congruence.
  - intro BS.
    assert (ES : (i - Z.of_nat r + Z.of_nat l, j + Z.of_nat d - Z.of_nat u)%Z = src)
      by (unfold src; f_equal; lia).
    rewrite ES, (content_None_out g src BS).
    repeat match goal with |- context [if ?b then _ else _] => destruct b end; reflexivity.
Qed.

Lemma translate_discard_spec g tx ty : length (cells g) = width g * height g ->
  exists g', translate g tx ty true = Ok g' /\ same_frame g g' /\
    forall c, content g' c =
      if in_box g c then content g (fst c - tx, snd c - ty)%Z else None.
Proof.
  intro HL. unfold translate. cbn [bind].
  set (l := if (tx <? 0)%Z then Z.to_nat (Z.abs tx) else 0).
  set (r := if (tx <? 0)%Z then 0 else Z.to_nat tx).
  set (d := if (ty <? 0)%Z then Z.to_nat (ty * -1) else 0).
  set (u := if (ty <? 0)%Z then 0 else Z.to_nat ty).
  destruct (moves_spec g l r u d HL) as (g' & E & S & Hc).
  { unfold l, r. destruct (tx <? 0)%Z; auto. }
  { unfold u, d. destruct (ty <? 0)%Z; auto. }
  exists g'. split; [exact E|]. split; [exact S|]. intro c. rewrite Hc.
  destruct (in_box g c); [|reflexivity]. f_equal. f_equal.
  - unfold l, r. destruct (Z.ltb_spec tx 0); lia.
  - unfold u, d. destruct (Z.ltb_spec ty 0); lia.
Qed.

Lemma translate_keep_spec g tx ty : length (cells g) = width g * height g ->
  exists g', translate g tx ty false = Ok g' /\
    cell_size g' = cell_size g /\ n_valid g' = n_valid g /\
    length (cells g') = width g' * height g' /\
    (Z.of_nat (w_left g') = Z.of_nat (w_left g) + Z.max 0 (- tx) /\
     Z.of_nat (w_right g') = Z.of_nat (w_right g) + Z.max 0 tx /\
     Z.of_nat (h_up g') = Z.of_nat (h_up g) + Z.max 0 ty /\
     Z.of_nat (h_down g') = Z.of_nat (h_down g) + Z.max 0 (- ty))%Z /\
    forall c, content g' c = content g (fst c - tx, snd c - ty)%Z.
Proof.
  intro HL. unfold translate.
  set (l := if (tx <? 0)%Z then Z.to_nat (Z.abs tx) else 0).
  set (r := if (tx <? 0)%Z then 0 else Z.to_nat tx).
  set (d := if (ty <? 0)%Z then Z.to_nat (ty * -1) else 0).
  set (u := if (ty <? 0)%Z then 0 else Z.to_nat ty).
  destruct (enlargeGrid_spec g l r u d HL)
    as (g0 & E0 & A1 & A2 & A3 & A4 & A5 & A6 & A7 & A8).
  rewrite E0. cbn [bind].
  destruct (moves_spec g0 l r u d A7) as (g' & E & S & Hc).
  { unfold l, r. destruct (tx <? 0)%Z; auto. }
  { unfold u, d. destruct (ty <? 0)%Z; auto. }
  exists g'. split; [exact E|].
  destruct (same_frame_dims _ _ S) as [SW SH].
  assert (S' := S). destruct S' as (S1 & S2 & S3 & S4 & S5 & S6 & S7).
  split; [congruence|]. split; [congruence|]. split; [congruence|].
  assert (HT : (Z.of_nat l - Z.of_nat r = - tx /\ Z.of_nat d - Z.of_nat u = - ty)%Z).
  { unfold l, r, u, d. destruct (Z.ltb_spec tx 0), (Z.ltb_spec ty 0); lia. }
  assert (HM : (Z.of_nat l = Z.max 0 (- tx) /\ Z.of_nat r = Z.max 0 tx /\
                Z.of_nat u = Z.max 0 ty /\ Z.of_nat d = Z.max 0 (- ty))%Z).
  { unfold l, r, u, d. destruct (Z.ltb_spec tx 0), (Z.ltb_spec ty 0); lia. }
  clearbody l r u d.
  split; [lia|]. intro c. rewrite Hc, A8.
  replace (fst c + Z.of_nat l - Z.of_nat r)%Z with (fst c - tx)%Z by lia.
  replace (snd c + Z.of_nat d - Z.of_nat u)%Z with (snd c - ty)%Z by lia.
  destruct (in_box g0 c) eqn:B; [reflexivity|].
  symmetry. apply content_None_out.
  destruct (in_box g (fst c - tx, snd c - ty)%Z) eqn:B1; auto.
  apply in_box_iff in B1. cbn [fst snd] in B1.
  assert (in_box g0 c = true) by (apply in_box_iff; lia). congruence.
Qed.

End P.
