(** Proofs about the voxel grid: listing, neighbour windows, counting. *)
From Coq Require Import List ZArith QArith Qround Lqa Lia Bool Permutation.
From Coq Require Import ZifyBool ZifyNat.
From Verif Require Import Base QLemmas VoxelModel VoxelSpec VoxelProofs VoxelOps VoxelAdd.
From Coq Require Import FinFun.
Import ListNotations.
Open Scope nat_scope.

Lemma seq_shift_add a n : seq a n = map (fun k => a + k) (seq 0 n).
Proof.
  revert a; induction n as [|n IH]; intro a; [reflexivity|].
  cbn [seq map]. f_equal; [lia|].
  rewrite IH. rewrite <- seq_shift, map_map. apply map_ext. intro; lia.
Qed.

Lemma map_seq_rows {A} (f : nat -> A) w h :
  map f (seq 0 (w * h)) = flat_map (fun r => map (fun c => f (r * w + c)) (seq 0 w)) (seq 0 h).
Proof.
  induction h as [|h IH].
  - rewrite Nat.mul_0_r. reflexivity.
  - replace (w * S h) with (w * h + w) by lia.
    rewrite seq_app, map_app, IH, seq_S, flat_map_app. f_equal.
    cbn [flat_map plus]. rewrite app_nil_r.
    rewrite (seq_shift_add (w * h) w), map_map. apply map_ext. intro c.
    f_equal. lia.
Qed.

Lemma filter_flat_map {A B} (f : A -> list B) p l :
  filter p (flat_map f l) = flat_map (fun x => filter p (f x)) l.
Proof.
  induction l as [|x t IH]; simpl; auto. rewrite filter_app, IH. reflexivity.
Qed.

Lemma filter_map_comm {A B} (f : A -> B) p l :
  filter p (map f l) = map f (filter (fun x => p (f x)) l).
Proof.
  induction l as [|x t IH]; simpl; auto. destruct (p (f x)); simpl; rewrite IH; auto.
Qed.

Lemma filter_seq_range a b n :
  filter (fun k => (a <=? k) && (k <? b)) (seq 0 n) = seq a (Nat.min b n - a).
Proof.
  induction n as [|n IH].
  - simpl. replace (Nat.min b 0 - a) with 0 by lia. reflexivity.
  - rewrite seq_S, filter_app, IH. cbn [filter plus].
    destruct (Nat.leb_spec a n), (Nat.ltb_spec n b); simpl.
    + replace (Nat.min b (S n) - a) with (S (Nat.min b n - a)) by lia.
      rewrite seq_S. f_equal. f_equal. lia.
    + rewrite app_nil_r. f_equal. lia.
    + rewrite app_nil_r. f_equal. lia.
    + rewrite app_nil_r. f_equal. lia.
Qed.

Lemma flat_map_if {A B} (p : A -> bool) (f : A -> list B) l :
  flat_map (fun x => if p x then f x else []) l = flat_map f (filter p l).
Proof.
  induction l as [|x t IH]; simpl; auto. destruct (p x); simpl; rewrite IH; auto.
Qed.

Lemma flat_map_ext_in {A B} (f g : A -> list B) l :
  (forall x, In x l -> f x = g x) -> flat_map f l = flat_map g l.
Proof.
  induction l as [|x t IH]; simpl; intro H; auto. rewrite H by auto. rewrite IH; auto.
Qed.

Lemma foldM_app_acc {I A} (f : I -> res (list A)) (g : I -> list A) l : forall acc,
  (forall i, In i l -> f i = Ok (g i)) ->
  foldM (fun acc i => do r <- f i; Ok (acc ++ r)) l acc = Ok (acc ++ flat_map g l).
Proof.
  induction l as [|i t IH]; intros acc H; simpl.
  - rewrite app_nil_r. reflexivity.
  - rewrite H by (left; auto). cbn [bind]. rewrite IH by (intros; apply H; right; auto).
    rewrite app_assoc. reflexivity.
Qed.

Lemma map_NoDup_in {A B} (f : A -> B) l :
  (forall a b, In a l -> In b l -> f a = f b -> a = b) -> NoDup l -> NoDup (map f l).
Proof.
  intros H N. induction N as [|x t Hx N IH]; simpl; constructor.
  - rewrite in_map_iff. intros (y & E & Hy). apply Hx.
    rewrite (H x y); [auto|left; auto|right; auto|auto].
  - apply IH. intros a b Ha Hb. apply H; right; auto.
Qed.

Section P.
Context {C : Type}.
Implicit Type g : vgrid C.

Lemma window_cell_at g : window g = map (cell_at g) (seq 0 (width g * height g)).
Proof.
  unfold window, zrange. rewrite map_seq_rows. apply flat_map_ext.
  intro r. rewrite map_map. apply map_ext_in. intros k Hk. apply in_seq in Hk.
  unfold cell_at. destruct (divmod_unique (width g) r k ltac:(lia)) as [-> ->].
  f_equal. lia.
Qed.

Lemma window_In g c : In c (window g) <-> in_box g c = true.
Proof.
  rewrite window_cell_at, in_map_iff. split.
  - intros (k & E & Hk). apply in_seq in Hk. subst c. apply cell_at_box. lia.
  - intro B. exists (slot_of g c). split; [apply cell_at_slot; auto|].
    apply in_seq. pose proof (slot_lt g c B). lia.
Qed.

Lemma window_NoDup g : NoDup (window g).
Proof.
  rewrite window_cell_at. apply map_NoDup_in; [|apply seq_NoDup].
  intros a b Ha Hb E. apply in_seq in Ha. apply in_seq in Hb.
  destruct (cell_at_box g a ltac:(lia)) as [_ <-].
  destruct (cell_at_box g b ltac:(lia)) as [_ <-]. rewrite E. reflexivity.
Qed.

Lemma map_nth_seq {A} (l : list A) d : map (fun k => nth k l d) (seq 0 (length l)) = l.
Proof.
  induction l as [|h t IH]; [reflexivity|]. cbn [length seq map nth]. f_equal.
  rewrite <- seq_shift, map_map. exact IH.
Qed.

Lemma cells_window g : wf g -> cells g = map (content g) (window g).
Proof.
  intro W. rewrite window_cell_at, map_map.
  rewrite <- (map_nth_seq (cells g) None) at 1. rewrite (wf_len g W).
  apply map_ext_in. intros k Hk. apply in_seq in Hk. rewrite content_cell_at; [auto|lia].
Qed.

(** ** getValidCells *)
Definition opt_list {A} (o : option A) : list A := match o with Some v => [v] | None => [] end.

Lemma getValidCells_fold (l : list (option C)) : forall acc,
  fold_left (fun acc c => match c with Some v => acc ++ [v] | None => acc end) l acc
  = acc ++ flat_map opt_list l.
Proof.
  induction l as [|[v|] t IH]; intros acc; simpl.
  - rewrite app_nil_r. reflexivity.
  - rewrite IH, <- app_assoc. reflexivity.
  - apply IH.
Qed.

Lemma getValidCells_spec g : wf g ->
  map Some (getValidCells g) = map (content g) (filter (present g) (window g)).
Proof.
  intro W. unfold getValidCells. rewrite getValidCells_fold. simpl.
  rewrite (cells_window g W). generalize (window g). intro l.
  induction l as [|c t IH]; simpl; [reflexivity|].
  unfold present at 1. destruct (content g c) as [v|] eqn:E; simpl; rewrite IH; auto.
  rewrite E. reflexivity.
Qed.

(** ** getNeighbors *)
Definition ex_slot g (k : nat) : bool :=
  match nth k (cells g) None with Some _ => true | None => false end.

Lemma windowRow_spec g lft rgt row : wf g -> row < height g -> rgt <= width g ->
  windowRow g lft rgt row =
  Ok (filter (ex_slot g) (map (fun col => row * width g + col) (seq lft (rgt - lft)))).
Proof.
  intros W Hr Hg. unfold windowRow.
  assert (G : forall l acc, (forall col, In col l -> col < width g) ->
    foldM (fun acc col =>
             let idx := calcIndexC g (col, row) in
             do c <- vget (cells g) idx;
             Ok (match c with Some _ => acc ++ [idx] | None => acc end)) l acc
    = Ok (acc ++ filter (ex_slot g) (map (fun col => row * width g + col) l))).
  { induction l as [|col t IH]; intros acc H; cbn [foldM map filter].
    - rewrite app_nil_r. reflexivity.
    - cbn zeta. unfold calcIndexC at 1 2. cbn [fst snd].
      assert (Hc : col < width g) by (apply H; left; auto).
      rewrite (vget_nth _ _ None) by (rewrite (wf_len g W); nia). cbn [bind].
      rewrite IH by (intros; apply H; right; auto).
      destruct (ex_slot g (row * width g + col)) eqn:EX; unfold ex_slot in EX;
        destruct (nth (row * width g + col) (cells g) None); try discriminate.
      + rewrite <- app_assoc. reflexivity.
      + reflexivity. }
  rewrite G; [reflexivity|]. intros col Hc. apply in_seq in Hc. lia.
Qed.

(** filtering the window by a rectangle of columns and rows *)
Lemma window_rect g i j R : wf g -> in_box g (i, j) = true ->
  let col := Z.to_nat (i + Z.of_nat (w_left g)) in
  let row := Z.to_nat (Z.of_nat (h_up g) - j) in
  map (slot_of g) (filter (fun d => within_b (Z.of_nat R) (i, j) d && present g d) (window g)) =
  flat_map (fun r => filter (ex_slot g) (map (fun c => r * width g + c)
              (seq (col - R) (Nat.min (col + R + 1) (width g) - (col - R)))))
    (seq (row - R) (Nat.min (row + R + 1) (height g) - (row - R))).
Proof.
  intros W B col row. apply in_box_iff in B. cbn [fst snd] in B.
  rewrite window_cell_at.
  rewrite filter_map_comm, map_map.
  set (P := fun k => within_b (Z.of_nat R) (i, j) (cell_at g k) && present g (cell_at g k)).
  transitivity (filter P (seq 0 (width g * height g))).
  { rewrite <- (map_id (filter P _)) at 2. apply map_ext_in. intros k Hk.
    apply filter_In in Hk. destruct Hk as [Hk _]. apply in_seq in Hk.
    apply cell_at_box. lia. }
  rewrite <- (map_id (seq 0 (width g * height g))), map_seq_rows, filter_flat_map.
  transitivity (flat_map (fun r => if (row - R <=? r) && (r <? row + R + 1) then
      filter (ex_slot g) (map (fun c => r * width g + c)
              (seq (col - R) (Nat.min (col + R + 1) (width g) - (col - R)))) else [])
      (seq 0 (height g))).
  2:{ rewrite flat_map_if, filter_seq_range. reflexivity. }
  apply flat_map_ext_in. intros r Hr. apply in_seq in Hr.
  rewrite !filter_map_comm, <- filter_seq_range.
  assert (HP : forall c, c < width g -> P (r * width g + c) =
     ((row - R <=? r) && (r <? row + R + 1)) &&
     (((col - R <=? c) && (c <? col + R + 1)) && ex_slot g (r * width g + c))).
  { intros c Hc. unfold P.
    assert (LT : r * width g + c < width g * height g) by nia.
    assert (PR : present g (cell_at g (r * width g + c)) = ex_slot g (r * width g + c)).
    { unfold present, ex_slot. rewrite content_cell_at by auto. reflexivity. }
    rewrite PR.
    unfold cell_at. destruct (divmod_unique (width g) r c Hc) as [-> ->].
    unfold within_b. cbn [fst snd].
    assert (E1 : (Z.abs (i - (Z.of_nat c - Z.of_nat (w_left g))) <=? Z.of_nat R)%Z =
                 ((col - R <=? c) && (c <? col + R + 1))) by (unfold col; lia).
    assert (E2 : (Z.abs (j - (Z.of_nat (h_up g) - Z.of_nat r)) <=? Z.of_nat R)%Z =
                 ((row - R <=? r) && (r <? row + R + 1))) by (unfold row; lia).
    rewrite E1, E2.
    destruct (((col - R <=? c) && (c <? col + R + 1))), ((row - R <=? r) && (r <? row + R + 1));
      reflexivity. }
  destruct ((row - R <=? r) && (r <? row + R + 1)) eqn:ER.
  - f_equal. 
    assert (FF : forall (p q : nat -> bool) l, filter p (filter q l) = filter (fun x => q x && p x) l).
    { intros p q l. induction l as [|x t IH]; simpl; auto.
      destruct (q x); simpl; [destruct (p x)|]; rewrite IH; auto. }
    rewrite FF. apply filter_ext_in. intros c Hc. apply in_seq in Hc.
    rewrite HP by lia. reflexivity.
  - replace (filter _ (seq 0 (width g))) with (@nil nat); [reflexivity|].
    symmetry. assert (FN : forall (p : nat -> bool) l, (forall x, In x l -> p x = false) -> filter p l = []).
    { intros p l. induction l as [|x t IH]; simpl; intro H; auto.
      rewrite H by auto. apply IH. auto. }
    apply FN. intros c Hc. apply in_seq in Hc. rewrite HP by lia. reflexivity.
Qed.

Lemma getNeighbors_spec g p c R : wf g -> in_cell (cell_size g) c p -> in_box g c = true ->
  getNeighbors g p R =
  Ok (map (slot_of g)
          (filter (fun d => within_b (Z.of_nat R) c d && present g d) (window g))).
Proof.
  intros W IC B. pose proof (wf_cs g W) as HC.
  assert (CO : cell_of (cell_size g) p = c) by (apply in_cell_unique; auto).
  destruct (lookup_in g p c W IC B) as (I & EX & _ & _).
  unfold getNeighbors. rewrite I. cbn [negb].
  destruct c as [i j]. rewrite window_rect by auto.
  destruct (slot_colrow g _ B) as (SE & CB & RB).
  set (col := Z.to_nat (i + Z.of_nat (w_left g))) in *.
  set (row := Z.to_nat (Z.of_nat (h_up g) - j)) in *.
  change (colrow g (i, j)) with (col, row) in *. cbn [fst snd] in SE, CB, RB.
  destruct (Nat.eqb_spec R 0) as [->|HR].
  - rewrite EX. cbn [bind].
    replace (Nat.min (col + 0 + 1) (width g) - (col - 0)) with 1 by lia.
    replace (Nat.min (row + 0 + 1) (height g) - (row - 0)) with 1 by lia.
    rewrite !Nat.sub_0_r. cbn [seq flat_map map filter]. rewrite app_nil_r.
    rewrite <- SE. unfold ex_slot, content. rewrite B.
    destruct (nth (slot_of g (i, j)) (cells g) None).
    + rewrite calcIndex_box by (auto; rewrite CO; auto). rewrite CO. reflexivity.
    + reflexivity.
  - rewrite calcCoordinates_box by (auto; rewrite CO; auto). rewrite CO. cbn [bind].
    change (colrow g (i, j)) with (col, row). cbn [fst snd].
    rewrite (foldM_app_acc (windowRow g (col - R) (Nat.min (col + R + 1) (width g)))
      (fun r => filter (ex_slot g) (map (fun c => r * width g + c)
              (seq (col - R) (Nat.min (col + R + 1) (width g) - (col - R)))))).
    + reflexivity.
    + intros r Hr. apply in_seq in Hr. apply windowRow_spec; auto; lia.
Qed.

Lemma getNeighbors_out g p R : isInside g p = false -> getNeighbors g p R = Ok [].
Proof. intro I. unfold getNeighbors. rewrite I. reflexivity. Qed.

(** ** counting *)
Lemma n_cells_window g : wf g -> n_cells g = Z.of_nat (length (filter (present g) (window g))).
Proof.
  intro W. unfold n_cells. f_equal. rewrite (cells_window g W), filter_map_comm, map_length.
  reflexivity.
Qed.

Lemma present_In g c : In c (filter (present g) (window g)) <-> content g c <> None.
Proof.
  rewrite filter_In, window_In. unfold present. split.
  - intros [_ H]. destruct (content g c); congruence.
  - intro H. split.
    + destruct (in_box g c) eqn:B; auto. rewrite content_None_out in H by auto. congruence.
    + destruct (content g c); congruence.
Qed.

(** The number of cells is determined by the contents (up to a relabelling). *)
Lemma n_cells_bij g g' (f : pcell -> pcell) : wf g -> wf g' ->
  (forall a b, f a = f b -> a = b) ->
  (forall c, content g c <> None <-> content g' (f c) <> None) ->
  (forall d, content g' d <> None -> exists c, d = f c) ->
  n_cells g' = n_cells g.
Proof.
  intros W W' INJ H1 H2. rewrite !n_cells_window by auto. f_equal.
  rewrite <- (map_length f (filter (present g) (window g))).
  apply Permutation_length. apply NoDup_Permutation.
  - apply NoDup_filter, window_NoDup.
  - apply FinFun.Injective_map_NoDup; [exact INJ|]. apply NoDup_filter, window_NoDup.
  - intro d. rewrite present_In, in_map_iff. split.
    + intro H. destruct (H2 d H) as (c & ->). exists c. split; auto.
      apply present_In. apply H1. auto.
    + intros (c & <- & Hc). apply present_In in Hc. apply H1. auto.
Qed.

Lemma n_cells_same g g' : wf g -> wf g' ->
  (forall c, content g' c = content g c) -> n_cells g' = n_cells g.
Proof.
  intros W W' H. apply (n_cells_bij g g' (fun c => c)); auto.
  - intro c. rewrite H. tauto.
  - eauto.
Qed.

Lemma count_upd (l : list (option C)) k v : k < length l ->
  Z.of_nat (length (filter (fun c => match c with Some _ => true | None => false end) (upd l k v)))
  = (Z.of_nat (length (filter (fun c => match c with Some _ => true | None => false end) l))
    + (match v with Some _ => 1 | None => 0 end)
    - (match nth k l None with Some _ => 1 | None => 0 end))%Z.
Proof.
  revert k; induction l as [|h t IH]; intros k Hk; [simpl in Hk; lia|].
  destruct k as [|k]; cbn [upd filter nth].
  - destruct v, h; cbn [length]; lia.
  - simpl in Hk. specialize (IH k ltac:(lia)). destruct h; cbn [length]; lia.
Qed.

End P.
