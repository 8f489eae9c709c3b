(** Histories of voxel grid operations: invariants by induction. *)
From Coq Require Import List ZArith QArith Qround Qabs Qminmax Lqa Lia Bool.
From Coq Require Import ZifyBool ZifyNat.
From Verif Require Import Base QLemmas VoxelModel VoxelSpec VoxelProofs VoxelOps VoxelAdd VoxelQuery VoxelRay.
Import ListNotations.
Open Scope nat_scope.

Section P.
Context {C : Type}.
Variable mrg : C -> C -> C.
Variable dflt : C.
Implicit Type g : vgrid C.

Lemma grows_refl g : grows g g.
Proof. unfold grows. repeat split; lia. Qed.
Lemma grows_trans (a b c : vgrid C) : grows a b -> grows b c -> grows a c.
Proof.
  unfold grows. intros ((A1 & A2 & A3 & A4) & A5) ((B1 & B2 & B3 & B4) & B5).
  repeat split; try lia. congruence.
Qed.
Lemma same_frame_grows g g' : same_frame g g' -> grows g g'.
Proof.
  intros (A & B & D & E & F & _). unfold grows. rewrite A, B, D, E. repeat split; auto.
Qed.

Lemma touch_len (l l' : list (option C)) i : touch dflt l i = Ok l' -> length l' = length l.
Proof.
  unfold touch. intro H. apply bind_ok_inv in H. destruct H as (c & _ & H).
  injection H as <-. destruct c; [reflexivity|]. apply length_upd.
Qed.

Lemma rayStep_len g delta st : length (r_cells st) = length (cells g) ->
  match rayStep dflt g delta st with
  | Next st' | Break st' => length (r_cells st') = length (cells g)
  | Fail => True
  end.
Proof.
  intro L. unfold rayStep.
  destruct (if r_cur st =? r_old st then Ok (r_cells st, r_res st)
            else do l <- touch dflt (r_cells st) (r_cur st); Ok (l, r_res st ++ [r_cur st]))
    as [[l out]| |] eqn:E; auto.
  assert (LL : length l = length (cells g)).
  { destruct (r_cur st =? r_old st).
    - injection E as <- _. exact L.
    - apply bind_ok_inv in E. destruct E as (l1 & T & E). injection E as <- _.
      rewrite (touch_len _ _ _ T). exact L. }
  cbv zeta.
  match goal with |- context [if ?b then _ else _] => destruct b end; [exact LL|].
  destruct (calcIndex g _); auto.
Qed.

Lemma ray_iter_len g delta n : forall st, length (r_cells st) = length (cells g) ->
  match iter_nat n (rayStep dflt g delta) st with
  | Next st' | Break st' => length (r_cells st') = length (cells g)
  | Fail => True
  end.
Proof.
  induction n as [|n IH]; intros st L; cbn [iter_nat]; [exact L|].
  pose proof (rayStep_len g delta st L) as S.
  destruct (rayStep dflt g delta st) as [st1|st1|]; [apply IH; exact S|exact S|exact I].
Qed.

Lemma rayTrace_frame g s e g' out : rayTrace dflt g s e = Ok (g', out) -> same_frame g g'.
Proof.
  unfold rayTrace. destruct (isInside g s); cbn [negb].
  2: { intro H. injection H as <- _. apply same_frame_refl. }
  intro H. apply bind_ok_inv in H. destruct H as (i0 & _ & H).
  apply bind_ok_inv in H. destruct H as (l0 & T & H).
  destruct (Qeq_bool _ _); [discriminate|]. rewrite iter_N_nat in H.
  pose proof (ray_iter_len g (ray_delta g s e) (N.to_nat (ray_count g s e))
    (mkRay l0 [i0] s i0 i0) (touch_len _ _ _ T)) as L.
  destruct (iter_nat _ _ _) as [st|st|]; try discriminate; injection H as <- _;
    apply same_frame_with_cells; auto.
Qed.

Lemma addCell_wf g p v m g' : wf g -> addCell mrg g p v m = Ok g' -> wf g' /\ grows g g'.
Proof.
  intros W H. pose proof (wf_cs g W) as HC.
  destruct (enlargeToFit_spec g p _ W (cell_of_in _ p HC)) as (g1 & E & W1 & G1 & _).
  unfold addCell in H. rewrite E in H. cbn [bind] in H.
  apply bind_ok_inv in H. destruct H as (i & _ & H).
  apply bind_ok_inv in H. destruct H as (o & _ & H).
  assert (X : exists x, (g' = with_cells g1 (upd (cells g1) i x) \/
     exists z, g' = with_valid (with_cells g1 (upd (cells g1) i x)) z)).
  { destruct o as [o|]; injection H as <-; eexists; [left|right]; eauto. }
  destruct X as (x & X). destruct W1 as [W1 W2].
  destruct X as [->|(z & ->)]; (split; [split; [exact W1|]|exact G1]);
    unfold width, height in *; simpl; rewrite length_upd; exact W2.
Qed.

Lemma removeCell_wf g p r : wf g -> removeCell g p = Ok r -> wf (fst r) /\ grows g (fst r).
Proof.
  intros W H. unfold removeCell in H. destruct (isInside g p); cbn [negb] in H.
  2: { injection H as <-. split; [exact W|apply grows_refl]. }
  apply bind_ok_inv in H. destruct H as (i & _ & H).
  apply bind_ok_inv in H. destruct H as (o & _ & H). injection H as <-. cbn [fst].
  destruct W as [W1 W2]. split; [|unfold grows; repeat split; cbn; lia].
  split; [exact W1|]. unfold width, height in *; simpl. rewrite length_upd. exact W2.
Qed.

Lemma vstep_wf g o g' : wf g -> vstep mrg dflt g o = Ok g' -> wf g' /\ grows g g'.
Proof.
  intros W H. destruct o as [p v m|p|a b x y|tx ty d| |s e]; cbn [vstep] in H.
  - eapply addCell_wf; eauto.
  - apply bind_ok_inv in H. destruct H as (r & R & H). injection H as <-.
    eapply removeCell_wf; eauto.
  - destruct (enlarge_spec g a b x y W) as (g1 & E & W1 & G1 & _).
    rewrite E in H. injection H as <-. auto.
  - pose proof (wf_len g W) as L. destruct d.
    + destruct (translate_discard_spec g tx ty L) as (g1 & E & SF & _).
      rewrite E in H. injection H as <-. split; [eapply same_frame_wf; eauto|].
      apply same_frame_grows; auto.
    + destruct (translate_keep_spec g tx ty L) as (g1 & E & CS & _ & L1 & (A & B & D & F) & _).
      rewrite E in H. injection H as <-. split.
      * split; [rewrite CS; apply wf_cs; auto|exact L1].
      * unfold grows. repeat split; try lia. exact CS.
  - injection H as <-. destruct (clear_spec g W) as (W1 & _ & A & B & D & E & F & _).
    split; [exact W1|]. unfold grows. rewrite A, B, D, E. repeat split; auto.
  - apply bind_ok_inv in H. destruct H as ((g1 & out) & R & H). injection H as <-. cbn [fst].
    pose proof (rayTrace_frame _ _ _ _ _ R) as SF.
    split; [eapply same_frame_wf; eauto|apply same_frame_grows; auto].
Qed.

Lemma vrun_wf l : forall g g', wf g -> vrun mrg dflt g l = Ok g' -> wf g' /\ grows g g'.
Proof.
  induction l as [|o t IH]; intros g g' W H; unfold vrun in H; cbn [foldM] in H.
  - injection H as <-. split; [exact W|apply grows_refl].
  - apply bind_ok_inv in H. destruct H as (g1 & E & H).
    destruct (vstep_wf _ _ _ W E) as [W1 G1].
    destruct (IH _ _ W1 H) as [W2 G2]. split; [exact W2|].
    eapply grows_trans; eauto.
Qed.

Lemma vempty_wf cs : (0 < cs)%Q -> wf (setCellSize (vempty dflt) cs).
Proof. intro H. split; [exact H|reflexivity]. Qed.

(** ** steps that are always defined *)

Lemma inside_box g p : wf g -> isInside g p = true ->
  (forall c, in_cell (cell_size g) c p -> ~ on_outer_edge g c p) ->
  in_box g (cell_of (cell_size g) p) = true.
Proof.
  intros W I H. pose proof (wf_cs g W) as HC.
  destruct (in_box g (cell_of (cell_size g) p)) eqn:B; [reflexivity|].
  destruct (lookup_edge g p _ W (cell_of_in _ p HC) I B) as [E _].
  destruct (H _ (cell_of_in _ p HC) E).
Qed.

Lemma vstep_defined g o : wf g -> safe_op g o -> exists g', vstep mrg dflt g o = Ok g'.
Proof.
  intros W S. pose proof (wf_cs g W) as HC. pose proof (wf_len g W) as L.
  destruct o as [p v m|p|a b x y|tx ty d| |s e]; cbn [vstep safe_op] in *.
  - destruct (addCell_spec mrg g p _ v m W (cell_of_in _ p HC) (S _ (cell_of_in _ p HC)))
      as (g' & E & _). eauto.
  - destruct (isInside g p) eqn:I.
    + destruct (removeCell_in g p _ W (cell_of_in _ p HC) (inside_box g p W I S))
        as (g' & E & _). rewrite E. cbn. eauto.
    + rewrite (removeCell_out g p I). cbn. eauto.
  - destruct (enlarge_spec g a b x y W) as (g1 & E & _). eauto.
  - destruct d.
    + destruct (translate_discard_spec g tx ty L) as (g1 & E & _). eauto.
    + destruct (translate_keep_spec g tx ty L) as (g1 & E & _). eauto.
  - eauto.
  - destruct S as [S NZ]. destruct (isInside g s) eqn:I.
    + destruct (rayTrace_general dflt g s e _ W (cell_of_in _ s HC) (inside_box g s W I S) NZ)
        as (g' & k & E & _). rewrite E. cbn. eauto.
    + rewrite (rayTrace_outside dflt g s e I). cbn. eauto.
Qed.

(** ** the counter *)
Definition count_ok g : Prop := n_valid g = u64 (n_cells g).

Lemma u64_add a b : u64 (u64 a + b) = u64 (a + b).
Proof. unfold u64. rewrite Zplus_mod_idemp_l. reflexivity. Qed.

Lemma addCell_count g p v m g' : wf g -> count_ok g -> addCell mrg g p v m = Ok g' -> count_ok g'.
Proof.
  intros W K H. pose proof (wf_cs g W) as HC.
  destruct (enlargeToFit_spec g p _ W (cell_of_in _ p HC)) as (g1 & E & W1 & G1 & NV & CT & _).
  unfold addCell in H. rewrite E in H. cbn [bind] in H.
  apply bind_ok_inv in H. destruct H as (i & _ & H).
  apply bind_ok_inv in H. destruct H as (o & O & H).
  assert (NC : n_cells g1 = n_cells g) by (apply n_cells_same; auto).
  assert (LI : i < length (cells g1)).
  { destruct (Nat.lt_ge_cases i (length (cells g1))) as [X|X]; [exact X|].
    rewrite vget_oob in O by auto. discriminate. }
  rewrite (vget_nth _ _ None LI) in O. injection O as O.
  unfold count_ok in *. destruct o as [o|]; injection H as <-;
    unfold n_cells in *; cbn [cells n_valid with_cells with_valid].
  - rewrite count_upd by auto. rewrite O, NV, K, <- NC. f_equal. lia.
  - rewrite count_upd by auto. rewrite O, NV, K, <- NC, u64_add. f_equal. lia.
Qed.

Lemma removeCell_count g p r : count_ok g -> removeCell g p = Ok r -> count_ok (fst r).
Proof.
  intros K H. unfold removeCell in H. destruct (isInside g p); cbn [negb] in H.
  2: { injection H as <-. exact K. }
  apply bind_ok_inv in H. destruct H as (i & _ & H).
  apply bind_ok_inv in H. destruct H as (o & O & H). injection H as <-. cbn [fst].
  assert (LI : i < length (cells g)).
  { destruct (Nat.lt_ge_cases i (length (cells g))) as [X|X]; [exact X|].
    rewrite vget_oob in O by auto. discriminate. }
  rewrite (vget_nth _ _ None LI) in O. injection O as O.
  unfold count_ok, n_cells in *. cbn [cells n_valid with_cells with_valid].
  rewrite count_upd by auto. rewrite O. destruct o; rewrite K.
  - unfold Z.sub. rewrite u64_add. f_equal. lia.
  - f_equal. lia.
Qed.

Lemma vstep_count g o g' : wf g -> count_ok g -> counting o = true ->
  vstep mrg dflt g o = Ok g' -> count_ok g'.
Proof.
  intros W K T H. destruct o as [p v m|p|a b x y|tx ty d| |s e]; cbn [vstep counting] in *;
    try discriminate.
  - eapply addCell_count; eauto.
  - apply bind_ok_inv in H. destruct H as (r & R & H). injection H as <-.
    eapply removeCell_count; eauto.
  - destruct (enlarge_spec g a b x y W) as (g1 & E & W1 & _ & NV & CT & _).
    rewrite E in H. injection H as <-. unfold count_ok. rewrite NV, K.
    f_equal. symmetry. apply n_cells_same; auto.
  - destruct d; [discriminate|].
    destruct (translate_keep_spec g tx ty (wf_len g W)) as (g1 & E & CS & NV & L1 & _ & CT).
    rewrite E in H. injection H as <-. unfold count_ok. rewrite NV, K. f_equal. symmetry.
    assert (W1 : wf g1) by (split; [rewrite CS; apply wf_cs; auto|exact L1]).
    apply (n_cells_bij g g1 (fun c => (fst c + tx, snd c + ty)%Z)); auto.
    + intros [a b] [a' b'] Q. cbn in Q. injection Q as Q1 Q2. f_equal; lia.
    + intro c. rewrite CT. cbn [fst snd].
      replace (fst c + tx - tx, snd c + ty - ty)%Z with c
        by (destruct c; cbn; f_equal; lia). tauto.
    + intros [a b] Hd. exists (a - tx, b - ty)%Z. cbn. f_equal; lia.
Qed.

Lemma vrun_count l : forall g g', wf g -> count_ok g -> forallb counting l = true ->
  vrun mrg dflt g l = Ok g' -> count_ok g'.
Proof.
  induction l as [|o t IH]; intros g g' W K T H; unfold vrun in H; cbn [foldM] in H.
  - injection H as <-. exact K.
  - apply bind_ok_inv in H. destruct H as (g1 & E & H).
    cbn [forallb] in T. apply andb_true_iff in T. destruct T as [T1 T2].
    destruct (vstep_wf _ _ _ W E) as [W1 _].
    apply (IH g1 g' W1 (vstep_count _ _ _ W K T1 E) T2 H).
Qed.

(** ** rays, final form *)
Lemma ray_count_val g s e : (1 <= ray_len g s e)%Q -> (ray_len g s e < inject_Z (2^63))%Q ->
  N.to_nat (ray_count g s e) = 2 * Z.to_nat (Qfloor (ray_len g s e)) - 1.
Proof.
  intros A B. unfold ray_count.
  assert (F1 : (1 <= Qfloor (ray_len g s e))%Z).
  { pose proof (Qfloor_resp_le _ _ A) as X. exact X. }
  assert (F2 : (Qfloor (ray_len g s e) < 2^63)%Z).
  { apply inj_lt. eapply Qle_lt_trans; [apply Qfloor_le|exact B]. }
  generalize dependent (Qfloor (ray_len g s e)). intros z F1 F2.
  rewrite u64_id by lia. lia.
Qed.

Lemma rayTrace_final g s e c0 :
  wf g -> in_cell (cell_size g) c0 s -> in_box g c0 = true ->
  (1 <= seg_len (cell_size g) s e)%Q -> (seg_len (cell_size g) s e < inject_Z (2^63))%Q ->
  exists g' path,
    rayTrace dflt g s e = Ok (g', map (slot_of g) (dedup path)) /\
    (forall k d, nth_error path k = Some d ->
       in_cell (cell_size g) d (ray_sample (cell_size g) s e k) /\ in_box g d = true) /\
    (forall k, (0 < k < length path) -> strictly_inside g (ray_sample (cell_size g) s e k)) /\
    (1 <= length path <= 2 * Z.to_nat (Qfloor (seg_len (cell_size g) s e)) - 1) /\
    (length path = 2 * Z.to_nat (Qfloor (seg_len (cell_size g) s e)) - 1 \/
     ~ strictly_inside g (ray_sample (cell_size g) s e (length path))) /\
    (exists rest, dedup path = c0 :: rest /\ step_chain c0 rest) /\
    wf g' /\ same_frame g g' /\
    (forall c, content g' c =
       if existsb (pcell_eqb c) path
       then Some (match content g c with Some v => v | None => dflt end)
       else content g c).
Proof.
  intros W IC B L1 L2. pose proof (wf_cs g W) as HC.
  change (seg_len (cell_size g) s e) with (ray_len g s e) in *.
  assert (LP : (0 < ray_len g s e)%Q) by (eapply Qlt_le_trans; [|exact L1]; reflexivity).
  assert (NZ : ~ (ray_len g s e == 0)%Q).
  { intro X. rewrite X in LP. apply (Qlt_irrefl 0 LP). }
  destruct (rayTrace_general dflt g s e c0 W IC B NZ)
    as (g' & m & E & M & ST & BX & SI & W' & SF & CT).
  pose proof (ray_count_val g s e L1 L2) as RC. rewrite RC in M, ST.
  assert (F1 : (1 <= Qfloor (ray_len g s e))%Z) by (apply (Qfloor_resp_le _ _ L1)).
  exists g', (trail g (ray_delta g s e) s m).
  pose proof (fun k => samp_sample g s e k HC LP) as SS.
  split; [exact E|]. rewrite trail_length. split.
  { intros k d Hk.
    assert (KM : k < m).
    { rewrite <- (trail_length g (ray_delta g s e) s m). apply nth_error_Some. congruence. }
    apply (nth_error_nth _ _ (0, 0)%Z) in Hk. rewrite trail_nth in Hk by auto. subst d.
    split; [|apply BX; auto]. destruct (SS k) as [A1 A2].
    eapply in_cell_ext; [exact A1|exact A2|]. apply cell_of_in; auto. }
  split.
  { intros k Hk. destruct (SS k) as [A1 A2].
    eapply strictly_inside_ext; [exact A1|exact A2|]. apply SI; auto. }
  split; [lia|]. split.
  { destruct ST as [ST|ST]; [left; lia|right]. intro X. apply ST. destruct (SS m) as [A1 A2].
    eapply strictly_inside_ext; [symmetry; exact A1|symmetry; exact A2|exact X]. }
  split.
  { assert (CO : cell_of (cell_size g) s = c0) by (apply in_cell_unique; auto).
    rewrite <- CO. apply trail_chain; auto. lia. }
  split; [exact W'|]. split; [exact SF|exact CT].
Qed.

(** Every reported cell contains a point of the segment strictly before its end. *)
Lemma rayTrace_before_end g s e c0 g' out :
  wf g -> in_cell (cell_size g) c0 s -> in_box g c0 = true ->
  (1 <= seg_len (cell_size g) s e)%Q -> (seg_len (cell_size g) s e < inject_Z (2^63))%Q ->
  rayTrace dflt g s e = Ok (g', out) ->
  forall i, In i out -> exists d t, i = slot_of g d /\ in_box g d = true /\
    (0 <= t < 1)%Q /\ in_cell (cell_size g) d (seg_point s e t) /\ content g' d <> None.
Proof.
  intros W IC B L1 L2 R i Hi.
  destruct (rayTrace_final g s e c0 W IC B L1 L2)
    as (g1 & path & E & P & _ & LN & _ & _ & _ & _ & CT).
  rewrite E in R. injection R as <- <-.
  apply in_map_iff in Hi. destruct Hi as (d & <- & Hd). apply (proj1 (dedup_In _ _)) in Hd.
  destruct (In_nth_error _ _ Hd) as (k & Hk).
  destruct (P k d Hk) as [P1 P2].
  assert (KM : k < length path) by (apply nth_error_Some; congruence).
  exists d, (inject_Z (Z.of_nat k) / (2 * seg_len (cell_size g) s e))%Q.
  split; [reflexivity|]. split; [exact P2|]. split.
  - set (L := seg_len (cell_size g) s e) in *.
    assert (LP : (0 < L)%Q) by (eapply Qlt_le_trans; [|exact L1]; reflexivity).
    assert (F1 : (1 <= Qfloor L)%Z) by (apply (Qfloor_resp_le _ _ L1)).
    assert (KB : (Z.of_nat k < 2 * Qfloor L)%Z) by lia.
    apply lt_inj in KB. rewrite inject_Z_mult in KB. change (inject_Z 2) with 2%Q in KB.
    pose proof (Qfloor_le L) as FL.
    split.
    + apply Qle_shift_div_l; [lra|]. rewrite Qmult_0_l. apply (qn_nonneg k).
    + apply Qlt_shift_div_r; lra.
  - split; [exact P1|]. rewrite CT.
    assert (X : existsb (pcell_eqb d) path = true).
    { apply existsb_exists. exists d. split; [exact Hd|apply pcell_eqb_eq; reflexivity]. }
    rewrite X. discriminate.
Qed.

(** Short rays: the iteration count wraps around and the walk only stops at
    the border of the grid (or after 2^64-1 steps). *)
Lemma rayTrace_short g s e c0 :
  wf g -> in_cell (cell_size g) c0 s -> in_box g c0 = true ->
  (0 < seg_len (cell_size g) s e)%Q -> (seg_len (cell_size g) s e < 1)%Q ->
  exists g' path,
    rayTrace dflt g s e = Ok (g', map (slot_of g) (dedup path)) /\
    (forall k d, nth_error path k = Some d ->
       in_cell (cell_size g) d (ray_sample (cell_size g) s e k) /\ in_box g d = true) /\
    (Z.of_nat (length path) = 2^64 - 1 \/
     ~ strictly_inside g (ray_sample (cell_size g) s e (length path)))%Z.
Proof.
  intros W IC B LP L2. pose proof (wf_cs g W) as HC.
  change (seg_len (cell_size g) s e) with (ray_len g s e) in *.
  assert (NZ : ~ (ray_len g s e == 0)%Q).
  { intro X. rewrite X in LP. apply (Qlt_irrefl 0 LP). }
  destruct (rayTrace_general dflt g s e c0 W IC B NZ)
    as (g' & m & E & M & ST & BX & SI & W' & SF & CT).
  assert (RC : Z.of_N (ray_count g s e) = (2^64 - 1)%Z).
  { unfold ray_count.
    assert (F : Qfloor (ray_len g s e) = 0%Z).
    { apply Qfloor_unique; [apply Qlt_le_weak; exact LP|]. change (inject_Z 0) with 0%Q.
      rewrite ?Qplus_0_l. exact L2. }
    rewrite F. reflexivity. }
  exists g', (trail g (ray_delta g s e) s m).
  pose proof (fun k => samp_sample g s e k HC LP) as SS.
  split; [exact E|]. rewrite trail_length. split.
  { intros k d Hk.
    assert (KM : k < m).
    { rewrite <- (trail_length g (ray_delta g s e) s m). apply nth_error_Some. congruence. }
    apply (nth_error_nth _ _ (0, 0)%Z) in Hk. rewrite trail_nth in Hk by auto. subst d.
    split; [|apply BX; auto]. destruct (SS k) as [A1 A2].
    eapply in_cell_ext; [exact A1|exact A2|]. apply cell_of_in; auto. }
  destruct ST as [ST|ST]; [left; clear - ST RC; lia|right]. intro X. apply ST. destruct (SS m) as [A1 A2].
  eapply strictly_inside_ext; [symmetry; exact A1|symmetry; exact A2|exact X].
Qed.

End P.
