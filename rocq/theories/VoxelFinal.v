(** Final forms of the voxel grid results, and the concrete grid of the examples. *)
From Coq Require Import List ZArith QArith Qround Qabs Lqa Lia Bool.
From Coq Require Import ZifyBool ZifyNat.
From Verif Require Import Base QLemmas VoxelModel VoxelSpec VoxelProofs VoxelOps VoxelAdd VoxelQuery
  VoxelRay VoxelHist.
Import ListNotations.
Open Scope nat_scope.

(** A concrete, non-trivial grid used by the examples: cells are integers,
    merging adds, cell size 1; built by public calls from a fresh grid. *)
Definition ex_ops : list (vop (C := Z)) :=
  [ OpAdd ((2#1), (1#1))%Q 7%Z true; OpAdd ((-3#1), (-1#1))%Q 5%Z true;
    OpAdd ((2#1), (1#1))%Q 4%Z true; OpTranslate 1 0 false ].
Definition ex_fresh : vgrid Z := setCellSize (vempty 0%Z) 1%Q.
Definition ex_grid : vgrid Z :=
  Eval vm_compute in match vrun Z.add 0%Z ex_fresh ex_ops with Ok g => g | _ => ex_fresh end.


Lemma storage_matches_size {C} (mrg : C -> C -> C) (dflt : C) cs ops1 ops2 g1 g2 :
  (0 < cs)%Q ->
  vrun mrg dflt (setCellSize (vempty dflt) cs) ops1 = Ok g1 ->
  vrun mrg dflt g1 ops2 = Ok g2 ->
  length (cells g2) = width g2 * height g2 /\ in_box g2 (0, 0)%Z = true /\
  cell_size g2 = cs /\
  w_left g1 <= w_left g2 /\ w_right g1 <= w_right g2 /\
  h_up g1 <= h_up g2 /\ h_down g1 <= h_down g2.
Proof.
  intros H R1 R2. destruct (vrun_wf _ _ _ _ _ (vempty_wf dflt cs H) R1) as [W1 G1].
  destruct (vrun_wf _ _ _ _ _ W1 R2) as [W2 G2].
  split; [apply W2|]. split; [apply in_box_iff; cbn [fst snd]; lia|].
  destruct G1 as [_ E1]. destruct G2 as [(A & B & D & E) E2].
  repeat split; auto. rewrite E2, E1. reflexivity.
Qed.

Lemma vstep_defined_wf {C} (mrg : C -> C -> C) (dflt : C) g o :
  wf g -> safe_op g o -> exists g', vstep mrg dflt g o = Ok g' /\ wf g'.
Proof.
  intros W S. destruct (vstep_defined mrg dflt g o W S) as (g' & E).
  exists g'. split; [exact E|]. apply (vstep_wf mrg dflt g o g' W E).
Qed.

Lemma add_disturbs_nothing_else {C} (mrg : C -> C -> C) (g : vgrid C) p c v merging :
  wf g -> in_cell (cell_size g) c p -> ~ on_outer_edge g c p ->
  exists g', addCell mrg g p v merging = Ok g' /\
    hull g c g' /\ length (cells g') = width g' * height g' /\
    content g' c = Some (new_value mrg (content g c) v merging) /\
    (forall d, d <> c -> content g' d = content g d) /\
    n_valid g' = match content g c with
                 | None => u64 (n_valid g + 1) | Some _ => n_valid g end.
Proof.
  intros W I N. destruct (addCell_spec mrg g p c v merging W I N) as (g' & E & W' & H & K).
  exists g'. split; [exact E|]. split; [exact H|]. split; [apply wf_len; exact W'|exact K].
Qed.

Lemma hull_in_box {C} (g g' : vgrid C) c : hull g c g' -> in_box g' c = true.
Proof. intros (A & B & D & E & _). apply in_box_iff. lia. Qed.

Lemma added_cell_is_found {C} (mrg : C -> C -> C) (g : vgrid C) p c v merging :
  wf g -> in_cell (cell_size g) c p -> ~ on_outer_edge g c p ->
  exists g', addCell mrg g p v merging = Ok g' /\
    cellExists g' p = Ok true /\
    getCell g' p = Ok (match content g c with
                       | Some old => if merging then mrg old v else v
                       | None => v end).
Proof.
  intros W I N. destruct (addCell_spec mrg g p c v merging W I N) as (g' & E & W' & H & K & _).
  exists g'. split; [exact E|].
  assert (CS : cell_size g' = cell_size g) by apply H.
  destruct (lookup_in g' p c W') as (_ & A & _ & B).
  - rewrite CS. exact I.
  - eapply hull_in_box; eauto.
  - rewrite A, B, K. split; reflexivity.
Qed.

Lemma isInside_rectangle {C} (g : vgrid C) p : (0 < cell_size g)%Q ->
  (isInside g p = true <->
   ((- inject_Z (Z.of_nat (w_left g)) - (1#2)) * cell_size g <= fst p)%Q /\
   (fst p <= (inject_Z (Z.of_nat (w_right g)) + (1#2)) * cell_size g)%Q /\
   ((- inject_Z (Z.of_nat (h_down g)) - (1#2)) * cell_size g <= snd p)%Q /\
   (snd p <= (inject_Z (Z.of_nat (h_up g)) + (1#2)) * cell_size g)%Q).
Proof.
  intro H. unfold isInside. rewrite !andb_true_iff, !Qle_bool_iff.
  rewrite minx_u, maxx_u, miny_u, maxy_u by auto. unfold qn. tauto.
Qed.

Lemma inside_lookup {C} (g : vgrid C) p c R :
  wf g -> in_cell (cell_size g) c p -> isInside g p = true -> ~ on_outer_edge g c p ->
  in_box g c = true /\
  cellExists g p = Ok (present g c) /\
  getCellPtr g p = Ok (content g c) /\
  (exists r, removeCell g p = Ok r) /\
  (exists l, getNeighbors g p R = Ok l).
Proof.
  intros W I IN N.
  assert (B : in_box g c = true).
  { destruct (in_box g c) eqn:B; [reflexivity|].
    destruct (lookup_edge g p c W I IN B) as [E _]. contradiction. }
  split; [exact B|]. destruct (lookup_in g p c W I B) as (_ & A1 & A2 & _).
  split; [exact A1|]. split; [exact A2|]. split.
  - destruct (removeCell_in g p c W I B) as (g' & E & _). eauto.
  - rewrite (getNeighbors_spec g p c R W I B). eauto.
Qed.

Lemma inside_lookup_refuted :
  (exists p, isInside ex_fresh p = true /\ getCellPtr ex_fresh p = UB /\
             removeCell ex_fresh p = UB) /\
  (exists p d, isInside ex_grid p = true /\ d <> (4, 1)%Z /\
     in_cell (cell_size ex_grid) (4, 1)%Z p /\ getCellPtr ex_grid p = Ok (content ex_grid d)
     /\ in_box ex_grid d = true).
Proof.
  split.
  - exists ((1#2), 0)%Q. vm_compute. repeat split.
  - exists ((7#2), (1#1))%Q, (-3, 0)%Z. vm_compute. repeat split; congruence.
Qed.

Lemma translate_discard_wf {C} (g : vgrid C) tx ty : wf g ->
  exists g', translate g tx ty true = Ok g' /\ same_frame g g' /\
    forall c, content g' c =
      if in_box g c then content g (fst c - tx, snd c - ty)%Z else None.
Proof. intro W. apply translate_discard_spec, wf_len, W. Qed.

Lemma translate_keep_wf {C} (g : vgrid C) tx ty : wf g ->
  exists g', translate g tx ty false = Ok g' /\ wf g' /\
    cell_size g' = cell_size g /\ n_valid g' = n_valid g /\
    (Z.of_nat (w_left g') = Z.of_nat (w_left g) + Z.max 0 (- tx) /\
     Z.of_nat (w_right g') = Z.of_nat (w_right g) + Z.max 0 tx /\
     Z.of_nat (h_up g') = Z.of_nat (h_up g) + Z.max 0 ty /\
     Z.of_nat (h_down g') = Z.of_nat (h_down g) + Z.max 0 (- ty))%Z /\
    (forall c, content g' c = content g (fst c - tx, snd c - ty)%Z) /\
    n_cells g' = n_cells g.
Proof.
  intro W. destruct (translate_keep_spec g tx ty (wf_len g W)) as (g' & E & CS & NV & L & D & CT).
  assert (W' : wf g') by (split; [rewrite CS; apply wf_cs; auto|exact L]).
  exists g'. split; [exact E|]. split; [exact W'|]. split; [exact CS|]. split; [exact NV|].
  split; [exact D|]. split; [exact CT|].
  apply (n_cells_bij g g' (fun c => (fst c + tx, snd c + ty)%Z)); auto.
  - intros [a b] [a' b'] Q. cbn in Q. injection Q as Q1 Q2. f_equal; lia.
  - intro c. rewrite CT. cbn [fst snd].
    replace (fst c + tx - tx, snd c + ty - ty)%Z with c
      by (destruct c; cbn; f_equal; lia). tauto.
  - intros [a b] Hd. exists (a - tx, b - ty)%Z. cbn. f_equal; lia.
Qed.

Lemma within_b_iff r a b : within_b r a b = true <-> within r a b.
Proof. unfold within_b, within. lia. Qed.

Lemma present_iff {C} (g : vgrid C) c : present g c = true <-> content g c <> None.
Proof. unfold present. destruct (content g c); split; congruence. Qed.

Lemma neighbours {C} (g : vgrid C) p c R :
  wf g -> in_cell (cell_size g) c p -> in_box g c = true ->
  exists l, getNeighbors g p R = Ok (map (slot_of g) l) /\ NoDup l /\
    (forall d, In d l <-> within (Z.of_nat R) c d /\ content g d <> None) /\
    l = filter (fun d => within_b (Z.of_nat R) c d && present g d) (window g).
Proof.
  intros W I B. eexists. split; [apply (getNeighbors_spec g p c R W I B)|].
  split; [apply NoDup_filter, window_NoDup|]. split; [|reflexivity].
  intro d. rewrite filter_In, andb_true_iff, within_b_iff, present_iff.
  split; [tauto|]. intros [A D]. split; [|auto]. apply window_In.
  unfold content in D. destruct (in_box g d); congruence.
Qed.

Lemma valid_cells {C} (g : vgrid C) : wf g ->
  exists l, map Some (getValidCells g) = map (content g) l /\ NoDup l /\
    (forall c, In c l <-> content g c <> None) /\
    l = filter (present g) (window g).
Proof.
  intro W. eexists. split; [apply (getValidCells_spec g W)|].
  split; [apply NoDup_filter, window_NoDup|]. split; [|reflexivity].
  intro c. apply present_In.
Qed.

Lemma valid_count {C} (mrg : C -> C -> C) (dflt : C) cs ops g :
  (0 < cs)%Q -> forallb counting ops = true ->
  vrun mrg dflt (setCellSize (vempty dflt) cs) ops = Ok g ->
  n_valid g = u64 (n_cells g) /\ n_cells g = Z.of_nat (length (getValidCells g)).
Proof.
  intros H K R. pose proof (vempty_wf dflt cs H) as W0.
  split.
  - apply (vrun_count mrg dflt ops _ _ W0) in R; auto. reflexivity.
  - destruct (vrun_wf _ _ _ _ _ W0 R) as [W _].
    rewrite (n_cells_window g W). f_equal.
    pose proof (f_equal (@length _) (getValidCells_spec g W)) as E.
    rewrite !map_length in E. symmetry. exact E.
Qed.

Lemma valid_count_refuted :
  (n_valid (clear ex_grid) = 3%Z /\ getValidCells (clear ex_grid) = []) /\
  (exists g, vrun Z.add 0%Z ex_grid [OpTranslate 1 0 true] = Ok g /\
     n_valid g = 3%Z /\ length (getValidCells g) = 2) /\
  (exists g, vrun Z.add 0%Z ex_grid [OpRay (0, 0)%Q ((2#1), 0)%Q] = Ok g /\
     n_valid g = 3%Z /\ length (getValidCells g) = 4) /\
  (exists g, vrun Z.add 0%Z ex_fresh [OpClear; OpAdd (0, 0)%Q 1%Z true; OpRemove (0, 0)%Q;
                OpAdd (0, 0)%Q 1%Z true; OpClear; OpAdd (0, 0)%Q 1%Z true] = Ok g /\
     n_valid g = 3%Z /\ length (getValidCells g) = 1).
Proof.
  split; [vm_compute; split; reflexivity|]. split; [eexists; vm_compute; repeat split; reflexivity|].
  split; eexists; vm_compute; repeat split; reflexivity.
Qed.

Lemma remove_never_true {C} (g : vgrid C) p g' : removeCell g p <> Ok (g', Some true).
Proof.
  unfold removeCell. destruct (negb (isInside g p)); [congruence|]. intro H.
  apply bind_ok_inv in H. destruct H as (i & _ & H).
  apply bind_ok_inv in H. destruct H as (o & _ & H). congruence.
Qed.

Lemma ray_before_end_refuted :
  (exists g', rayTrace 0%Z ex_grid (0, 0)%Q ((1#10), 0)%Q =
     Ok (g', map (slot_of ex_grid) [(0,0); (1,0); (2,0); (3,0)]%Z)) /\
  (forall t, (0 <= t <= 1)%Q ->
     ~ in_cell (cell_size ex_grid) (3, 0)%Z (seg_point (0, 0)%Q ((1#10), 0)%Q t)) /\
  rayTrace 0%Z ex_grid (0, 0)%Q (0, 0)%Q = UB.
Proof.
  split; [eexists; vm_compute; reflexivity|]. split; [|vm_compute; reflexivity].
  intros t [A B] (H & _). unfold seg_point in H. cbn [fst snd cell_size ex_grid] in H.
  change (inject_Z 3) with 3%Q in H. lra.
Qed.

Lemma clear_empties {C} (g : vgrid C) : wf g ->
  wf (clear g) /\ (forall c, content (clear g) c = None) /\ getValidCells (clear g) = [] /\
  (forall p, isInside (clear g) p = isInside g p) /\
  width (clear g) = width g /\ height (clear g) = height g /\
  cell_size (clear g) = cell_size g.
Proof.
  intro W. destruct (clear_spec g W) as (W' & CT & _).
  split; [exact W'|]. split; [exact CT|]. split; [|repeat split].
  pose proof (getValidCells_spec (clear g) W') as E.
  rewrite (filter_ext (present (clear g)) (fun _ => false)) in E.
  - assert (F : forall l : list pcell, filter (fun _ => false) l = []) by (induction l; auto).
    rewrite F in E. exact (map_eq_nil _ _ E).
  - intro c. unfold present. rewrite CT. reflexivity.
Qed.
