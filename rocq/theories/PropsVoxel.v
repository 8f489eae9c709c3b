(** Voxel grid properties C01-C15. Only statements, non-vacuity examples and
    [Print Assumptions]; the proofs live in the Voxel*.v files. *)
From Coq Require Import List ZArith QArith Qround Bool Lia.
From Verif Require Import Base VoxelModel VoxelSpec VoxelProofs VoxelOps VoxelAdd VoxelQuery
  VoxelRay VoxelHist VoxelFinal.
Import ListNotations.
Open Scope nat_scope.

Example ex_grid_reachable : vrun Z.add 0%Z ex_fresh ex_ops = Ok ex_grid.
Proof. vm_compute. reflexivity. Qed.
Example ex_grid_wf : wf ex_grid /\ content ex_grid (3, 1)%Z = Some 11%Z /\
  width ex_grid = 7 /\ height ex_grid = 3.
Proof. vm_compute. repeat split. Qed.

(** ** C01 *)
(** Whatever sequence of public calls is applied to a fresh grid of any cell
    size: as long as no call runs into undefined behaviour, the grid has exactly
    width*height slots, and no side ever became shorter. *)
Theorem C01_storage_matches_size {C} (mrg : C -> C -> C) (dflt : C) cs ops1 ops2 g1 g2 :
  (0 < cs)%Q ->
  vrun mrg dflt (setCellSize (vempty dflt) cs) ops1 = Ok g1 ->
  vrun mrg dflt g1 ops2 = Ok g2 ->
  length (cells g2) = width g2 * height g2 /\ in_box g2 (0, 0)%Z = true /\
  cell_size g2 = cs /\
  w_left g1 <= w_left g2 /\ w_right g1 <= w_right g2 /\
  h_up g1 <= h_up g2 /\ h_down g1 <= h_down g2.
Proof. exact (storage_matches_size mrg dflt cs ops1 ops2 g1 g2). Qed.
Print Assumptions C01_storage_matches_size.

(** Calls are defined on every grid with matching storage, except at the
    positions of [on_outer_edge] and for rays of length zero. *)
Theorem C01_calls_defined {C} (mrg : C -> C -> C) (dflt : C) g o :
  wf g -> safe_op g o -> exists g', vstep mrg dflt g o = Ok g' /\ wf g'.
Proof. exact (vstep_defined_wf mrg dflt g o). Qed.
Print Assumptions C01_calls_defined.

Example C01_example : exists g2,
  vrun Z.add 0%Z ex_grid [OpTranslate (-2) 3 true; OpRay (0, 0)%Q ((3#1), (1#2))%Q; OpClear] = Ok g2.
Proof. eexists. vm_compute. reflexivity. Qed.

(** ** C02 and C03 *)
Theorem C02_added_cell_is_found {C} (mrg : C -> C -> C) (g : vgrid C) p c v merging :
  wf g -> in_cell (cell_size g) c p -> ~ on_outer_edge g c p ->
  exists g', addCell mrg g p v merging = Ok g' /\
    cellExists g' p = Ok true /\
    getCell g' p = Ok (match content g c with
                       | Some old => if merging then mrg old v else v
                       | None => v end).
Proof. exact (added_cell_is_found mrg g p c v merging). Qed.
Print Assumptions C02_added_cell_is_found.

Theorem C03_add_disturbs_nothing_else {C} (mrg : C -> C -> C) (g : vgrid C) p c v merging :
  wf g -> in_cell (cell_size g) c p -> ~ on_outer_edge g c p ->
  exists g', addCell mrg g p v merging = Ok g' /\
    hull g c g' /\ length (cells g') = width g' * height g' /\
    content g' c = Some (new_value mrg (content g c) v merging) /\
    (forall d, d <> c -> content g' d = content g d) /\
    n_valid g' = match content g c with
                 | None => u64 (n_valid g + 1) | Some _ => n_valid g end.
Proof. exact (add_disturbs_nothing_else mrg g p c v merging). Qed.
Print Assumptions C03_add_disturbs_nothing_else.

Example C02_C03_example : (* enlarges to the left and down, far outside *)
  in_cell (cell_size ex_grid) (-9, -4)%Z ((-9#1) + (1#3), (-4#1) + (1#4))%Q /\
  ~ on_outer_edge ex_grid (-9, -4)%Z ((-9#1) + (1#3), (-4#1) + (1#4))%Q /\
  in_box ex_grid (-9, -4)%Z = false.
Proof.
  repeat split; try (vm_compute; congruence).
  intros [[H _]|[_ H]]; vm_compute in H; discriminate.
Qed.

(** The excluded positions really fail: undefined behaviour, or the value is
    written to another cell than the one containing the position. *)
Theorem C02_added_on_edge_refuted {C} (mrg : C -> C -> C) (g : vgrid C) p c v merging :
  wf g -> in_cell (cell_size g) c p -> on_outer_edge g c p ->
  addCell mrg g p v merging = UB \/
  exists g' d, addCell mrg g p v merging = Ok g' /\ d <> c /\
    content g' c = None /\ content g' d = Some (new_value mrg (content g d) v merging).
Proof. exact (addCell_edge mrg g p c v merging). Qed.
Print Assumptions C02_added_on_edge_refuted.

Example C02_edge_example : addCell Z.add ex_fresh ((3#2), 0)%Q 4%Z true = UB.
Proof. vm_compute. reflexivity. Qed.

(** ** C04 *)
Theorem C04_enlarge {C} (g : vgrid C) a b x y : wf g ->
  exists g', enlarge g a b x y = Ok g' /\ wf g' /\ grows g g' /\ n_valid g' = n_valid g /\
    (forall c, content g' c = content g c) /\
    (forall p, isInside g p = true -> isInside g' p = true) /\
    (forall p, (a <= fst p <= x /\ b <= snd p <= y)%Q -> isInside g' p = true) /\
    enlarge g' a b x y = Ok g'.
Proof. exact (enlarge_spec g a b x y). Qed.
Print Assumptions C04_enlarge.
Example C04_example : exists g', enlarge ex_grid (-6#1) (-5#1) (9#2) (3#1) = Ok g' /\ width g' = 11.
Proof. eexists. vm_compute. split; reflexivity. Qed.

(** ** C05 *)
(** isInside means: within the closed rectangle spanned by the window. *)
Theorem C05_isInside_rectangle {C} (g : vgrid C) p : (0 < cell_size g)%Q ->
  (isInside g p = true <->
   ((- inject_Z (Z.of_nat (w_left g)) - (1#2)) * cell_size g <= fst p)%Q /\
   (fst p <= (inject_Z (Z.of_nat (w_right g)) + (1#2)) * cell_size g)%Q /\
   ((- inject_Z (Z.of_nat (h_down g)) - (1#2)) * cell_size g <= snd p)%Q /\
   (snd p <= (inject_Z (Z.of_nat (h_up g)) + (1#2)) * cell_size g)%Q).
Proof. exact (isInside_rectangle g p). Qed.
Print Assumptions C05_isInside_rectangle.

(** Full property: isInside implies all look-ups are defined and concern the
    containing cell.  Proved away from the right and lower outer edge. *)
Theorem C05_inside_lookup_partial {C} (g : vgrid C) p c R :
  wf g -> in_cell (cell_size g) c p -> isInside g p = true -> ~ on_outer_edge g c p ->
  in_box g c = true /\
  cellExists g p = Ok (present g c) /\
  getCellPtr g p = Ok (content g c) /\
  (exists r, removeCell g p = Ok r) /\
  (exists l, getNeighbors g p R = Ok l).
Proof. exact (inside_lookup g p c R). Qed.
Print Assumptions C05_inside_lookup_partial.
Example C05_example :
  in_cell (cell_size ex_grid) (3, 1)%Z ((7#2) - (1#10), (3#2))%Q /\
  isInside ex_grid ((7#2) - (1#10), (3#2))%Q = true /\
  ~ on_outer_edge ex_grid (3, 1)%Z ((7#2) - (1#10), (3#2))%Q.
Proof.
  repeat split; try (vm_compute; congruence).
  intros [[_ H]|[H _]]; vm_compute in H; discriminate.
Qed.

(** Every point reported as inside whose cell is not in the window lies on the
    edge, and its look-up is undefined or concerns a different cell. *)
Theorem C05_edge_lookup {C} (g : vgrid C) p c :
  wf g -> in_cell (cell_size g) c p -> isInside g p = true -> in_box g c = false ->
  on_outer_edge g c p /\
  (getCellPtr g p = UB \/
   exists d, d <> c /\ in_box g d = true /\ getCellPtr g p = Ok (content g d)).
Proof. exact (lookup_edge g p c). Qed.
Print Assumptions C05_edge_lookup.

Theorem C05_inside_lookup_refuted :
  (exists p, isInside ex_fresh p = true /\ getCellPtr ex_fresh p = UB /\
             removeCell ex_fresh p = UB) /\
  (exists p d, isInside ex_grid p = true /\ d <> (4, 1)%Z /\
     in_cell (cell_size ex_grid) (4, 1)%Z p /\ getCellPtr ex_grid p = Ok (content ex_grid d)
     /\ in_box ex_grid d = true).
Proof. exact inside_lookup_refuted. Qed.
Print Assumptions C05_inside_lookup_refuted.

(** ** C06, C07 *)
Theorem C06_translate_discard {C} (g : vgrid C) tx ty : wf g ->
  exists g', translate g tx ty true = Ok g' /\ same_frame g g' /\
    forall c, content g' c =
      if in_box g c then content g (fst c - tx, snd c - ty)%Z else None.
Proof. exact (translate_discard_wf g tx ty). Qed.
Print Assumptions C06_translate_discard.
Example C06_example : exists g', translate ex_grid (-1) (-1) true = Ok g' /\
  content g' (2, 0)%Z = Some 11%Z /\ content g' (3, 1)%Z = None.
Proof. eexists. vm_compute. repeat split. Qed.

Theorem C07_translate_keep {C} (g : vgrid C) tx ty : wf g ->
  exists g', translate g tx ty false = Ok g' /\ wf g' /\
    cell_size g' = cell_size g /\ n_valid g' = n_valid g /\
    (Z.of_nat (w_left g') = Z.of_nat (w_left g) + Z.max 0 (- tx) /\
     Z.of_nat (w_right g') = Z.of_nat (w_right g) + Z.max 0 tx /\
     Z.of_nat (h_up g') = Z.of_nat (h_up g) + Z.max 0 ty /\
     Z.of_nat (h_down g') = Z.of_nat (h_down g) + Z.max 0 (- ty))%Z /\
    (forall c, content g' c = content g (fst c - tx, snd c - ty)%Z) /\
    n_cells g' = n_cells g.
Proof. exact (translate_keep_wf g tx ty). Qed.
Print Assumptions C07_translate_keep.
Example C07_example : exists g', translate ex_grid 2 (-1) false = Ok g' /\
  content g' (5, 0)%Z = Some 11%Z /\ width g' = 9.
Proof. eexists. vm_compute. repeat split. Qed.

(** ** C08 *)
Theorem C08_neighbours {C} (g : vgrid C) p c R :
  wf g -> in_cell (cell_size g) c p -> in_box g c = true ->
  exists l, getNeighbors g p R = Ok (map (slot_of g) l) /\ NoDup l /\
    (forall d, In d l <-> within (Z.of_nat R) c d /\ content g d <> None) /\
    l = filter (fun d => within_b (Z.of_nat R) c d && present g d) (window g).
Proof. exact (neighbours g p c R). Qed.
Print Assumptions C08_neighbours.
Theorem C08_neighbours_outside {C} (g : vgrid C) p R :
  isInside g p = false -> getNeighbors g p R = Ok [].
Proof. exact (getNeighbors_out g p R). Qed.
Print Assumptions C08_neighbours_outside.
Example C08_example : getNeighbors ex_grid ((2#1), 0)%Q 1 = Ok (map (slot_of ex_grid) [(3, 1); (1, 0)]%Z).
Proof. vm_compute. reflexivity. Qed.

(** ** C09 *)
Theorem C09_valid_cells {C} (g : vgrid C) : wf g ->
  exists l, map Some (getValidCells g) = map (content g) l /\ NoDup l /\
    (forall c, In c l <-> content g c <> None) /\
    l = filter (present g) (window g).
Proof. exact (valid_cells g). Qed.
Print Assumptions C09_valid_cells.
Example C09_example : getValidCells ex_grid = [11%Z; 0%Z; 5%Z].
Proof. vm_compute. reflexivity. Qed.

(** ** C10 *)
(** Full property: for every history.  Proved for histories of adding, removing,
    enlarging and non-discarding translations; false for the other calls. *)
Theorem C10_valid_count_partial {C} (mrg : C -> C -> C) (dflt : C) cs ops g :
  (0 < cs)%Q -> forallb counting ops = true ->
  vrun mrg dflt (setCellSize (vempty dflt) cs) ops = Ok g ->
  n_valid g = u64 (n_cells g) /\ n_cells g = Z.of_nat (length (getValidCells g)).
Proof. exact (valid_count mrg dflt cs ops g). Qed.
Print Assumptions C10_valid_count_partial.
Example C10_example : forallb counting ex_ops = true /\ n_valid ex_grid = 3%Z.
Proof. vm_compute. split; reflexivity. Qed.

Theorem C10_valid_count_refuted :
  (n_valid (clear ex_grid) = 3%Z /\ getValidCells (clear ex_grid) = []) /\
  (exists g, vrun Z.add 0%Z ex_grid [OpTranslate 1 0 true] = Ok g /\
     n_valid g = 3%Z /\ length (getValidCells g) = 2) /\
  (exists g, vrun Z.add 0%Z ex_grid [OpRay (0, 0)%Q ((2#1), 0)%Q] = Ok g /\
     n_valid g = 3%Z /\ length (getValidCells g) = 4) /\
  (exists g, vrun Z.add 0%Z ex_fresh [OpClear; OpAdd (0, 0)%Q 1%Z true; OpRemove (0, 0)%Q;
                OpAdd (0, 0)%Q 1%Z true; OpClear; OpAdd (0, 0)%Q 1%Z true] = Ok g /\
     n_valid g = 3%Z /\ length (getValidCells g) = 1).
Proof. exact valid_count_refuted. Qed.
Print Assumptions C10_valid_count_refuted.

(** ** C11 *)
(** Copying never yields an equal grid: it is undefined if any place is empty,
    and otherwise gives twice the storage and no cell at any place. *)
Theorem C11_copy_refuted {C} (g : vgrid C) : wf g ->
  ((exists c, in_box g c = true /\ content g c = None) /\ copyGrid g = UB) \/
  ((forall c, in_box g c = true -> content g c <> None) /\
   exists g', copyGrid g = Ok g' /\ length (cells g') = 2 * (width g' * height g') /\
     (forall c, content g' c = None)).
Proof. exact (copy_spec (fun a _ => a) g). Qed.
Print Assumptions C11_copy_refuted.
Example C11_example : copyGrid ex_grid = UB /\
  exists g', copyGrid ex_fresh = Ok g' /\ length (cells g') = 2.
Proof. split; [reflexivity|]. eexists. vm_compute. split; reflexivity. Qed.

(** ** C12 *)
(** Full property includes the reported value true: the code has no return
    statement on that path ([None]). *)
Theorem C12_remove_partial {C} (g : vgrid C) p c :
  wf g -> in_cell (cell_size g) c p -> in_box g c = true ->
  exists g', removeCell g p = Ok (g', None) /\ wf g' /\
    w_left g' = w_left g /\ w_right g' = w_right g /\ h_up g' = h_up g /\
    h_down g' = h_down g /\ cell_size g' = cell_size g /\
    content g' c = None /\ (forall d, d <> c -> content g' d = content g d) /\
    n_valid g' = match content g c with None => n_valid g | Some _ => u64 (n_valid g - 1) end.
Proof. exact (removeCell_in g p c). Qed.
Print Assumptions C12_remove_partial.
Theorem C12_remove_outside {C} (g : vgrid C) p :
  isInside g p = false -> removeCell g p = Ok (g, Some false).
Proof. exact (removeCell_out g p). Qed.
Print Assumptions C12_remove_outside.
Theorem C12_remove_reports_true_refuted {C} (g : vgrid C) p g' :
  removeCell g p <> Ok (g', Some true).
Proof. exact (remove_never_true g p g'). Qed.
Print Assumptions C12_remove_reports_true_refuted.
Example C12_example : exists g', removeCell ex_grid ((3#1), (1#1))%Q = Ok (g', None) /\
  getValidCells g' = [0%Z; 5%Z].
Proof. eexists. vm_compute. split; reflexivity. Qed.

(** ** C13 *)
Theorem C13_ray {C} (dflt : C) (g : vgrid C) s e c0 :
  wf g -> in_cell (cell_size g) c0 s -> in_box g c0 = true ->
  (1 <= seg_len (cell_size g) s e)%Q -> (seg_len (cell_size g) s e < inject_Z (2^63))%Q ->
  exists g' path,
    rayTrace dflt g s e = Ok (g', map (slot_of g) (dedup path)) /\
    (forall k d, nth_error path k = Some d ->
       in_cell (cell_size g) d (ray_sample (cell_size g) s e k) /\ in_box g d = true) /\
    (forall k, (0 < k < length path) -> strictly_inside g (ray_sample (cell_size g) s e k)) /\
    (1 <= length path <= 2 * Z.to_nat (Qfloor (seg_len (cell_size g) s e)) - 1) /\
    (length path = 2 * Z.to_nat (Qfloor (seg_len (cell_size g) s e)) - 1 \/
     ~ strictly_inside g (ray_sample (cell_size g) s e (length path))) /\
    (exists rest, dedup path = c0 :: rest /\ step_chain c0 rest) /\
    wf g' /\ same_frame g g' /\
    (forall c, content g' c =
       if existsb (pcell_eqb c) path
       then Some (match content g c with Some v => v | None => dflt end)
       else content g c).
Proof. exact (rayTrace_final (fun a _ => a) dflt g s e c0). Qed.
Print Assumptions C13_ray.
Theorem C13_ray_outside {C} (dflt : C) (g : vgrid C) s e :
  isInside g s = false -> rayTrace dflt g s e = Ok (g, []).
Proof. exact (rayTrace_outside dflt g s e). Qed.
Print Assumptions C13_ray_outside.
Example C13_example :
  in_cell (cell_size ex_grid) (-2, 0)%Z (-2#1, 0)%Q /\ in_box ex_grid (-2, 0)%Z = true /\
  (1 <= seg_len (cell_size ex_grid) (-2#1, 0)%Q ((3#1), (1#1))%Q)%Q /\
  exists g', rayTrace 0%Z ex_grid (-2#1, 0)%Q ((3#1), (1#1))%Q =
    Ok (g', map (slot_of ex_grid) [(-2,0); (-1,0); (0,0); (1,0); (1,1); (2,1)]%Z).
Proof.
  repeat split; try (vm_compute; congruence). eexists. vm_compute. reflexivity.
Qed.

(** ** C14 *)
(** Proved for rays of at least one cell. *)
Theorem C14_ray_before_end_partial {C} (dflt : C) (g : vgrid C) s e c0 g' out :
  wf g -> in_cell (cell_size g) c0 s -> in_box g c0 = true ->
  (1 <= seg_len (cell_size g) s e)%Q -> (seg_len (cell_size g) s e < inject_Z (2^63))%Q ->
  rayTrace dflt g s e = Ok (g', out) ->
  forall i, In i out -> exists d t, i = slot_of g d /\ in_box g d = true /\
    (0 <= t < 1)%Q /\ in_cell (cell_size g) d (seg_point s e t) /\ content g' d <> None.
Proof. exact (rayTrace_before_end (fun a _ => a) dflt g s e c0 g' out). Qed.
Print Assumptions C14_ray_before_end_partial.
(** What shorter rays do instead: they continue to the border of the grid. *)
Theorem C14_short_ray_runs_to_border {C} (dflt : C) (g : vgrid C) s e c0 :
  wf g -> in_cell (cell_size g) c0 s -> in_box g c0 = true ->
  (0 < seg_len (cell_size g) s e)%Q -> (seg_len (cell_size g) s e < 1)%Q ->
  exists g' path,
    rayTrace dflt g s e = Ok (g', map (slot_of g) (dedup path)) /\
    (forall k d, nth_error path k = Some d ->
       in_cell (cell_size g) d (ray_sample (cell_size g) s e k) /\ in_box g d = true) /\
    (Z.of_nat (length path) = 2^64 - 1 \/
     ~ strictly_inside g (ray_sample (cell_size g) s e (length path)))%Z.
Proof. exact (rayTrace_short dflt g s e c0). Qed.
Print Assumptions C14_short_ray_runs_to_border.
Theorem C14_ray_before_end_refuted :
  (exists g', rayTrace 0%Z ex_grid (0, 0)%Q ((1#10), 0)%Q =
     Ok (g', map (slot_of ex_grid) [(0,0); (1,0); (2,0); (3,0)]%Z)) /\
  (forall t, (0 <= t <= 1)%Q ->
     ~ in_cell (cell_size ex_grid) (3, 0)%Z (seg_point (0, 0)%Q ((1#10), 0)%Q t)) /\
  rayTrace 0%Z ex_grid (0, 0)%Q (0, 0)%Q = UB.
Proof. exact ray_before_end_refuted. Qed.
Print Assumptions C14_ray_before_end_refuted.

(** ** C15 *)
Theorem C15_clear {C} (g : vgrid C) : wf g ->
  wf (clear g) /\ (forall c, content (clear g) c = None) /\ getValidCells (clear g) = [] /\
  (forall p, isInside (clear g) p = isInside g p) /\
  width (clear g) = width g /\ height (clear g) = height g /\
  cell_size (clear g) = cell_size g.
Proof. exact (clear_empties g). Qed.
Print Assumptions C15_clear.
Example C15_example : getValidCells ex_grid <> [] /\ width (clear ex_grid) = 7.
Proof. vm_compute. split; [discriminate|reflexivity]. Qed.
