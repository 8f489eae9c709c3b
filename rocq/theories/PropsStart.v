(** C149: new grids, setters, starting a grid anew, and asking whether a position is inside. *)
From Coq Require Import List ZArith QArith Bool Lia.
From Verif Require Import Base VoxelModel VoxelSpec VoxelProofs VoxelOps VoxelAdd VoxelQuery VoxelFinal GridModel GridSpec GridProofs.
From Verif Require Import ScanSpec ScanInit.
Import ListNotations.
Open Scope nat_scope.

(** A new grid is at the given pose, has the given stamp and squares of 0.25 m, counts as
    not initialised and holds nothing but a default cell in its only square. *)
Theorem C149_fresh {X} (dflt : ncell X) (o : qpose) (ts : Q) :
  (let g := n_new_at dflt o ts in
   n_pose g = o /\ n_time g = ts /\ n_cs g = (1#4)%Q /\ cell_size (n_vox g) = (1#4)%Q /\ n_init g = false /\
   content (n_vox g) (0, 0)%Z = Some dflt /\ (forall c, c <> (0, 0)%Z -> content (n_vox g) c = None)) /\
  (let g := n_new dflt ts in
   n_pose g = mkPose 0 0 0 /\ n_time g = ts /\ n_cs g = (1#4)%Q /\ cell_size (n_vox g) = (1#4)%Q /\ n_init g = false /\
   content (n_vox g) (0, 0)%Z = Some dflt /\ (forall c, c <> (0, 0)%Z -> content (n_vox g) c = None)).
Proof.
  assert (V : forall c, c <> (0, 0)%Z -> content (setCellSize (vempty dflt) (1#4)) c = None).
  { intros [x y] N. unfold content. destruct (in_box _ (x, y)) eqn:B; [|reflexivity]. exfalso. apply N.
    unfold in_box in B. cbn in B. rewrite !andb_true_iff, !Z.leb_le in B. f_equal; lia. }
  split; cbv zeta; repeat (split; [reflexivity|]); exact V.
Qed.
Print Assumptions C149_fresh.

(** Setting the origin changes the origin only, setting the stamp the stamp only. *)
Theorem C149_setters {X} (g : ngrid X) (o : qpose) (ts : Q) :
  (let h := n_setOrigin g o in
   n_pose h = o /\ n_cs h = n_cs g /\ n_init h = n_init g /\ n_time h = n_time g /\ n_vox h = n_vox g /\ n_means h = n_means g) /\
  (let h := n_setTimestamp g ts in
   n_time h = ts /\ n_pose h = n_pose g /\ n_cs h = n_cs g /\ n_init h = n_init g /\ n_vox h = n_vox g /\ n_means h = n_means g).
Proof. repeat split. Qed.
Print Assumptions C149_setters.

(** Two grids of the same size and place, with anything in their squares. *)
Definition but_for_contents {X} (g g' : ngrid X) : Prop :=
  n_pose g' = n_pose g /\ n_cs g' = n_cs g /\ n_init g' = n_init g /\ n_time g' = n_time g /\
  cell_size (n_vox g') = cell_size (n_vox g) /\
  w_left (n_vox g') = w_left (n_vox g) /\ w_right (n_vox g') = w_right (n_vox g) /\
  h_up (n_vox g') = h_up (n_vox g) /\ h_down (n_vox g') = h_down (n_vox g) /\
  n_valid (n_vox g') = n_valid (n_vox g) /\ length (cells (n_vox g')) = length (cells (n_vox g)).
(** Starting a grid from a cloud, with or without following the beams, gives the same grid
    whatever the squares and the cloud of means held before. *)
Theorem C149_forgets {X L} (merge : ncell X -> ncell X -> ncell X) dflt addPt compute tcell occRay
    (btw : qpose -> qpose -> qtrans L) tp (g g' : ngrid X) pcl : but_for_contents g g' ->
  n_initialize merge dflt addPt compute tcell occRay btw tp g pcl = n_initialize merge dflt addPt compute tcell occRay btw tp g' pcl /\
  n_initializeSimple merge dflt addPt compute tcell btw tp g pcl = n_initializeSimple merge dflt addPt compute tcell btw tp g' pcl.
Proof.
  intros (P & C & I & T & V1 & V2 & V3 & V4 & V5 & V6 & LN).
  assert (E : clear (n_vox g') = clear (n_vox g)).
  { unfold clear, with_cells. rewrite V1, V2, V3, V4, V5, V6. f_equal. revert LN. generalize (cells (n_vox g)).
    induction (cells (n_vox g')) as [|a l IH]; intros [|b k] LE; cbn in *; try discriminate; [reflexivity|]. f_equal. apply IH. lia. }
  assert (M : forall h h' cs r, n_pose h' = n_pose h -> n_cs h' = n_cs h -> n_init h' = n_init h -> n_time h' = n_time h -> n_vox h' = n_vox h ->
    mergeInCells merge h cs r = mergeInCells merge h' cs r).
  { intros h h' cs r A1 A2 A3 A4 A5. unfold mergeInCells. rewrite A1, A2, A3, A4, A5. destruct (r || negb (n_init h)).
    - destruct (bbox (map nc_mean cs)) as [[[x0 y0] x1] y1]. reflexivity.
    - destruct (foldM _ cs (n_vox h)); cbn [bind]; try reflexivity. unfold updateMeans, with_vox, getGaussianCells. cbn. rewrite A1, A2, A3, A4. reflexivity. }
  split.
  - unfold n_initialize, mergeInTracedPcl, createGrid. cbn [with_vox n_pose n_cs]. rewrite P, C, E.
    destruct (bbox _) as [[[x0 y0] x1] y1]. destruct (enlarge _ x0 y0 x1 y1) as [v0| |]; cbn [bind]; try reflexivity.
    destruct (foldM _ _ v0) as [v1| |]; cbn [bind]; try reflexivity. unfold mergeInTraced. cbn [with_vox n_vox n_pose].
    rewrite P. destruct (foldM _ _ (clear (n_vox g))) as [v2| |]; cbn [bind]; try reflexivity. apply M; cbn; auto.
  - unfold n_initializeSimple, mergeInPcl, createGrid. cbn [with_vox n_pose n_cs]. rewrite P, C, E.
    destruct (bbox _) as [[[x0 y0] x1] y1]. destruct (enlarge _ x0 y0 x1 y1) as [v0| |]; cbn [bind]; try reflexivity.
    destruct (foldM _ _ v0) as [v1| |]; cbn [bind]; try reflexivity. unfold mergeInGrid. apply M; cbn; auto.
Qed.
Print Assumptions C149_forgets.
(** A full grid and its cleared copy. *)
Example C149_forgets_case : but_for_contents pgrid (with_vox pgrid (clear (n_vox pgrid))) /\
  pgrid <> with_vox pgrid (clear (n_vox pgrid)).
Proof. split; [vm_compute; repeat split|]. vm_compute. discriminate. Qed.

(** "Inside" means that the square of the position holds a cell (away from the right and
    lower outer edge, see C05) ... *)
Theorem C149_inside_partial {X} (g : ngrid X) p c : wf (n_vox g) -> in_cell (cell_size (n_vox g)) c p ->
  ~ on_outer_edge (n_vox g) c p -> isInside (n_vox g) p = true ->
  (n_isInside g p = Ok true <-> exists x, content (n_vox g) c = Some x) /\
  (n_isInside g p = Ok false <-> content (n_vox g) c = None).
Proof.
  intros W I E S. destruct (inside_lookup (n_vox g) p c 0 W I S E) as (_ & H & _). unfold n_isInside. rewrite H. unfold present.
  destruct (content (n_vox g) c) as [x|]; split; split; intro K; try discriminate; eauto; destruct K as [y K]; discriminate.
Qed.
Print Assumptions C149_inside_partial.
(** ... and nothing outside of the bounds is inside. *)
Theorem C149_outside {X} (g : ngrid X) p : isInside (n_vox g) p = false -> n_isInside g p = Ok false.
Proof. exact (lookup_out (n_vox g) p). Qed.
Print Assumptions C149_outside.
(** The documentation promises the bounds of the grid: a position within them can be
    reported to be outside. *)
Theorem C149_bounds_refuted : nwf pgrid /\ isInside (n_vox pgrid) (1, 0)%Q = true /\ n_isInside pgrid (1, 0)%Q = Ok false /\ n_isInside pgrid (0, 0)%Q = Ok true.
Proof. vm_compute. repeat split. Qed.
Print Assumptions C149_bounds_refuted.
Example C149_inside_case : wf (n_vox pgrid) /\ in_cell (cell_size (n_vox pgrid)) (0, 0)%Z (0, 0)%Q /\ ~ on_outer_edge (n_vox pgrid) (0, 0)%Z (0, 0)%Q /\ isInside (n_vox pgrid) (0, 0)%Q = true.
Proof.
  split; [vm_compute; repeat split|]. split; [apply in_cell_b_iff; vm_compute; reflexivity|].
  split; [|vm_compute; reflexivity]. intros [[_ H]|[H _]]; vm_compute in H; discriminate.
Qed.
