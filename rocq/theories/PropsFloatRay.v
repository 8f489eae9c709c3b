(** C136: rounding in ray tracing (property statements; model in FloatRayModel.v,
    vocabulary in FloatSpec.v and VoxelSpec.v, proofs in FloatRay.v and FloatShort.v).

    [reaches n g p]: window and point are at most 2^n cells away from the origin;
    [off_lines d g p]: the point is farther than d cells from every line between cells;
    [ray_sample cs s e j]: the point j half-cell steps from s towards e. *)
From Coq Require Import Reals Qreals List ZArith QArith Qabs Qround Bool Arith Lia Lqa.
From Flocq Require Import Core.
From Verif Require Import Base VoxelModel VoxelSpec PropsVoxel VoxelProofs VoxelRay FloatModel FloatRayModel FloatSpec FloatIEEE FloatErr FloatProofs FloatRay FloatShort.
Import ListNotations.
Open Scope nat_scope.

(** [clear_run d g s e]: every half-cell step from s towards e that is reached before the
    window is left, and before the end, is farther than d cells from the lines. *)
Definition clear_run {C} (d : Q) (g : vgrid C) (s e : point) : Prop :=
  forall j, (Z.of_nat j < 2 * Qfloor (seg_len (cell_size g) s e))%Z ->
    (forall i, 0 < i < j -> strictly_inside g (ray_sample (cell_size g) s e i)) ->
    off_lines d g (ray_sample (cell_size g) s e j).
(** [not_whole d len]: the length is farther than d from every whole number. *)
Definition not_whole (d len : Q) : Prop := forall k : Z, (d < Qabs (len - inject_Z k))%Q.

(** A ray traced with doubles and floats gives the same grid and the same list of cells
    as one traced with exact numbers. *)
Theorem C136_same_partial : forall C (dflt : C) n (g : vgrid C) s e, (0 <= n <= 17)%Z -> binary_cells g ->
  reaches n g s -> reaches n g e -> (1 <= seg_len (cell_size g) s e)%Q ->
  not_whole (two (n - 50)) (seg_len (cell_size g) s e) -> clear_run (two (2 * n - 45)) g s e ->
  frayTrace dflt g s e = rayTrace dflt g s e.
Proof.
  intros C dflt n g s e NN (k & EE & CS) RS RE L1 LO SO. exact (ray_rounded dflt k n EE NN g CS s e RS RE LO L1 SO).
Qed.
Print Assumptions C136_same_partial.

(** So it lists, in order and without repetition, the cells of the half-cell steps up to
    the end or the border, makes the empty ones of them present and changes nothing else. *)
Theorem C136_cells_partial : forall C (dflt : C) n (g : vgrid C) s e c0, (0 <= n <= 17)%Z -> binary_cells g -> wf g ->
  reaches n g s -> reaches n g e -> in_cell (cell_size g) c0 s -> in_box g c0 = true ->
  (1 <= seg_len (cell_size g) s e)%Q ->
  not_whole (two (n - 50)) (seg_len (cell_size g) s e) -> clear_run (two (2 * n - 45)) g s e ->
  exists g' path,
    frayTrace dflt g s e = Ok (g', map (slot_of g) (dedup path)) /\
    (forall k d, nth_error path k = Some d ->
       in_cell (cell_size g) d (ray_sample (cell_size g) s e k) /\ in_box g d = true) /\
    (forall k, (0 < k < length path) -> strictly_inside g (ray_sample (cell_size g) s e k)) /\
    (1 <= length path <= 2 * Z.to_nat (Qfloor (seg_len (cell_size g) s e)) - 1) /\
    (length path = 2 * Z.to_nat (Qfloor (seg_len (cell_size g) s e)) - 1 \/
     ~ strictly_inside g (ray_sample (cell_size g) s e (length path))) /\
    wf g' /\ same_frame g g' /\
    (forall c, content g' c =
       if existsb (pcell_eqb c) path
       then Some (match content g c with Some v => v | None => dflt end)
       else content g c).
Proof.
  intros C dflt n g s e c0 NN BC W RS RE I0 B0 L1 LO SO. rewrite (C136_same_partial C dflt n g s e NN BC RS RE L1 LO SO).
  assert (LB : (seg_len (cell_size g) s e < inject_Z (2^63))%Q).
  { destruct BC as (k & EE & CS). pose proof (len_max dflt k n EE NN g CS s e RS RE LO) as H.
    apply Rlt_Qlt. rewrite q2r_Z, (IZR_Zpower radix2) by lia. eapply Rle_lt_trans; [exact H|]. apply bpow_lt. lia. }
  destruct (C13_ray dflt g s e c0 W I0 B0 L1 LB) as (g' & path & A1 & A2 & A3 & A4 & A5 & _ & A7 & A8 & A9).
  exists g', path. repeat (split; [assumption|]). assumption.
Qed.
Print Assumptions C136_cells_partial.

(** Close to a line it need not: from a double just inside the right border of the first
    window, exact tracing is well defined, with rounding the cell beyond the border is
    accessed, which does not exist. *)
Theorem C136_near_a_line_refuted : exists s e, is_double (fst s) /\ is_double (snd s) /\
  wf (vempty 0) /\ strictly_inside (vempty 0) s /\ (1 <= seg_len (1#4) s e)%Q /\
  (exists g', rayTrace 0 (vempty 0) s e = Ok (g', [0])) /\ frayTrace 0 (vempty 0) s e = UB.
Proof.
  exists (Qred ((1#8) - two (-56)), 0)%Q, (1, 0)%Q.
  split; [vm_compute; reflexivity|]. split; [vm_compute; reflexivity|].
  split; [split; [vm_compute; reflexivity|reflexivity]|].
  split; [unfold strictly_inside; repeat split; vm_compute; reflexivity|].
  split; [vm_compute; discriminate|]. split; [eexists; vm_compute; reflexivity|]. vm_compute. reflexivity.
Qed.
Print Assumptions C136_near_a_line_refuted.

Definition wide : vgrid nat := mkGrid (1#4) 4 4 4 4 0 (repeat None 81).

(** A ray of two and a half cells, whose steps are not doubles. *)
Definition from : point := ((1#16), 0)%Q.
Definition upto : point := ((11#16), (1#8))%Q.
Lemma margin d cs x (c : Z) : (0 < cs)%Q ->
  (d * cs + (inject_Z c - (1#2)) * cs < x)%Q -> (x + d * cs < (inject_Z c + (1#2)) * cs)%Q ->
  forall k : Z, (d * cs < Qabs (x - (inject_Z k + (1#2)) * cs))%Q.
Proof.
  intros P L U k. destruct (Z_lt_ge_dec k c) as [K|K].
  - assert (H : (inject_Z k + 1 <= inject_Z c)%Q) by (change 1%Q with (inject_Z 1); rewrite <- inject_Z_plus, <- Zle_Qle; lia).
    assert (M : ((inject_Z k + 1) * cs <= inject_Z c * cs)%Q) by (apply Qmult_le_compat_r; [exact H|apply Qlt_le_weak, P]).
    eapply Qlt_le_trans; [|apply Qle_Qabs]. lra.
  - assert (H : (inject_Z c <= inject_Z k)%Q) by (rewrite <- Zle_Qle; lia).
    assert (M : (inject_Z c * cs <= inject_Z k * cs)%Q) by (apply Qmult_le_compat_r; [exact H|apply Qlt_le_weak, P]).
    rewrite <- Qabs_opp. eapply Qlt_le_trans; [|apply Qle_Qabs]. lra.
Qed.
Lemma from_clear : clear_run (two (2 * 2 - 45)) wide from upto.
Proof.
  intros j J _. change (2 * Qfloor (seg_len (cell_size wide) from upto))%Z with 4%Z in J.
  assert (K : j = 0 \/ j = 1 \/ j = 2 \/ j = 3) by lia. unfold off_lines. intro k.
  destruct K as [->|[->|[->| ->]]].
  - split; apply margin with (c := 0%Z); vm_compute; reflexivity.
  - split; [apply margin with (c := 1%Z)|apply margin with (c := 0%Z)]; vm_compute; reflexivity.
  - split; [apply margin with (c := 1%Z)|apply margin with (c := 0%Z)]; vm_compute; reflexivity.
  - split; [apply margin with (c := 2%Z)|apply margin with (c := 0%Z)]; vm_compute; reflexivity.
Qed.
Lemma from_length : not_whole (two (2 - 50)) (seg_len (cell_size wide) from upto).
Proof.
  intro k. setoid_replace (seg_len (cell_size wide) from upto) with (5#2)%Q by reflexivity.
  assert (D : (two (2 - 50) < 1#2)%Q) by (vm_compute; reflexivity). destruct (Z_le_gt_dec k 2) as [L|L].
  - assert (K : (inject_Z k <= 2)%Q) by (rewrite Zle_Qle in L; exact L). eapply Qlt_le_trans; [|apply Qle_Qabs]. lra.
  - assert (K : (3 <= inject_Z k)%Q) by (change 3%Q with (inject_Z 3); rewrite <- Zle_Qle; lia).
    rewrite <- Qabs_opp. eapply Qlt_le_trans; [|apply Qle_Qabs]. lra.
Qed.
Example C136_case : wf wide /\ binary_cells wide /\ reaches 2 wide from /\ reaches 2 wide upto /\
  in_cell (cell_size wide) (0, 0)%Z from /\ in_box wide (0, 0)%Z = true /\
  (1 <= seg_len (cell_size wide) from upto)%Q /\
  not_whole (two (2 - 50)) (seg_len (cell_size wide) from upto) /\ clear_run (two (2 * 2 - 45)) wide from upto /\
  ~ (snd (fray_delta wide from upto) == snd (ray_delta wide from upto))%Q /\
  exists g', frayTrace 7 wide from upto = Ok (g', map (slot_of wide) [(0,0); (1,0)]%Z).
Proof.
  split; [split; [vm_compute; reflexivity|reflexivity]|].
  split; [exists (-2)%Z; split; [lia|vm_compute; reflexivity]|].
  split; [unfold reaches; repeat split; vm_compute; discriminate|].
  split; [unfold reaches; repeat split; vm_compute; discriminate|].
  split; [unfold in_cell; repeat split; vm_compute; first [reflexivity|discriminate]|].
  split; [vm_compute; reflexivity|]. split; [vm_compute; discriminate|].
  split; [exact from_length|]. split; [exact from_clear|]. split; [vm_compute; discriminate|].
  eexists. vm_compute. reflexivity.
Qed.

(** A ray a little shorter than three cells: rounded to three cells, it visits one cell
    more, although no step comes near a line. *)
Definition almost : point := (Qred ((1#16) + two (-56)), 0)%Q.
Lemma almost_clear : clear_run (two (2 * 2 - 45)) wide almost ((13#16), 0)%Q.
Proof.
  intros j J _. change (2 * Qfloor (seg_len (cell_size wide) almost ((13#16), 0)%Q))%Z with 4%Z in J.
  assert (K : j = 0 \/ j = 1 \/ j = 2 \/ j = 3) by lia. unfold off_lines. intro k.
  destruct K as [->|[->|[->| ->]]].
  - split; apply margin with (c := 0%Z); vm_compute; reflexivity.
  - split; [apply margin with (c := 1%Z)|apply margin with (c := 0%Z)]; vm_compute; reflexivity.
  - split; [apply margin with (c := 1%Z)|apply margin with (c := 0%Z)]; vm_compute; reflexivity.
  - split; [apply margin with (c := 2%Z)|apply margin with (c := 0%Z)]; vm_compute; reflexivity.
Qed.
Theorem C136_whole_length_refuted : exists s e, is_double (fst s) /\ is_double (snd s) /\ is_double (fst e) /\ is_double (snd e) /\
  clear_run (two (2 * 2 - 45)) wide s e /\ (seg_len (cell_size wide) s e < 3)%Q /\
  (exists g', rayTrace 7 wide s e = Ok (g', map (slot_of wide) [(0,0); (1,0)]%Z)) /\
  (exists g', frayTrace 7 wide s e = Ok (g', map (slot_of wide) [(0,0); (1,0); (2,0)]%Z)).
Proof.
  exists almost, ((13#16), 0)%Q. do 4 (split; [vm_compute; reflexivity|]).
  split; [exact almost_clear|]. split; [vm_compute; reflexivity|].
  split; eexists; vm_compute; reflexivity.
Qed.
Print Assumptions C136_whole_length_refuted.

(** A ray shorter than a cell runs on to the border of the window, with exact numbers and
    with rounded ones alike, when no step of it that is reached comes near a line.
    [clear_way]: as [clear_run], without the end. *)
Definition clear_way {C} (d : Q) (g : vgrid C) (s e : point) : Prop :=
  forall j, (forall i, 0 < i < j -> strictly_inside g (ray_sample (cell_size g) s e i)) ->
    off_lines d g (ray_sample (cell_size g) s e j).
Theorem C136_short_partial : forall C (dflt : C) n (g : vgrid C) s e, (0 <= n <= 16)%Z -> binary_cells g ->
  reaches n g s -> reaches n g e -> (seg_len (cell_size g) s e < 1)%Q ->
  not_whole (two (n - 50)) (seg_len (cell_size g) s e) -> clear_way (two (2 * n - 43)) g s e ->
  frayTrace dflt g s e = rayTrace dflt g s e.
Proof.
  intros C dflt n g s e NN (k & EE & CS) RS RE L1 LO SO. exact (short_rounded dflt k n EE NN g CS s e RS RE LO L1 SO).
Qed.
Print Assumptions C136_short_partial.

(** So it lists the cells of the half-cell steps up to the border. *)
Theorem C136_short_cells_partial : forall C (dflt : C) n (g : vgrid C) s e c0, (0 <= n <= 16)%Z -> binary_cells g -> wf g ->
  reaches n g s -> reaches n g e -> in_cell (cell_size g) c0 s -> in_box g c0 = true ->
  (seg_len (cell_size g) s e < 1)%Q ->
  not_whole (two (n - 50)) (seg_len (cell_size g) s e) -> clear_way (two (2 * n - 43)) g s e ->
  exists g' path,
    frayTrace dflt g s e = Ok (g', map (slot_of g) (dedup path)) /\
    (forall k d, nth_error path k = Some d ->
       in_cell (cell_size g) d (ray_sample (cell_size g) s e k) /\ in_box g d = true) /\
    ~ strictly_inside g (ray_sample (cell_size g) s e (length path)).
Proof.
  intros C dflt n g s e c0 NN BC W RS RE I0 B0 L1 LO SO. rewrite (C136_short_partial C dflt n g s e NN BC RS RE L1 LO SO).
  destruct BC as (k & EE & CS). pose proof (len_posQ dflt k n EE NN g CS s e RS RE LO L1 SO) as LP.
  destruct (C14_short_ray_runs_to_border dflt g s e c0 W I0 B0 LP L1) as (g' & path & A1 & A2 & A3).
  exists g', path. split; [exact A1|]. split; [exact A2|]. destruct A3 as [A3|A3]; [exfalso|exact A3].
  pose proof (Far_small dflt k n EE NN g CS s e RS RE LO L1) as FS.
  destruct (nth_error path (Far n)) as [d|] eqn:ND; [|apply nth_error_None in ND; lia].
  destruct (A2 _ _ ND) as [I B]. pose proof (cell_pos k g CS) as CP. destruct (samp_sample g s e (Far n) CP LP) as [X Y].
  rewrite (far_box dflt k n EE NN g CS s e RS RE LO L1 d) in B; [discriminate|].
  destruct I as (P1 & P2 & P3 & P4). unfold in_cell. rewrite X, Y. auto.
Qed.
Print Assumptions C136_short_cells_partial.

(** A ray from a point to itself is undefined also with rounded numbers: it divides zero by
    zero. *)
Theorem C136_no_length : forall C (dflt : C) n (g : vgrid C) s c0, (0 <= n <= 17)%Z -> binary_cells g -> wf g ->
  reaches n g s -> in_cell (cell_size g) c0 s -> in_box g c0 = true -> frayTrace dflt g s s = UB.
Proof.
  intros C dflt n g s c0 NN (k & EE & CS) W RS I0 B0.
  assert (CP := cell_pos k g CS). assert (IN : isInside g s = true).
  { apply box_inside; [exact CP|]. rewrite (in_cell_unique (cell_size g) c0 s CP I0). exact B0. }
  unfold frayTrace. rewrite (inside_exact k n EE ltac:(lia) g s CS RS), IN. cbn [negb].
  assert (Z : Qeq_bool (fray_len g s s) 0 = true).
  { apply Qeq_bool_iff. unfold fray_len, fray_axis. apply eqR_Qeq.
    rewrite q2r_max, !f64_ieee, !Q2R_div, !q2r_abs, !f64_ieee, !Q2R_minus by (intro H; rewrite H in CP; discriminate).
    unfold Rminus. rewrite !Rplus_opp_r, !round_0, Rabs_R0 by apply valid_rnd_N.
    unfold Rdiv. rewrite !Rmult_0_l, !round_0, RMicromega.Q2R_0 by apply valid_rnd_N. apply Rmax_left, Rle_refl. }
  rewrite Z. unfold fcalcIndex, fcalcCoordinates, to_size_t, touch, vget.
  repeat (match goal with |- context [if ?x then _ else _] => destruct x end; cbn [bind]; try reflexivity).
  destruct (nth_error _ _); reflexivity.
Qed.
Print Assumptions C136_no_length.

(** A ray of three quarters of a cell, whose steps are not doubles; it visits a cell of the
    right border. *)
Definition near : point := ((1#16), (1#64))%Q.
Definition next : point := ((1#4), (5#64))%Q.
Example C136_short_case : binary_cells wide /\ reaches 2 wide near /\ reaches 2 wide next /\
  (seg_len (cell_size wide) near next < 1)%Q /\
  not_whole (two (2 - 50)) (seg_len (cell_size wide) near next) /\ clear_way (two (2 * 2 - 43)) wide near next /\
  ~ (snd (fray_delta wide near next) == snd (ray_delta wide near next))%Q /\
  exists g', frayTrace 7 wide near next = Ok (g', map (slot_of wide) [(0,0); (1,0); (2,1); (3,1); (4,1)]%Z).
Proof.
  split; [exists (-2)%Z; split; [lia|vm_compute; reflexivity]|].
  split; [unfold reaches; repeat split; vm_compute; discriminate|].
  split; [unfold reaches; repeat split; vm_compute; discriminate|].
  split; [vm_compute; reflexivity|].
  split.
  { intro k. setoid_replace (seg_len (cell_size wide) near next) with (3#4)%Q by reflexivity.
    assert (D : (two (2 - 50) < 1#4)%Q) by (vm_compute; reflexivity). destruct (Z_le_gt_dec k 0) as [L|L].
    - assert (K : (inject_Z k <= 0)%Q) by (rewrite Zle_Qle in L; exact L). eapply Qlt_le_trans; [|apply Qle_Qabs]. lra.
    - assert (K : (1 <= inject_Z k)%Q) by (change 1%Q with (inject_Z 1); rewrite <- Zle_Qle; lia).
      rewrite <- Qabs_opp. eapply Qlt_le_trans; [|apply Qle_Qabs]. lra. }
  split.
  { intros j H. destruct (le_lt_dec j 9) as [J|J].
    - unfold off_lines. intro k. do 10 (destruct j as [|j]; [
        split; first [apply margin with (c := 0%Z); vm_compute; reflexivity|apply margin with (c := 1%Z); vm_compute; reflexivity
          |apply margin with (c := 2%Z); vm_compute; reflexivity|apply margin with (c := 3%Z); vm_compute; reflexivity
          |apply margin with (c := 4%Z); vm_compute; reflexivity|apply margin with (c := 5%Z); vm_compute; reflexivity]|]). lia.
    - destruct (H 9 ltac:(lia)) as (_ & X & _). vm_compute in X. discriminate. }
  split; [vm_compute; discriminate|].
  eexists. vm_compute. reflexivity.
Qed.
