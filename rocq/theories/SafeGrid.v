(** Proofs: the operations of grids are defined for cells in general position. *)
From Coq Require Import List ZArith QArith Qround Qabs Qminmax Lqa Lia Bool.
From Coq Require Import ZifyBool ZifyNat.
From Verif Require Import Base QLemmas VoxelModel VoxelSpec VoxelProofs VoxelOps VoxelAdd
  VoxelQuery VoxelRay VoxelHist VoxelFinal GridModel GridSpec GridProofs GridOps
  ScanSpec ScanProofs ScanInit MapModel MapSpec MapDraw SafeSpec.
Import ListNotations.
Open Scope nat_scope.
Set Default Proof Using "Type".

Lemma seg_zero cs s e : (0 < cs)%Q -> (seg_len cs s e == 0)%Q -> peq e s.
Proof.
  intros HC E. unfold seg_len in E.
  assert (K : forall a b m, (Qabs (a - b) / cs <= m)%Q -> (m == 0)%Q -> (a == b)%Q).
  { intros a b m L M. rewrite M in L.
    assert (A : (Qabs (a - b) <= 0)%Q).
    { setoid_replace (Qabs (a - b)) with (Qabs (a - b) / cs * cs)%Q by (field; lra).
      pose proof (Qabs_nonneg (a - b)). nra. }
    apply Qabs_Qle_condition in A. lra. }
  split; eapply K; [apply Q.le_max_l|exact E|apply Q.le_max_r|exact E].
Qed.

Section P.
Context {X L : Type}.
Notation cell := (ncell X).
Notation grid := (ngrid X).
Variable dflt : cell.
Variable occRay : cell -> point -> cell -> cell.
Hypothesis OO : occ_only occRay.

(** The start of the rays: outside of the grid, or in one of its squares. *)
Definition placedIn (v : vgrid cell) (s : point) : Prop :=
  isInside v s = false \/ in_box v (cell_of (cell_size v) s) = true.
Lemma placed_off (v : vgrid cell) s : wf v -> off_border (cell_size v) s -> placedIn v s.
Proof.
  intros W O. unfold placedIn. rewrite <- (off_box v s W O). destruct (isInside v s); auto.
Qed.
Lemma placed_origin (v : vgrid cell) s : wf v -> peq s (0, 0)%Q -> placedIn v s.
Proof.
  intros W P. right. destruct (origin_cell v s W P) as [I B].
  assert (E : cell_of (cell_size v) s = (0, 0)%Z) by (apply in_cell_unique; [exact (wf_cs v W)|exact I]).
  rewrite E. exact B.
Qed.
Lemma placed_same (v w : vgrid cell) s : same_window v w -> placedIn v s -> placedIn w s.
Proof.
  intros S. unfold placedIn. rewrite (same_window_box _ _ _ S). destruct S as (A & B & C & D & E).
  unfold isInside, minx, maxx, miny, maxy, half. rewrite A, B, C, D, E. auto.
Qed.

Lemma trace_def s (v : vgrid cell) e : wf v -> placedIn v s ->
  (nc_gauss e = true -> ~ peq (nc_mean e) s) ->
  exists v', traceCell dflt occRay s v e = Ok v' /\ wf v' /\ same_window v v'.
Proof using OO.
  intros W PL NZ. unfold traceCell. destruct (nc_gauss e) eqn:G.
  2: { exists v. split; [reflexivity|]. split; [exact W|apply same_window_refl]. }
  specialize (NZ eq_refl). destruct PL as [PL|B].
  { exists v. rewrite (rayTrace_outside dflt v s (nc_mean e) PL). cbn [bind fst snd].
    split; [destruct v; reflexivity|]. split; [exact W|apply same_window_refl]. }
  pose proof (wf_cs v W) as HC.
  destruct (rayTrace_general dflt v s (nc_mean e) _ W (cell_of_in _ s HC) B)
    as (v1 & m & E1 & M & _ & BX & _ & W1 & SF & CT).
  { intro Z. apply NZ. apply (seg_zero (cell_size v)); [exact HC|exact Z]. }
  rewrite E1. cbn [bind fst snd]. unfold occSlots.
  set (path := trail v (ray_delta v s (nc_mean e)) s m) in *.
  assert (SLOT : map (slot_of v) (dedup path) = map (slot_of v1) (dedup path)).
  { apply map_ext. intro d. unfold slot_of, width.
    destruct SF as (S1 & S2 & S3 & S4 & _). rewrite S1, S2, S3. reflexivity. }
  rewrite SLOT.
  destruct (occ_loop (fun c => occRay c s e) v1 (dedup path) W1) as (l & EL & WL & SL & _).
  { intro x. apply OO. }
  { intros d Hd. apply dedup_in in Hd. split.
    - unfold path, trail in Hd. apply in_map_iff in Hd. destruct Hd as (i & <- & Hi). apply in_seq in Hi.
      assert (BB : forall d, in_box v1 d = in_box v d).
      { intro d. unfold in_box. destruct SF as (S1 & S2 & S3 & S4 & _). rewrite S1, S2, S3, S4. reflexivity. }
      rewrite BB. apply BX. lia.
    - rewrite CT. replace (existsb (pcell_eqb d) path) with true; [discriminate|].
      symmetry. apply existsb_exists. exists d. split; [exact Hd|]. unfold pcell_eqb. rewrite !Z.eqb_refl. reflexivity. }
  rewrite EL. cbn [bind]. exists (with_cells v1 l). split; [reflexivity|]. split; [exact WL|].
  eapply same_window_trans; [|exact SL].
  destruct SF as (S1 & S2 & S3 & S4 & S5 & _). repeat split; assumption.
Qed.

Lemma traces_def s l : forall v : vgrid cell, wf v -> placedIn v s ->
  (forall e, In e l -> nc_gauss e = true -> ~ peq (nc_mean e) s) ->
  exists v', foldM (traceCell dflt occRay s) l v = Ok v' /\ wf v' /\ same_window v v'.
Proof using OO.
  induction l as [|e t IH]; intros v W PL NZ.
  - exists v. split; [reflexivity|]. split; [exact W|apply same_window_refl].
  - cbn [foldM]. destruct (trace_def s v e W PL (NZ e (or_introl eq_refl))) as (v1 & E1 & W1 & S1).
    rewrite E1. cbn [bind].
    destruct (IH v1 W1 (placed_same _ _ _ S1 PL) (fun x I => NZ x (or_intror I))) as (v' & E & W' & S).
    exists v'. split; [exact E|]. split; [exact W'|]. eapply same_window_trans; eauto.
Qed.

Variable merge : cell -> cell -> cell.
Variable tcell : qtrans L -> cell -> cell.
Variable btw : qpose -> qpose -> qtrans L.
Variable tp : qtrans L -> point -> point.
Notation mergeInTraced := (mergeInTraced merge dflt tcell occRay btw tp).

(** A grid as the operations leave it. *)
Definition sound (g : grid) : Prop := nwf g /\ n_means g <> None.

Lemma merge_def (g other : grid) transform : nwf g ->
  placedIn (n_vox g) (sensor btw tp g other) ->
  apart (n_cs g) (sensor btw tp g other) (incoming tcell btw g other transform) ->
  exists g', mergeInTraced g other transform true = Ok g' /\ sound g' /\ same_header g g'.
Proof using OO.
  intros [W CS] PL AP.
  destruct (traces_def (sensor btw tp g other) (incoming tcell btw g other transform) (n_vox g) W PL)
    as (v & EV & WV & SV).
  { intros e I G. apply (AP e I G). }
  destruct (merge_replace merge (with_vox g v) (incoming tcell btw g other transform) true)
    as (g' & EM & W' & SH & _ & _ & ME & _).
  { split; [exact WV|]. cbn. rewrite CS. symmetry. apply SV. }
  { left. reflexivity. }
  { intros x I G. apply (AP x I G). }
  exists g'. split.
  { unfold GridModel.mergeInTraced. fold (sensor btw tp g other).
    change (if transform then transformNDTCells tcell (getValidCells (n_vox other))
              (btw (n_pose other) (n_pose g)) else getValidCells (n_vox other))
      with (incoming tcell btw g other transform).
    rewrite EV. cbn [bind]. exact EM. }
  split; [split; [exact W'|rewrite ME; discriminate]|exact SH].
Qed.

Variable addPt : cell -> point -> cell.
Variable compute : cell -> cell.
Hypothesis MA : means_average dflt addPt compute.

Lemma scan_def (g : grid) pcl o : nwf g ->
  let s := tp (btw o (n_pose g)) (0, 0)%Q in
  placedIn (n_vox g) s -> scan_apart dflt addPt compute (n_cs g) s (seen_from btw tp g o pcl) ->
  exists g', mergeInTracedPcl merge dflt addPt compute tcell occRay btw tp g pcl o true = Ok g' /\
    sound g' /\ same_header g g'.
Proof using OO MA.
  intros W s PL [O NZ].
  destruct (local_ok merge dflt addPt compute btw tp MA g pcl o W O) as (l & E & OB & _ & IN).
  unfold mergeInTracedPcl.
  change (transPcl tp (btw o (n_pose g)) pcl) with (seen_from btw tp g o pcl). rewrite E. cbn [bind].
  apply (merge_def g (n_setOrigin l o) false W PL).
  intros x I G. split; [apply (OB x I G)|].
  destruct (IN x I G) as (c & Ec). apply (NZ c x Ec).
Qed.

Lemma init_def (g : grid) pcl : nwf g ->
  let s := tp (btw (n_pose g) (n_pose g)) (0, 0)%Q in
  peq s (0, 0)%Q -> scan_apart dflt addPt compute (n_cs g) s (seen_from btw tp g (n_pose g) pcl) ->
  exists g', n_initialize merge dflt addPt compute tcell occRay btw tp g pcl = Ok g' /\
    sound g' /\ same_header g g'.
Proof using OO MA.
  intros [W CS] s P AP. unfold n_initialize.
  destruct (clear_spec (n_vox g) W) as (WC & _).
  set (h := with_vox g (clear (n_vox g))).
  assert (WH : nwf h) by (split; [exact WC|exact CS]).
  destruct (scan_def h pcl (n_pose g) WH) as (g' & E & S & H).
  { apply placed_origin; [exact WC|exact P]. }
  { exact AP. }
  exists g'. split; [exact E|]. split; [exact S|exact H].
Qed.
End P.
