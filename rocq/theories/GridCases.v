(** A concrete cell type and grid used as witnesses for the NDT grid theorems. *)
From Coq Require Import List ZArith QArith Qround Qabs Lqa Lia Bool.
From Verif Require Import Base QLemmas VoxelModel VoxelSpec VoxelProofs GridModel GridSpec
  GridProofs GridOps.
Import ListNotations.
Open Scope nat_scope.

(** Cells with a point count and a raw occupancy; merging takes the weighted
    mean and adds the counts, as NDTCell does for its mean. *)
Definition xcell := ncell (positive * Q).
Definition wq (p : positive) : Q := inject_Z (Zpos p).
Definition wmean (n m : positive) (x y : Q) : Q := ((wq n * x + wq m * y) / (wq n + wq m))%Q.
Definition xmerge (a b : xcell) : xcell :=
  if nc_gauss b then
    if nc_gauss a then
      let n := fst (nc_rest a) in let m := fst (nc_rest b) in
      mkC (wmean n m (fst (nc_mean a)) (fst (nc_mean b)),
           wmean n m (snd (nc_mean a)) (snd (nc_mean b))) true
          ((n + m)%positive, snd (nc_rest a))
    else b
  else a.
Definition xdflt : xcell := mkC (0, 0)%Q false (1%positive, 1#2)%Q.
Definition xc (x y : Q) (n : positive) : xcell := mkC (x, y) true (n, 9#10)%Q.

Lemma wq_pos p : (0 < wq p)%Q.
Proof. unfold wq. change 0%Q with (inject_Z 0). apply lt_inj. lia. Qed.

Lemma wmean_le n m x y b : (x <= b)%Q -> (y <= b)%Q -> (wmean n m x y <= b)%Q.
Proof.
  intros. pose proof (wq_pos n). pose proof (wq_pos m). unfold wmean.
  apply Qle_shift_div_r; [lra|].
  assert (wq n * x <= wq n * b)%Q by (rewrite Qmult_le_l; assumption).
  assert (wq m * y <= wq m * b)%Q by (rewrite Qmult_le_l; assumption). lra.
Qed.
Lemma wmean_ge n m x y b : (b <= x)%Q -> (b <= y)%Q -> (b <= wmean n m x y)%Q.
Proof.
  intros. pose proof (wq_pos n). pose proof (wq_pos m). unfold wmean.
  apply Qle_shift_div_l; [lra|].
  assert (wq n * b <= wq n * x)%Q by (rewrite Qmult_le_l; assumption).
  assert (wq m * b <= wq m * y)%Q by (rewrite Qmult_le_l; assumption). lra.
Qed.
Lemma wmean_lt n m x y b : (x < b)%Q -> (y < b)%Q -> (wmean n m x y < b)%Q.
Proof.
  intros. pose proof (wq_pos n). pose proof (wq_pos m). unfold wmean.
  apply Qlt_shift_div_r; [lra|].
  assert (wq n * x < wq n * b)%Q by (rewrite Qmult_lt_l; assumption).
  assert (wq m * y < wq m * b)%Q by (rewrite Qmult_lt_l; assumption). lra.
Qed.
Lemma wmean_gt n m x y b : (b < x)%Q -> (b < y)%Q -> (b < wmean n m x y)%Q.
Proof.
  intros. pose proof (wq_pos n). pose proof (wq_pos m). unfold wmean.
  apply Qlt_shift_div_l; [lra|].
  assert (wq n * b < wq n * x)%Q by (rewrite Qmult_lt_l; assumption).
  assert (wq m * b < wq m * y)%Q by (rewrite Qmult_lt_l; assumption). lra.
Qed.

Lemma xmerge_stays : merge_stays xmerge.
Proof.
  intros a b cs c G I A. unfold xmerge. rewrite G.
  destruct (nc_gauss a) eqn:GA; [|exact I]. specialize (A eq_refl).
  unfold in_cell in *. cbn [nc_mean fst snd].
  destruct I as (I1 & I2 & I3 & I4). destruct A as (A1 & A2 & A3 & A4).
  split; [apply wmean_ge; assumption|]. split; [apply wmean_lt; assumption|].
  split; [apply wmean_gt; assumption|apply wmean_le; assumption].
Qed.

(** A position off the borders, by computation. *)
Definition off_b (cs : Q) (p : point) : bool :=
  let c := cell_of cs p in
  negb (Qeq_bool (fst p) ((inject_Z (fst c) - (1#2)) * cs)) &&
  negb (Qeq_bool (snd p) ((inject_Z (snd c) + (1#2)) * cs)).
Lemma off_b_ok cs p : (0 < cs)%Q -> off_b cs p = true -> off_border cs p.
Proof.
  intros H B c I. apply in_cell_unique in I; auto. subst c.
  unfold off_b in B. apply andb_true_iff in B. destruct B as [B1 B2].
  apply negb_true_iff in B1, B2.
  split; intro E; apply Qeq_bool_iff in E; congruence.
Qed.
Lemma offs_b_ok cs (l : list xcell) : (0 < cs)%Q ->
  forallb (fun v => off_b cs (nc_mean v)) l = true -> off_borders cs l.
Proof.
  intros H F v I _. apply off_b_ok; [exact H|].
  rewrite forallb_forall in F. apply F. exact I.
Qed.

Definition xlist : list xcell :=
  [xc (2#10) (1#10) 6; xc (23#10) (12#10) 7; mkC (5, 5)%Q false (3%positive, 0%Q);
   xc (-16#10) (3#10) 8].
Definition xfresh : ngrid (positive * Q) := n_setCellSize (n_new xdflt 0) 1.
Definition xops : list (gop (positive * Q) unit) :=
  [GMerge xlist true; GMove (mkTr tt (12#10) (-(3#10)));
   GMerge [xc (1#10) (2#10) 5; xc (40#1) (1#10) 9] false].

(** the grid after merging [xlist] *)
Definition xgrid : ngrid (positive * Q) :=
  match mergeInCells xmerge xfresh xlist true with Ok g => g | _ => xfresh end.
Lemma xgrid_reachable : mergeInCells xmerge xfresh xlist true = Ok xgrid.
Proof. vm_compute. reflexivity. Qed.
Lemma xgrid_nwf : nwf xgrid.
Proof. vm_compute. repeat split. Qed.

Lemma xlist_off : off_borders 1 xlist.
Proof. apply offs_b_ok; [reflexivity|vm_compute; reflexivity]. Qed.
Lemma xops_ok : forall o, In o xops -> gop_ok 1 o.
Proof.
  intros o [<-|[<-|[<-|[]]]]; cbn [gop_ok].
  - exact xlist_off.
  - split; vm_compute; reflexivity.
  - apply offs_b_ok; [reflexivity|vm_compute; reflexivity].
Qed.
Lemma Ok_inj {A} (a b : A) : Ok a = Ok b -> a = b.
Proof. intro E. injection E as E. exact E. Qed.
Lemma xgrid_inv : anchored xgrid /\ cloud_current xgrid.
Proof.
  destruct (history (L := unit) xmerge xdflt 0 1 [GMerge xlist true]) as (g & E & _ & _ & A & C).
  - reflexivity.
  - reflexivity.
  - exact xmerge_stays.
  - intros o [<-|[]]. exact xlist_off.
  - assert (R : grun (L := unit) xmerge xfresh [GMerge xlist true] = Ok xgrid)
      by (vm_compute; reflexivity).
    assert (G : g = xgrid) by (apply Ok_inj; rewrite <- E; exact R).
    rewrite <- G. split; [exact A|].
    apply C. intros [H|[]]. discriminate.
Qed.
Definition xgrid_anchored : anchored xgrid := proj1 xgrid_inv.
Definition xgrid_cloud : cloud_current xgrid := proj2 xgrid_inv.

(** A scan with one invalid point. *)
Definition xscan : list (option point) :=
  [Some (31#10, 12#10); Some (-4#10, 21#10); None; Some (28#10, 7#10); Some (1#10, -3#10)]%Q.
Lemma xscan_off : forall p, In (Some p) xscan -> off_border (n_cs xfresh) p.
Proof.
  intros p H. apply off_b_ok; [reflexivity|].
  repeat (destruct H as [H|H]; [try (injection H as <-); try discriminate;
    vm_compute; reflexivity|]).
  destruct H.
Qed.

(** Frames for the traced merge: translation of poses only, beams lower the raw
    occupancy; at zero the distribution is dropped. *)
Definition xbtw (a b : qpose) : qtrans unit := mkTr tt (p_x a - p_x b) (p_y a - p_y b).
Definition xtp (t : qtrans unit) (p : point) : point := (fst p + tr_x t, snd p + tr_y t)%Q.
Definition xtcell (t : qtrans unit) (v : xcell) : xcell :=
  if nc_gauss v then mkC (xtp t (nc_mean v)) true (nc_rest v) else v.
Definition xray (c : xcell) (s : point) (e : xcell) : xcell :=
  let o := (snd (nc_rest c) - (1#10))%Q in
  mkC (nc_mean c) (nc_gauss c && Qlt_b 0 o) (fst (nc_rest c), o).
Lemma xray_occ_only : occ_only xray.
Proof. intros c s e. split; [reflexivity|]. cbn. intro H. apply andb_true_iff in H. apply H. Qed.
(** A second frame, taken 0.7 to the right of the first. *)
Definition xother : ngrid (positive * Q) :=
  match mergeInCells xmerge (n_setOrigin xfresh (mkPose (7#10) 0 0))
          [xc (31#20) (8#10) 6; xc (-28#10) (11#10) 9] true with Ok g => g | _ => xfresh end.
Lemma xother_off : off_borders (n_cs xgrid)
  (map (xtcell (xbtw (n_pose xother) (n_pose xgrid))) (getValidCells (n_vox xother))).
Proof. apply offs_b_ok; [reflexivity|vm_compute; reflexivity]. Qed.
Definition ray_ok_b (cs : Q) (start : point) (v : xcell) : bool :=
  negb (nc_gauss v) ||
  (Qle_bool 1 (seg_len cs start (nc_mean v)) &&
   negb (Qle_bool (inject_Z (2^63)) (seg_len cs start (nc_mean v)))).
Lemma xother_rays : rays_ok (n_cs xgrid) (xtp (xbtw (n_pose xother) (n_pose xgrid)) (0, 0)%Q)
  (map (xtcell (xbtw (n_pose xother) (n_pose xgrid))) (getValidCells (n_vox xother))).
Proof.
  intros e H G.
  assert (F : forallb (ray_ok_b (n_cs xgrid) (xtp (xbtw (n_pose xother) (n_pose xgrid)) (0, 0)%Q))
    (map (xtcell (xbtw (n_pose xother) (n_pose xgrid))) (getValidCells (n_vox xother))) = true)
    by (vm_compute; reflexivity).
  rewrite forallb_forall in F. apply F in H. unfold ray_ok_b in H. rewrite G in H.
  cbn [negb orb] in H. apply andb_true_iff in H. destruct H as [H1 H2].
  split; [apply Qle_bool_iff; exact H1|].
  apply negb_true_iff in H2. apply Qnot_le_lt. intro K. apply Qle_bool_iff in K. congruence.
Qed.

(** A grid three cells wide and two high. *)
Definition xsmall : ngrid (positive * Q) :=
  match mergeInCells xmerge xfresh
    [xc (-12#10) (9#10) 6; mkC (11#10, 0)%Q true (7%positive, 7#10)%Q] true
  with Ok g => g | _ => xfresh end.
