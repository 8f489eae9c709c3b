(** Starting a frame from a scan; radius and centroid of a frame; the cells used
    as examples. *)
From Coq Require Import List ZArith QArith Qround Qabs Lqa Lia Bool.
From Coq Require Import ZifyBool ZifyNat.
From Verif Require Import Base QLemmas VoxelModel VoxelSpec VoxelProofs VoxelOps VoxelAdd
  VoxelQuery VoxelRay VoxelHist VoxelFinal GridModel GridSpec GridProofs GridOps GridCases
  ScanSpec ScanProofs.
Import ListNotations.
Open Scope nat_scope.

Lemma mergeInCells_init {X} (merge : ncell X -> ncell X -> ncell X) (g g' : ngrid X) l r :
  mergeInCells merge g l r = Ok g' -> n_init g' = true.
Proof.
  unfold mergeInCells. destruct (r || negb (n_init g)) eqn:E.
  - destruct (bbox (map nc_mean l)) as [[[x0 y0] x1] y1]. intro H.
    apply bind_ok_inv in H. destruct H as (v0 & _ & H).
    apply bind_ok_inv in H. destruct H as (v1 & _ & H). injection H as <-. reflexivity.
  - intro H. apply bind_ok_inv in H. destruct H as (v1 & _ & H). injection H as <-.
    cbn. destruct r, (n_init g); [discriminate..|reflexivity|discriminate].
Qed.

Lemma scan_init {X L} merge dflt addPt compute tcell occRay btw tp (g g' : ngrid X) pcl o r :
  mergeInTracedPcl (X := X) (L := L) merge dflt addPt compute tcell occRay btw tp g pcl o r = Ok g' ->
  n_init g' = true.
Proof.
  unfold mergeInTracedPcl, mergeInTraced. intro H. apply bind_ok_inv in H. destruct H as (l & _ & H).
  apply bind_ok_inv in H. destruct H as (v & _ & H). eapply mergeInCells_init. exact H.
Qed.

Section P.
Set Default Proof Using "Type".
Context {X L : Type}.
Notation cell := (ncell X).
Variable merge : cell -> cell -> cell.
Variable dflt : cell.
Variable addPt : cell -> point -> cell.
Variable compute : cell -> cell.
Variable tcell : qtrans L -> cell -> cell.
Variable occRay : cell -> point -> cell -> cell.
Variable btw : qpose -> qpose -> qtrans L.
Variable tp : qtrans L -> point -> point.
Notation scan_cell := (scan_cell dflt addPt compute).

Lemma origin_cell (v : vgrid cell) p : wf v -> peq p (0, 0)%Q ->
  in_cell (cell_size v) (0, 0)%Z p /\ in_box v (0, 0)%Z = true.
Proof.
  clear dflt merge addPt compute occRay tcell btw tp. intros W [A B]. cbn [fst snd] in A, B. split.
  - pose proof (wf_cs v W) as H. unfold in_cell. cbn [fst snd]. change (inject_Z 0) with 0%Q.
    rewrite A, B. repeat split; lra.
  - unfold in_box. cbn [fst snd]. lia.
Qed.

Lemma initialize_spec (g : ngrid X) pcl : nwf g -> nc_gauss dflt = false ->
  means_average dflt addPt compute -> occ_only occRay ->
  let scan := seen_from btw tp g (n_pose g) pcl in
  let start := tp (btw (n_pose g) (n_pose g)) (0, 0)%Q in
  peq start (0, 0)%Q ->
  (forall p, In (Some p) scan -> off_border (n_cs g) p) ->
  scan_rays dflt addPt compute (n_cs g) start scan ->
  exists g', n_initialize merge dflt addPt compute tcell occRay btw tp g pcl = Ok g' /\ nwf g' /\
    same_header g g' /\ n_init g' = true /\ grows (n_vox g) (n_vox g') /\ cloud_current g' /\
    (forall c x, content (n_vox g') c = Some x /\ nc_gauss x = true <->
                 scan_cell (n_cs g) scan c = Some x) /\
    (forall c x, content (n_vox g') c = Some x -> nc_gauss x = false ->
                 on_beam dflt addPt compute (n_cs g) start scan c).
Proof.
  intros W ND MA OO scan start PS O R. unfold n_initialize.
  destruct W as [W CS].
  destruct (clear_spec (n_vox g) W) as (WC & CC & _ & C1 & C2 & C3 & C4 & C5).
  set (h := with_vox g (clear (n_vox g))).
  assert (WH : nwf h) by (split; [exact WC|cbn; congruence]).
  destruct (origin_cell (n_vox h) start WC PS) as [I0 B0].
  destruct (scan_replace merge dflt tcell addPt compute occRay btw tp MA h pcl (n_pose g) WH O
              true (0, 0)%Z (or_introl eq_refl) OO)
    as (g' & mid & E & W' & SH & GR & CL & FR & CT).
  { destruct WH as [_ E]. rewrite E. exact I0. }
  { exact B0. }
  { exact R. }
  exists g'. split; [exact E|]. split; [exact W'|]. split; [exact SH|].
  split; [eapply scan_init; exact E|].
  split. { eapply vgrows_trans; [|exact GR].
    subst h; cbn [n_vox with_vox]; clear; unfold clear, with_cells, grows. cbn. repeat split; lia. }
  split; [exact CL|].
  change (n_cs h) with (n_cs g) in *.
  change (seen_from btw tp h (n_pose g) pcl) with scan in *.
  change (tp (btw (n_pose g) (n_pose h)) (0, 0)%Q) with start in *.
  assert (MID : forall c x, mid c = Some x -> nc_gauss x = false /\
                  on_beam dflt addPt compute (n_cs g) start scan c).
  { intros c x Ex. destruct (FR c) as [F|(OB & y & Ey & F)].
    - rewrite F in Ex. cbn [n_vox with_vox] in Ex. rewrite CC in Ex. discriminate.
    - assert (y = x) by congruence. subst y. cbn [n_vox with_vox] in F. rewrite CC in F.
      destruct F as [_ F]. split; [|exact OB]. apply not_true_is_false. intro Y. apply F in Y. congruence. }
  split.
  - intros c x. rewrite CT. destruct (scan_cell (n_cs g) scan c) as [y|] eqn:S.
    + split; [intros [H _]; exact H|]. intro H. split; [exact H|]. injection H as <-.
      apply (scan_cell_inner dflt addPt compute MA (n_cs g) scan c y O S).
    + split; [|discriminate]. intros [H G]. destruct (MID c x H). congruence.
  - intros c x H G. rewrite CT in H. destruct (scan_cell (n_cs g) scan c) as [y|] eqn:S.
    + injection H as ->. destruct (scan_cell_inner dflt addPt compute MA (n_cs g) scan c x O S). congruence.
    + apply (MID c x H).
Qed.
End P.

(** ** radius and centroid *)
Lemma centroid_double {X} (g : ngrid X) p : window_centre g p ->
  (fst (getCentroid g) == 2 * fst p)%Q /\ (snd (getCentroid g) == 2 * snd p)%Q.
Proof.
  intro H. set (v := n_vox g).
  destruct (H (- Z.of_nat (w_left v), - Z.of_nat (h_down v))%Z (Z.of_nat (w_right v), Z.of_nat (h_up v)))
    as [A B].
  - unfold in_box. cbn [fst snd]. subst v. lia.
  - unfold in_box. cbn [fst snd]. subst v. lia.
  - intros [a b] I. unfold in_box in I. cbn [fst snd] in *. subst v. lia.
  - unfold centre in A, B. cbn [fst snd] in A, B. unfold getCentroid, qn. cbn [fst snd].
    rewrite A, B. rewrite !inject_Z_opp. subst v. split; ring.
Qed.
Lemma window_centre_ok {X} (g : ngrid X) :
  window_centre g (fst (getCentroid g) / 2, snd (getCentroid g) / 2)%Q.
Proof.
  intros [a a'] [b b'] IA IB H. unfold in_box in IA, IB. cbn [fst snd] in IA, IB.
  destruct (H (- Z.of_nat (w_left (n_vox g)), - Z.of_nat (h_down (n_vox g)))%Z) as [H1 H2].
  { unfold in_box. cbn [fst snd]. lia. }
  destruct (H (Z.of_nat (w_right (n_vox g)), Z.of_nat (h_up (n_vox g)))%Z) as [H3 H4].
  { unfold in_box. cbn [fst snd]. lia. }
  cbn [fst snd] in *.
  assert (a = - Z.of_nat (w_left (n_vox g)))%Z by lia. assert (a' = - Z.of_nat (h_down (n_vox g)))%Z by lia.
  assert (b = Z.of_nat (w_right (n_vox g)))%Z by lia. assert (b' = Z.of_nat (h_up (n_vox g)))%Z by lia.
  subst. unfold centre, getCentroid, qn. cbn [fst snd]. rewrite !inject_Z_opp. split; field.
Qed.

Lemma between_sq a b x : (a <= x)%Q -> (x <= b)%Q -> (- b <= a)%Q -> (x * x <= b * b)%Q.
Proof. intros. nra. Qed.
(** the reach of a window from a point at most [w] and [h] away along the axes *)
Lemma reach_le (w h x y cs : Q) : (0 <= w)%Q -> (0 <= h)%Q -> (0 <= cs)%Q -> (15 * h <= 8 * w)%Q ->
  (- w <= x)%Q -> (x <= w)%Q -> (- h <= y)%Q -> (y <= h)%Q ->
  ((x * cs) * (x * cs) + (y * cs) * (y * cs) <= (w * cs + h * cs / 4) * (w * cs + h * cs / 4))%Q.
Proof.
  intros W H C HW X1 X2 Y1 Y2.
  assert (A : (x * x <= w * w)%Q) by (apply (between_sq (- w)); lra).
  assert (B : (y * y <= h * h)%Q) by (apply (between_sq (- h)); lra).
  assert (D : (h * h * 15 <= 8 * (w * h))%Q) by nra.
  setoid_replace ((x * cs) * (x * cs) + (y * cs) * (y * cs))%Q with ((x * x + y * y) * (cs * cs))%Q by ring.
  setoid_replace ((w * cs + h * cs / 4) * (w * cs + h * cs / 4))%Q
    with ((w * w + w * h * (1#2) + h * h * (1#16)) * (cs * cs))%Q by field.
  apply Qmult_le_compat_r; [|nra]. lra.
Qed.

Lemma qn_add a b : (qn (a + b) == qn a + qn b)%Q.
Proof. unfold qn. rewrite Nat2Z.inj_add, inject_Z_plus. reflexivity. Qed.
Lemma qn_pos a : (0 <= qn a)%Q.
Proof. unfold qn. change 0%Q with (inject_Z 0). rewrite <- Zle_Qle. lia. Qed.

Lemma radius_from {X} (g : ngrid X) (k : Q) : (0 <= n_cs g)%Q -> (0 <= k)%Q -> (k <= 1)%Q ->
  15 * height (n_vox g) <= 8 * width (n_vox g) ->
  reaches g (k * fst (getCentroid g), k * snd (getCentroid g))%Q (getRadius g).
Proof.
  intros HC K0 K1 HW.
  assert (HQ : (15 * qn (height (n_vox g)) <= 8 * qn (width (n_vox g)))%Q).
  { unfold qn. change 15%Q with (inject_Z 15). change 8%Q with (inject_Z 8).
    rewrite <- !inject_Z_mult, <- Zle_Qle. lia. }
  pose proof (qn_pos (w_left (n_vox g))) as PL. pose proof (qn_pos (w_right (n_vox g))) as PR.
  pose proof (qn_pos (h_up (n_vox g))) as PU. pose proof (qn_pos (h_down (n_vox g))) as PD.
  assert (EW : (qn (width (n_vox g)) == qn (w_left (n_vox g)) + qn (w_right (n_vox g)) + 1)%Q).
  { unfold width. rewrite !qn_add. reflexivity. }
  assert (EH : (qn (height (n_vox g)) == qn (h_up (n_vox g)) + qn (h_down (n_vox g)) + 1)%Q).
  { unfold height. rewrite !qn_add. reflexivity. }
  unfold reaches, getRadius.
  set (w := qn (width (n_vox g))) in *. set (h := qn (height (n_vox g))) in *. clearbody w h.
  set (lf := qn (w_left (n_vox g))) in *. set (rt := qn (w_right (n_vox g))) in *.
  set (up := qn (h_up (n_vox g))) in *. set (dn := qn (h_down (n_vox g))) in *.
  split; [setoid_replace (w * n_cs g + h * n_cs g / 4)%Q with ((w + h * (1#4)) * n_cs g)%Q by field; apply Qmult_le_0_compat; [lra|exact HC]|].
  intros [a b] I. unfold in_box in I. cbn [fst snd] in I. unfold sq_dist, centre, getCentroid. cbn [fst snd].
  fold lf rt up dn.
  assert (A1 : (- lf <= inject_Z a)%Q) by (unfold lf, qn; rewrite <- inject_Z_opp, <- Zle_Qle; lia).
  assert (A2 : (inject_Z a <= rt)%Q) by (unfold rt, qn; rewrite <- Zle_Qle; lia).
  assert (B1 : (- dn <= inject_Z b)%Q) by (unfold dn, qn; rewrite <- inject_Z_opp, <- Zle_Qle; lia).
  assert (B2 : (inject_Z b <= up)%Q) by (unfold up, qn; rewrite <- Zle_Qle; lia).
  set (ia := inject_Z a) in *. set (ib := inject_Z b) in *. set (cs := n_cs g) in *.
  clearbody lf rt up dn ia ib cs. clear I HW.
  setoid_replace (ia * cs - k * (rt * cs - lf * cs))%Q with ((ia - k * (rt - lf)) * cs)%Q by ring.
  setoid_replace (ib * cs - k * (up * cs - dn * cs))%Q with ((ib - k * (up - dn)) * cs)%Q by ring.
  assert (k * rt <= rt)%Q by nra. assert (k * lf <= lf)%Q by nra.
  assert (k * up <= up)%Q by nra. assert (k * dn <= dn)%Q by nra.
  assert (0 <= k * rt)%Q by nra. assert (0 <= k * lf)%Q by nra.
  assert (0 <= k * up)%Q by nra. assert (0 <= k * dn)%Q by nra.
  apply reach_le; try lra.
Qed.

(** ** example cells: they keep the points added; from six points on, computing
    makes a distribution with their average as its mean *)
Definition pcell_t := ncell (list point).
Definition pdflt : pcell_t := mkC (0, 0)%Q false [].
Definition padd (c : pcell_t) (p : point) : pcell_t :=
  mkC (nc_mean c) (nc_gauss c) (nc_rest c ++ [p]).
Definition pcompute (c : pcell_t) : pcell_t :=
  let l := nc_rest c in
  if Nat.leb 6 (length l)
  then mkC (sumQ (map fst l) / inject_Z (Z.of_nat (length l)),
            sumQ (map snd l) / inject_Z (Z.of_nat (length l)))%Q true l
  else c.
Definition pmerge (a b : pcell_t) : pcell_t :=
  if nc_gauss b then
    if nc_gauss a then
      let na := inject_Z (Z.of_nat (length (nc_rest a))) in
      let s := (na / (na + inject_Z (Z.of_nat (length (nc_rest b)))))%Q in
      mkC (s * fst (nc_mean a) + (1 - s) * fst (nc_mean b), s * snd (nc_mean a) + (1 - s) * snd (nc_mean b))%Q
          true (nc_rest a ++ nc_rest b)
    else b
  else a.
Definition ptrans (t : qtrans unit) (c : pcell_t) : pcell_t :=
  if nc_gauss c then mkC (xtp t (nc_mean c)) true (map (xtp t) (nc_rest c)) else c.
Definition pray (c : pcell_t) (s : point) (e : pcell_t) : pcell_t := c.
Lemma pray_occ_only : occ_only pray.
Proof. intros c s e. split; [reflexivity|]. intro H. exact H. Qed.
Lemma padd_all l : forall c, fold_left padd l c = mkC (nc_mean c) (nc_gauss c) (nc_rest c ++ l).
Proof.
  induction l as [|p t IH]; intros [m b r]; cbn; [rewrite app_nil_r; reflexivity|].
  rewrite IH. cbn. rewrite <- app_assoc. reflexivity.
Qed.
Lemma pmeans : means_average pdflt padd pcompute.
Proof.
  intro ps. rewrite padd_all. cbn. unfold pcompute. cbn [nc_rest nc_mean nc_gauss app].
  destruct (Nat.leb 6 (length ps)) eqn:E; [|discriminate]. intros _. cbn [nc_mean nc_gauss fst snd].
  apply Nat.leb_le in E. destruct ps as [|p t]; [cbn in E; lia|]. split; [discriminate|].
  assert (N : ~ (inject_Z (Z.of_nat (length (p :: t))) == 0)%Q).
  { change 0%Q with (inject_Z 0). rewrite inject_Z_injective. cbn [length]. lia. }
  cbn [fst snd]. split; field; exact N.
Qed.
(** Two obstacles seen from a sensor, one of them by too few beams. *)
Definition pscan : list (option point) :=
  [Some (31#10, 12#10); Some (29#10, 11#10); None; Some (28#10, 7#10); Some (30#10, 8#10);
   Some (33#10, 9#10); Some (32#10, 10#10); Some (-22#10, 1#10); Some (-21#10, 2#10)]%Q.
Definition pfresh : ngrid (list point) := n_setCellSize (n_new pdflt 0) 1.
Definition pgrid : ngrid (list point) :=
  Eval vm_compute in
  match n_initialize pmerge pdflt padd pcompute ptrans pray xbtw xtp pfresh pscan with
  | Ok g => g | _ => pfresh end.
Lemma pgrid_reachable :
  n_initialize pmerge pdflt padd pcompute ptrans pray xbtw xtp pfresh pscan = Ok pgrid.
Proof. vm_compute. reflexivity. Qed.
Lemma pgrid_nwf : nwf pgrid.
Proof. vm_compute. repeat split. Qed.

(** hypotheses of the scan theorems, by computation *)
Definition scan_off_b (cs : Q) (l : list (option point)) : bool :=
  forallb (fun o => match o with Some p => off_b cs p | None => true end) l.
Lemma scan_off_ok cs l : (0 < cs)%Q -> scan_off_b cs l = true ->
  forall p, In (Some p) l -> off_border cs p.
Proof.
  intros H F p I. apply off_b_ok; [exact H|]. unfold scan_off_b in F. rewrite forallb_forall in F.
  apply (F _ I).
Qed.
(** every distribution of a scan is in the square of one of its points *)
Lemma scan_cell_point {X} (dflt : ncell X) addPt compute cs pcl c x :
  means_average dflt addPt compute -> (0 < cs)%Q ->
  scan_cell dflt addPt compute cs pcl c = Some x ->
  exists p, In (Some p) pcl /\ c = cell_of cs p.
Proof.
  intros MA H. unfold scan_cell.
  destruct (points_in cs c pcl) as [|p t] eqn:E.
  - cbn [fold_left]. rewrite (dflt_none dflt addPt compute MA). discriminate.
  - intros _. exists p. assert (I : In p (points_in cs c pcl)) by (rewrite E; left; reflexivity).
    unfold points_in in I. apply filter_In in I. destruct I as [I B]. apply in_cell_b_iff in B.
    split; [|symmetry; apply in_cell_unique; assumption].
    apply in_flat_map in I. destruct I as ([q|] & Iq & Ip); [|destruct Ip].
    destruct Ip as [->|[]]. exact Iq.
Qed.
Definition scan_rays_b (cs : Q) (start : point) (l : list (option point)) : bool :=
  forallb (fun o => match o with
    | None => true
    | Some p => match scan_cell pdflt padd pcompute cs l (cell_of cs p) with
      | None => true
      | Some x => Qle_bool 1 (seg_len cs start (nc_mean x)) &&
                  negb (Qle_bool (inject_Z (2^63)) (seg_len cs start (nc_mean x)))
      end end) l.
Lemma scan_rays_ok cs start l : (0 < cs)%Q -> scan_rays_b cs start l = true ->
  scan_rays pdflt padd pcompute cs start l.
Proof.
  intros H F c x E. destruct (scan_cell_point _ _ _ _ _ _ _ pmeans H E) as (p & I & ->).
  unfold scan_rays_b in F. rewrite forallb_forall in F. specialize (F _ I). cbn beta iota in F.
  rewrite E in F. apply andb_true_iff in F. destruct F as [F1 F2].
  split; [apply Qle_bool_iff; exact F1|].
  apply negb_true_iff in F2. apply Qnot_le_lt. intro K. apply Qle_bool_iff in K. congruence.
Qed.

(** A frame for the turn by the angle with the given cosine and sine. *)
Definition rot (t : qtrans (Q * Q)) (p : point) : point :=
  let '(c, s) := tr_lin t in
  (c * fst p - s * snd p + tr_x t, s * fst p + c * snd p + tr_y t)%Q.
Definition rtcell (t : qtrans (Q * Q)) (v : xcell) : xcell :=
  if nc_gauss v then mkC (rot t (nc_mean v)) true (nc_rest v) else v.
Definition rmove (o : qpose) (t : qtrans (Q * Q)) : qpose :=
  mkPose (Qred (p_x o + tr_x t)) (Qred (p_y o + tr_y t)) (p_th o).
Definition rgrid : ngrid (positive * Q) := Eval vm_compute in
  match mergeInCells xmerge xfresh
    [xc (14#10) (9#10) 6; xc (16#10) (12#10) 7; xc (-24#10) (1#10) 9] true
  with Ok g => g | _ => xfresh end.
Lemma rgrid_nwf : nwf rgrid.
Proof. vm_compute. repeat split. Qed.
(** One column, eleven rows. *)
Definition tall : ngrid (positive * Q) := Eval vm_compute in
  match mergeInCells xmerge xfresh [xc 0 10 6] true with Ok g => g | _ => xfresh end.
Lemma tall_reachable : mergeInCells xmerge xfresh [xc 0 10 6] true = Ok tall.
Proof. vm_compute. reflexivity. Qed.
Lemma reaches_peq {X} (g : ngrid X) p q r : peq p q -> reaches g p r -> reaches g q r.
Proof.
  intros [A B] [R H]. split; [exact R|]. intros c I. specialize (H c I). unfold sq_dist in *.
  rewrite A, B in H. exact H.
Qed.
Lemma radius_both {X} (g : ngrid X) : (0 <= n_cs g)%Q ->
  15 * height (n_vox g) <= 8 * width (n_vox g) ->
  reaches g (getCentroid g) (getRadius g) /\
  forall p, window_centre g p -> reaches g p (getRadius g).
Proof.
  intros HC HW. split.
  - apply (reaches_peq g (1 * fst (getCentroid g), 1 * snd (getCentroid g))%Q);
      [split; cbn [fst snd]; ring|].
    apply radius_from; auto; lra.
  - intros p HP. destruct (centroid_double g p HP) as [A B].
    apply (reaches_peq g ((1#2) * fst (getCentroid g), (1#2) * snd (getCentroid g))%Q).
    + split; cbn [fst snd]; [rewrite A|rewrite B]; ring.
    + apply radius_from; auto; lra.
Qed.
Lemma tall_short : ~ reaches tall (getCentroid tall) (getRadius tall) /\
  forall p, window_centre tall p -> ~ reaches tall p (getRadius tall).
Proof.
  split.
  - intros [_ H]. specialize (H (0, 0)%Z eq_refl). apply Qle_bool_iff in H. vm_compute in H. discriminate.
  - intros p HP [_ H]. specialize (H (0, 0)%Z eq_refl).
    destruct (centroid_double tall p HP) as [A B].
    assert (A' : (0 == 2 * fst p)%Q) by (rewrite <- A; reflexivity).
    assert (B' : (10 == 2 * snd p)%Q) by (rewrite <- B; reflexivity).
    assert (EX : (fst p == 0)%Q) by lra. assert (EY : (snd p == 5)%Q) by lra.
    unfold sq_dist in H. rewrite EX, EY in H. apply Qle_bool_iff in H. vm_compute in H. discriminate.
Qed.
