(** Proofs: how far the running window reaches. *)
From Coq Require Import Reals Qreals List ZArith QArith Qabs Qround Bool Lia Arith Lqa Setoid.
From Verif Require Import Base LinAlg3 GeoModel GeoSpec GeoProofs.
From Verif Require Import GraphModel LoopModel SlamModel AlgModel AlgSpec AlgProofs.
From Verif Require Import QLemmas VoxelModel VoxelSpec VoxelProofs GridModel GridSpec GridProofs ScanSpec ScanProofs MapModel MapSpec MapDraw CellsFrom.
From Verif Require Import SysModel SysSpec SysProofs SysMap SysCloud SysWindow SysHull WinSpec.
Import ListNotations.
Open Scope nat_scope.
Set Default Proof Using "Type".

Section Voxels.
Context {C : Type}.
Notation vgrid := (vgrid C).
(** Reaches at least [r], at most [r] and a cell. *)
Definition spans (r : Q) (v : vgrid) : Prop :=
  (minx v <= - r /\ r <= maxx v /\ miny v <= - r /\ r <= maxy v)%Q.
Definition stays (r : Q) (v : vgrid) : Prop :=
  (- r - cell_size v < minx v /\ maxx v < r + cell_size v /\ - r - cell_size v < miny v /\ maxy v < r + cell_size v)%Q.
Definition same (v v' : vgrid) : Prop :=
  cell_size v' = cell_size v /\ w_left v' = w_left v /\ w_right v' = w_right v /\ h_up v' = h_up v /\ h_down v' = h_down v.
Definition grown (v v' : vgrid) : Prop :=
  cell_size v' = cell_size v /\ w_left v <= w_left v' /\ w_right v <= w_right v' /\ h_up v <= h_up v' /\ h_down v <= h_down v'.
Lemma same_refl v : same v v. Proof. repeat split. Qed.
Lemma same_trans a b c : same a b -> same b c -> same a c.
Proof. unfold same. intuition congruence. Qed.
Lemma same_grown a b : same a b -> grown a b.
Proof. unfold same, grown. intros (A & B & E & F & G). rewrite B, E, F, G. auto. Qed.
Lemma grown_refl v : grown v v. Proof. repeat split; lia. Qed.
Lemma grown_trans a b c : grown a b -> grown b c -> grown a c.
Proof. unfold grown. intros (A & B) (E & F). split; [congruence|lia]. Qed.
Lemma same_stays r a b : same a b -> stays r a -> stays r b.
Proof. intros (A & B & E & F & G). unfold stays, minx, maxx, miny, maxy, half. rewrite A, B, E, F, G. auto. Qed.

Lemma qn_le a b : a <= b -> (qn a <= qn b)%Q.
Proof. intro H. unfold qn. rewrite <- Zle_Qle. lia. Qed.
Lemma grown_spans r a b : (0 < cell_size a)%Q -> grown a b -> spans r a -> spans r b.
Proof.
  intros HC (A & B & E & F & G). unfold spans, minx, maxx, miny, maxy, half. rewrite A.
  pose proof (qn_le _ _ B). pose proof (qn_le _ _ E). pose proof (qn_le _ _ F). pose proof (qn_le _ _ G).
  set (s := cell_size a) in *. intros (K1 & K2 & K3 & K4). repeat split; nra.
Qed.

Lemma ceil_steps (s d : Q) : (0 < s)%Q -> (0 < d)%Q ->
  (d <= qn (Z.to_nat (Qceiling (d / s))) * s /\ qn (Z.to_nat (Qceiling (d / s))) * s < d + s)%Q.
Proof.
  intros HS HD. pose proof (Qceiling_spec (d / s)) as [A B].
  pose proof (Qdiv_mul d s HS) as E. set (u := (d / s)%Q) in *.
  assert (P : (0 < u)%Q). { unfold u. apply Qlt_shift_div_l; [exact HS|]. lra. }
  assert (Z0 : (0 <= Qceiling u)%Z).
  { rewrite Zle_Qle. change (inject_Z 0) with 0%Q. lra. }
  unfold qn. rewrite Z2Nat.id by exact Z0. set (k := inject_Z (Qceiling u)) in *. rewrite E. split; nra.
Qed.
Lemma qn_add a b : (qn (a + b) == qn a + qn b)%Q.
Proof. unfold qn. rewrite Nat2Z.inj_add, inject_Z_plus. reflexivity. Qed.
Lemma ltb_spec a b : Qlt_b a b = true <-> (a < b)%Q.
Proof.
  unfold Qlt_b. rewrite negb_true_iff. split.
  - intro H. apply Qnot_le_lt. intro L. apply Qle_bool_iff in L. congruence.
  - intro H. apply not_true_is_false. intro L. apply Qle_bool_iff in L. lra.
Qed.
Lemma ltb_false a b : Qlt_b a b = false -> (b <= a)%Q.
Proof. intro H. apply Qnot_lt_le. intro L. apply ltb_spec in L. congruence. Qed.

(** enlarging *)
Lemma enlargeGrid_size (g g' : vgrid) l r u d : enlargeGrid g l r u d = Ok g' ->
  cell_size g' = cell_size g /\ w_left g' = w_left g + l /\ w_right g' = w_right g + r /\ h_up g' = h_up g + u /\ h_down g' = h_down g + d.
Proof.
  unfold enlargeGrid. destruct (Nat.eqb_spec (l + r + u + d) 0) as [H|H].
  - intro E. injection E as <-. repeat split; lia.
  - intro E. apply bind_ok_inv in E. destruct E as ([[lg wu] ox] & _ & E). injection E as <-. repeat split.
Qed.
Lemma enlarge_size (g g' : vgrid) x0 y0 x1 y1 : (0 < cell_size g)%Q -> enlarge g x0 y0 x1 y1 = Ok g' ->
  grown g g' /\ (minx g' <= x0 /\ x1 <= maxx g' /\ miny g' <= y0 /\ y1 <= maxy g')%Q /\
  (forall r, 0 <= r -> - r <= x0 -> x1 <= r -> - r <= y0 -> y1 <= r -> stays r g -> stays r g')%Q.
Proof.
  intros HC E. apply enlargeGrid_size in E. destruct E as (A & B & F & G & H).
  split; [split; [exact A|lia]|].
  unfold stays, minx, maxx, miny, maxy, half. rewrite A, B, F, G, H. clear A B F G H g'.
  unfold calcIncLeft, calcIncRight, calcIncUp, calcIncDown.
  assert (K : forall b x, (if Qlt_b b x then Z.to_nat (Qceiling ((x - b) / cell_size g)) else 0) = 0 /\ (x <= b)%Q \/
     (b < x /\ x - b <= qn (if Qlt_b b x then Z.to_nat (Qceiling ((x - b) / cell_size g)) else 0) * cell_size g /\
      qn (if Qlt_b b x then Z.to_nat (Qceiling ((x - b) / cell_size g)) else 0) * cell_size g < x - b + cell_size g)%Q).
  { intros b x. destruct (Qlt_b b x) eqn:L.
    - apply ltb_spec in L. right. split; [exact L|]. apply ceil_steps; [exact HC|lra].
    - apply ltb_false in L. left. auto. }
  assert (K' : forall b x, (if Qlt_b x b then Z.to_nat (Qceiling ((b - x) / cell_size g)) else 0) = 0 /\ (b <= x)%Q \/
     (x < b /\ b - x <= qn (if Qlt_b x b then Z.to_nat (Qceiling ((b - x) / cell_size g)) else 0) * cell_size g /\
      qn (if Qlt_b x b then Z.to_nat (Qceiling ((b - x) / cell_size g)) else 0) * cell_size g < b - x + cell_size g)%Q).
  { intros b x. destruct (Qlt_b x b) eqn:L.
    - apply ltb_spec in L. right. split; [exact L|]. apply ceil_steps; [exact HC|lra].
    - apply ltb_false in L. left. auto. }
  pose proof (K' (minx g) x0) as K1. pose proof (K (maxx g) x1) as K2. pose proof (K (maxy g) y1) as K3. pose proof (K' (miny g) y0) as K4.
  unfold minx, maxx, miny, maxy, half in *.
  set (cl := if Qlt_b x0 _ then _ else 0) in *. set (cr := if Qlt_b _ x1 then _ else 0) in *.
  set (cu := if Qlt_b _ y1 then _ else 0) in *. set (cd := if Qlt_b y0 _ then _ else 0) in *.
  rewrite !qn_add. set (s := cell_size g) in *. assert (Z0 : (qn 0 == 0)%Q) by reflexivity.
  clearbody cl cr cu cd s. clear K K'.
  split.
  - destruct K1 as [[-> K1]|K1], K2 as [[-> K2]|K2], K3 as [[-> K3]|K3], K4 as [[-> K4]|K4]; rewrite ?Z0; repeat split; lra.
  - intros r R0 X0 X1 Y0 Y1 (S1 & S2 & S3 & S4).
    rewrite !qn_add; destruct K1 as [[-> K1]|K1], K2 as [[-> K2]|K2], K3 as [[-> K3]|K3], K4 as [[-> K4]|K4]; rewrite ?Z0; repeat split; lra.
Qed.
Lemma fit_size (g g' : vgrid) p : (0 < cell_size g)%Q -> enlargeToFit g p = Ok g' ->
  grown g g' /\ (forall r, 0 <= r -> inbox r p -> stays r g -> stays r g')%Q.
Proof.
  intros HC. unfold enlargeToFit. destruct (isInside g p).
  - intro E. injection E as <-. split; [apply grown_refl|auto].
  - intro E. change (enlarge g (fst p) (snd p) (fst p) (snd p) = Ok g') in E. apply enlarge_size in E; [|exact HC].
    destruct E as (A & _ & B). split; [exact A|]. intros r R0 [P1 P2]. apply B; lra.
Qed.
Lemma same_cells (g : vgrid) l : same g (with_cells g l).
Proof. repeat split. Qed.
Lemma addCell_size merge (g g' : vgrid) p c m : (0 < cell_size g)%Q -> addCell merge g p c m = Ok g' ->
  grown g g' /\ (forall r, 0 <= r -> inbox r p -> stays r g -> stays r g')%Q.
Proof.
  intros HC E. unfold addCell in E. apply bind_ok_inv in E. destruct E as (g1 & E1 & E).
  apply bind_ok_inv in E. destruct E as (i & _ & E). apply bind_ok_inv in E. destruct E as (o & _ & E).
  apply fit_size in E1; [|exact HC]. destruct E1 as [A B].
  assert (S : same g1 g') by (destruct o; injection E as <-; repeat split).
  split; [eapply grown_trans; [exact A|apply same_grown; exact S]|].
  intros r R0 P T. eapply same_stays; [exact S|]. auto.
Qed.
Lemma rayTrace_same dflt (g : vgrid) s e r : rayTrace dflt g s e = Ok r -> same g (fst r).
Proof.
  unfold rayTrace. destruct (isInside g s); cbn [negb]; intro E; [|injection E as <-; apply same_refl].
  apply bind_ok_inv in E. destruct E as (i & _ & E). apply bind_ok_inv in E. destruct E as (l & _ & E).
  destruct (Qeq_bool _ _); [discriminate|]. destruct (iter_N _ _ _); try discriminate; injection E as <-; apply same_cells.
Qed.
Lemma move_same (g g' : vgrid) n : (moveLeft g n = Ok g' -> same g g') /\ (moveRight g n = Ok g' -> same g g') /\
  (moveUp g n = Ok g' -> same g g') /\ (moveDown g n = Ok g' -> same g g').
Proof.
  unfold moveLeft, moveRight, moveUp, moveDown.
  destruct (n =? 0); [split; [|split; [|split]]; intro E; injection E as <-; apply same_refl|]. cbv zeta.
  split; [|split; [|split]]; intro E; apply bind_ok_inv in E;
    [destruct E as ([[l u] w] & _ & E)|destruct E as ([[l u] w] & _ & E)|destruct E as (l & _ & E)|destruct E as (l & _ & E)];
    injection E as <-; apply same_cells.
Qed.
Lemma translate_same (g g' : vgrid) x y : translate g x y true = Ok g' -> same g g'.
Proof.
  unfold translate. cbv zeta. cbn [bind]. intro E. apply bind_ok_inv in E. destruct E as (g1 & E1 & E).
  apply bind_ok_inv in E. destruct E as (g2 & E2 & E). apply bind_ok_inv in E. destruct E as (g3 & E3 & E).
  apply (proj1 (move_same _ _ _)) in E1. apply (proj1 (proj2 (move_same _ _ _))) in E2.
  apply (proj1 (proj2 (proj2 (move_same _ _ _)))) in E3. apply (proj2 (proj2 (proj2 (move_same _ _ _)))) in E.
  eauto using same_trans.
Qed.
End Voxels.

Section Inside.
Context {C : Type}.
Notation vgrid := (vgrid C).
Lemma inside_iff (g : vgrid) p : isInside g p = true <-> (minx g <= fst p /\ fst p <= maxx g /\ miny g <= snd p /\ snd p <= maxy g)%Q.
Proof. unfold isInside. rewrite !andb_true_iff, !Qle_bool_iff. tauto. Qed.
Lemma width_span (g : vgrid) : (qn (width g) * cell_size g == maxx g - minx g /\ qn (height g) * cell_size g == maxy g - miny g)%Q.
Proof.
  unfold width, height, maxx, minx, maxy, miny, half. rewrite !qn_add. change (qn 1) with 1%Q. split; field.
Qed.
Lemma spans_inside r (g : vgrid) : spans r g -> (forall p, inbox r p -> isInside g p = true) /\
  (2 * r <= qn (width g) * cell_size g /\ 2 * r <= qn (height g) * cell_size g)%Q.
Proof.
  intros (A & B & E & F). split.
  - intros p [P1 P2]. apply inside_iff. repeat split; lra.
  - destruct (width_span g) as [W H]. rewrite W, H. split; lra.
Qed.
Lemma stays_inside r (g : vgrid) : stays r g -> (forall p, isInside g p = true -> inbox (r + cell_size g) p) /\
  (qn (width g) * cell_size g < 2 * r + 2 * cell_size g /\ qn (height g) * cell_size g < 2 * r + 2 * cell_size g)%Q.
Proof.
  intros (A & B & E & F). split.
  - intros p I. apply inside_iff in I. split; lra.
  - destruct (width_span g) as [W H]. rewrite W, H. split; lra.
Qed.
Lemma grown_inside (g g' : vgrid) p : (0 < cell_size g)%Q -> grown g g' -> isInside g p = true -> isInside g' p = true.
Proof.
  intros HC (A & B & E & F & G) I. apply inside_iff in I. apply inside_iff. revert I.
  unfold minx, maxx, miny, maxy, half. rewrite A.
  pose proof (qn_le _ _ B). pose proof (qn_le _ _ E). pose proof (qn_le _ _ F). pose proof (qn_le _ _ G).
  set (s := cell_size g) in *. intros (K1 & K2 & K3 & K4). repeat split; nra.
Qed.
End Inside.

Lemma bbox_in r l : (0 <= r)%Q -> (forall p, In p l -> inbox r p) ->
  let '(x0, y0, x1, y1) := bbox l in (- r <= x0 /\ - r <= y0 /\ x1 <= r /\ y1 <= r)%Q.
Proof.
  intros R0. unfold bbox.
  assert (G : forall l b, (forall p, In p l -> inbox r p) ->
    (let '(x0, y0, x1, y1) := b in (- r <= x0 /\ - r <= y0 /\ x1 <= r /\ y1 <= r)%Q) ->
    let '(x0, y0, x1, y1) := fold_left bbox_step l b in (- r <= x0 /\ - r <= y0 /\ x1 <= r /\ y1 <= r)%Q).
  { clear l. induction l as [|p l IH]; intros b H B; [exact B|]. cbn [fold_left]. apply IH; [intros; apply H; right; assumption|].
    destruct b as [[[x0 y0] x1] y1]. destruct (H p (or_introl eq_refl)) as [P1 P2]. unfold bbox_step.
    destruct (Qlt_b _ x0), (Qlt_b _ y0), (Qlt_b x1 _), (Qlt_b y1 _); lra. }
  intro H. apply (G l (0, 0, 0, 0)%Q H). repeat split; lra.
Qed.

Section Grids.
Context {X : Type}.
Notation cell := (ncell X).
Notation grid := (ngrid X).
Variable merge : cell -> cell -> cell.
Variable dflt : cell.
Variable tcell : qt -> cell -> cell.
Variable occRay : cell -> point -> cell -> cell.
Variable btw : qpose -> qpose -> qt.
Variable tp : qt -> point -> point.

Lemma traceCell_same start (v v' : vgrid cell) e : traceCell dflt occRay start v e = Ok v' -> same v v'.
Proof.
  unfold traceCell. destruct (nc_gauss e); intro E; [|injection E as <-; apply same_refl].
  apply bind_ok_inv in E. destruct E as (r & ER & E). apply rayTrace_same in ER. unfold occSlots in E.
  apply bind_ok_inv in E. destruct E as (l & _ & E). injection E as <-.
  eapply same_trans; [exact ER|apply same_cells].
Qed.
(** Adding cells. *)
Lemma mergeCells_size (g g' : grid) l : (0 < cell_size (n_vox g))%Q -> mergeInCells merge g l true = Ok g' ->
  grown (n_vox g) (n_vox g') /\
  (forall r, 0 <= r -> (forall c, In c l -> inbox r (nc_mean c)) -> stays r (n_vox g) -> stays r (n_vox g'))%Q.
Proof.
  intros HC E. unfold mergeInCells in E. cbn [orb] in E. destruct (bbox _) as [[[x0 y0] x1] y1] eqn:EB.
  apply bind_ok_inv in E. destruct E as (v0 & E0 & E). apply bind_ok_inv in E. destruct E as (v1 & E1 & E).
  injection E as <-. cbn [updateMeans n_vox]. apply enlarge_size in E0; [|exact HC]. destruct E0 as (A & _ & B).
  assert (G : grown (n_vox g) v1 /\ (forall r, (0 <= r)%Q -> (forall c, In c l -> inbox r (nc_mean c)) -> stays r v0 -> stays r v1)).
  { revert E1. apply (foldM_inv (fun v => grown (n_vox g) v /\
        (forall r, (0 <= r)%Q -> (forall c, In c l -> inbox r (nc_mean c)) -> stays r v0 -> stays r v))).
    - intros v c v' IC [G1 G2] E. destruct (nc_gauss c); [|injection E as <-; split; assumption].
      apply addCell_size in E; [|rewrite (proj1 G1); exact HC]. destruct E as [F1 F2].
      split; [eapply grown_trans; eassumption|]. intros r R0 HL S. apply F2; auto.
    - split; [exact A|auto]. }
  destruct G as [G1 G2]. split; [exact G1|]. intros r R0 HL S. apply G2; auto.
  pose proof (bbox_in r (map nc_mean l) R0) as BI. rewrite EB in BI.
  destruct BI as (B1 & B2 & B3 & B4); [intros p I; apply in_map_iff in I; destruct I as (c & <- & I); auto|].
  apply B; assumption.
Qed.
Lemma traced_size (g f g' : grid) tr : (0 < cell_size (n_vox g))%Q ->
  mergeInTraced merge dflt tcell occRay btw tp g f tr true = Ok g' ->
  grown (n_vox g) (n_vox g') /\
  (forall r, 0 <= r -> (forall c, In c (getValidCells (n_vox f)) ->
      inbox r (nc_mean (if tr : bool then tcell (btw (n_pose f) (n_pose g)) c else c))) ->
    stays r (n_vox g) -> stays r (n_vox g'))%Q.
Proof.
  intros HC E. unfold mergeInTraced in E. apply bind_ok_inv in E. destruct E as (v & EV & E).
  assert (S : same (n_vox g) v).
  { revert EV. apply (foldM_inv (fun w => same (n_vox g) w)); [|apply same_refl].
    intros v1 c v2 _ S1 E1. apply traceCell_same in E1. eapply same_trans; eassumption. }
  apply mergeCells_size in E; [|cbn [with_vox n_vox]; rewrite (proj1 S); exact HC].
  destruct E as [A B]. cbn [with_vox n_vox] in A, B.
  split; [eapply grown_trans; [apply same_grown; exact S|exact A]|].
  intros r R0 H T. apply B; [exact R0| |eapply same_stays; [exact S|exact T]].
  intros c I. destruct tr; [|apply H; exact I]. unfold transformNDTCells in I. apply in_map_iff in I.
  destruct I as (c0 & <- & I). apply H. exact I.
Qed.
Lemma move_size (g g' : grid) (t t' : qt) : n_move g t = Ok (g', t') -> same (n_vox g) (n_vox g').
Proof.
  intro E. unfold n_move in E. destruct (Qlt_b _ _); [injection E as <- _; apply same_refl|].
  apply bind_ok_inv in E. destruct E as (kx & _ & E). apply bind_ok_inv in E. destruct E as (ky & _ & E).
  destruct kx as [kx|], ky as [ky|];
    try (apply bind_ok_inv in E; destruct E as (v & EV & E); injection E as <- _; cbn [updateMeans n_vox];
         apply translate_same in EV; eapply same_trans; [exact EV|apply same_cells]).
  injection E as <- _. apply same_refl.
Qed.
End Grids.

Lemma bare_means {X} (dflt : ncell X) addPt compute : bare dflt addPt compute -> means_average dflt addPt compute.
Proof. intros H ps G. destruct (H ps) as [A|[F _]]; [exact A|congruence]. Qed.
Lemma inbox_more r r' p : (r <= r')%Q -> inbox r p -> inbox r' p.
Proof. intros L [A B]. split; lra. Qed.
Lemma inbox_peq r p q : peq p q -> inbox r p -> inbox r q.
Proof. intros [E1 E2] [A B]. unfold inbox. rewrite <- E1, <- E2. auto. Qed.
Lemma inbox_hull r ps q : (forall p, In p ps -> inbox r p) -> hull ps q -> inbox r q.
Proof.
  intros H HQ.
  pose proof (HQ 1%Q 0%Q r) as A. pose proof (HQ (-(1))%Q 0%Q r) as B.
  pose proof (HQ 0%Q 1%Q r) as C. pose proof (HQ 0%Q (-(1))%Q r) as D.
  assert (A' : (1 * fst q + 0 * snd q <= r)%Q) by (apply A; intros p I; destruct (H p I); lra).
  assert (B' : (-(1) * fst q + 0 * snd q <= r)%Q) by (apply B; intros p I; destruct (H p I); lra).
  assert (C' : (0 * fst q + 1 * snd q <= r)%Q) by (apply C; intros p I; destruct (H p I); lra).
  assert (D' : (0 * fst q + -(1) * snd q <= r)%Q) by (apply D; intros p I; destruct (H p I); lra).
  split; lra.
Qed.
Lemma inbox_mix r p q s : (0 <= s <= 1)%Q -> inbox r p -> inbox r q ->
  inbox r (s * fst p + (1 - s) * fst q, s * snd p + (1 - s) * snd q)%Q.
Proof. intros [S0 S1] [A B] [C D]. split; cbn [fst snd]; nra. Qed.

Section System.
Context {X Guess D : Type}.
Notation cell := (ncell X).
Notation grid := (ngrid X).
Notation body := (res grid).
Variable merge : cell -> cell -> cell.
Variable dflt : cell.
Variable addPt : cell -> point -> cell.
Variable compute : cell -> cell.
Variable tcell : qt -> cell -> cell.
Variable occRay : cell -> point -> cell -> cell.
Variable rawOcc : cell -> Q.
Variable btw : qpose -> qpose -> qt.
Variable tp : qt -> point -> point.
Variable noLin : T2.
Variable moveOrigin : qpose -> qt -> qpose.
Variable moveScan : T2 -> point -> point.
Variable dbl : R -> Q.
Variable radius : Q.
Variable le : lenv pose (frame body) M3 Guess D.
Variable se2' : pose -> pose.
Variable odo : M3.
Variable dist : R.

Notation env := (sysEnv merge dflt addPt compute tcell occRay btw tp noLin moveOrigin moveScan dbl radius le se2' odo dist).
Notation yreach := (yreach merge dflt tcell occRay rawOcc btw tp dbl env).
Notation ystep := (ystep merge dflt tcell occRay rawOcc btw tp dbl env).
Notation sys := (sys X).
Notation yev := (yev D).
Notation wNew := (wNew merge dflt addPt compute tcell occRay btw tp radius).
Notation wMerge := (wMerge merge dflt addPt compute tcell occRay btw tp noLin moveOrigin dbl).
Notation init := (n_initialize merge dflt addPt compute tcell occRay btw tp).

(** What a call does to the window. *)
Lemma window_step h y e y' g : yreach h y -> ystep y e y' -> a_win (y_alg y') = Some (Ok g) ->
  (a_win (y_alg y) = Some (Ok g)) \/ (a_win (y_alg y) = None /\ wNew (i_scan (v_in e)) = Ok g) \/
  (exists g0 reg g1 t, a_win (y_alg y) = Some (Ok g0) /\ i_match (v_in e) = Some reg /\
     wMerge (Ok g0) (i_scan (v_in e)) reg = Ok g1 /\ n_move g1 (toQ dbl reg) = Ok (g, t)).
Proof.
  intros R S EW. pose proof (yreach_AI _ _ _ _ _ _ _ _ _ _ _ _ _ _ _ _ _ _ h y R) as A.
  destruct S as [i ts a' evs m' o' U DM]. cbn [y_alg] in EW. cbn [v_in]. unfold update in U.
  destruct (a_init (y_alg y)) eqn:AI0.
  - destruct (a_win (y_alg y)) as [w|] eqn:AW; [|discriminate].
    destruct (movedEnough _).
    + destruct (i_match i) as [reg|] eqn:MT.
      * apply bind_ok_inv in U. destruct U as ([a1 ev1] & UG & U). cbn [fst snd] in U.
        destruct (w_move env (w_merge env w (i_scan i) reg) reg) as [w2 c] eqn:WM. injection U as <- <-.
        cbn [setWindow a_win] in *. injection EW as ->.
        assert (MS : exists g1, w_merge env w (i_scan i) reg = Ok g1).
        { cbn [w_move sysEnv] in WM. unfold SysModel.wMove in WM.
          destruct (w_merge env w (i_scan i) reg) as [g1| |]; [eauto|discriminate|discriminate]. }
        destruct MS as [g1 EG1]. rewrite EG1 in WM. cbn [w_merge sysEnv] in EG1.
        destruct (wMerge_header _ _ _ _ _ _ _ _ _ _ _ _ _ _ _ EG1) as (g0 & -> & _).
        cbn [w_move sysEnv] in WM. unfold SysModel.wMove in WM. cbn [bind] in WM.
        destruct (n_move g1 (toQ dbl reg)) as [[g2 t2]| |] eqn:EM; [|discriminate|discriminate]. injection WM as <- _.
        cbn [fst] in *. right. right. exists g0, reg, g1, t2. auto.
      * apply bind_ok_inv in U. destruct U as ([a1 ev1] & UG & U). cbn [fst snd] in U. injection U as <- <-.
        left. rewrite <- EW. symmetry. destruct A as [C _ _ _].
        assert (C' : AC env (setUnused (y_alg y) t2id) (events h)) by (destruct C; split; assumption).
        destruct (updateGraph_ok _ _ _ _ _ _ _ _ C' UG) as (_ & _ & _ & _ & W & _). rewrite W. exact AW.
    + injection U as <- <-. cbn [setUnused a_win] in EW. left. rewrite <- EW. symmetry. exact AW.
  - injection U as <- <-. cbn [firstScan a_win w_new sysEnv] in EW. injection EW as EW.
    assert (NW : a_win (y_alg y) = None \/ exists w, a_win (y_alg y) = Some w).
    { destruct (a_win (y_alg y)); [right; eauto|left; reflexivity]. }
    destruct NW as [NW|[w NW]]; [right; left; auto|].
    exfalso. clear - R AI0 NW. revert AI0 w NW. induction R as [|h y e y' R IH S]; [discriminate|].
    destruct S as [i ts a' evs m' o' U DM]. cbn [y_alg]. unfold update in U.
    destruct (a_init (y_alg y)) eqn:AI0.
    + pose proof (yreach_AI _ _ _ _ _ _ _ _ _ _ _ _ _ _ _ _ _ _ h y R) as A. destruct A as [C _ _ _].
      destruct (a_win (y_alg y)) as [w|]; [|discriminate].
      destruct (movedEnough _); [destruct (i_match i) as [reg|]|].
      * apply bind_ok_inv in U. destruct U as ([a1 ev1] & UG & U). destruct (w_move _ _ _). injection U as <- _.
        cbn [setWindow a_init fst]. apply (updateGraph_ok _ _ _ _ _ _ _ (events h)) in UG; [|destruct C; split; assumption].
        destruct UG as (_ & K & _). cbn [setUnused setMatcher a_init] in K. congruence.
      * apply bind_ok_inv in U. destruct U as ([a1 ev1] & UG & U). injection U as <- _.
        cbn [fst]. apply (updateGraph_ok _ _ _ _ _ _ _ (events h)) in UG; [|destruct C; split; assumption].
        destruct UG as (_ & K & _). cbn [setUnused setMatcher a_init] in K. congruence.
      * injection U as <- _. cbn [setUnused a_init]. congruence.
    + injection U as <- _. cbn [firstScan a_init]. discriminate.
Qed.

(** ** Never smaller *)
Lemma init_size (g g' : grid) s : (0 < cell_size (n_vox g))%Q -> init g s = Ok g' -> grown (n_vox g) (n_vox g').
Proof.
  intros HC E. unfold n_initialize, mergeInTracedPcl in E. apply bind_ok_inv in E. destruct E as (l & _ & E).
  apply traced_size in E; [|exact HC]. exact (proj1 E).
Qed.
Lemma wNew_size s g : wNew s = Ok g -> cell_size (n_vox g) = 1#4 /\ spans radius (n_vox g).
Proof.
  intro E. unfold SysModel.wNew in E. apply bind_ok_inv in E. destruct E as (g0 & E0 & E).
  unfold n_enlarge in E0. apply bind_ok_inv in E0. destruct E0 as (v & EV & E0). injection E0 as <-.
  apply enlarge_size in EV; [|reflexivity]. destruct EV as (G & S & _).
  assert (C : cell_size v = 1#4) by (exact (proj1 G)).
  apply init_size in E; cbn [with_vox n_vox] in *; [|rewrite C; reflexivity].
  split; [rewrite (proj1 E); exact C|]. eapply grown_spans; [|exact E|]; [rewrite C; reflexivity|]. exact S.
Qed.
Lemma wMerge_size (g g' : grid) s reg : (0 < cell_size (n_vox g))%Q -> wMerge (Ok g) s reg = Ok g' -> grown (n_vox g) (n_vox g').
Proof.
  intros HC E. unfold SysModel.wMerge in E. cbn [bind] in E. apply bind_ok_inv in E. destruct E as (l & _ & E).
  apply bind_ok_inv in E. destruct E as (l' & _ & E). apply traced_size in E; [|exact HC]. exact (proj1 E).
Qed.
Lemma step_grown h y e y' g0 g : yreach h y -> ystep y e y' ->
  (forall g, a_win (y_alg y) = Some (Ok g) -> cell_size (n_vox g) = 1#4) ->
  a_win (y_alg y) = Some (Ok g0) -> a_win (y_alg y') = Some (Ok g) -> grown (n_vox g0) (n_vox g).
Proof.
  intros R S CS W W'. destruct (window_step _ _ _ _ _ R S W') as [K|[[K _]|(g2 & reg & g1 & t & K & _ & EM & EV)]]; rewrite W in K.
  - injection K as ->. apply grown_refl.
  - discriminate.
  - injection K as <-. apply wMerge_size in EM; [|rewrite (CS _ W); reflexivity]. apply move_size in EV.
    eapply grown_trans; [exact EM|apply same_grown; exact EV].
Qed.
Lemma window_spans h y : yreach h y -> forall g, a_win (y_alg y) = Some (Ok g) ->
  cell_size (n_vox g) = 1#4 /\ n_cs g = 1#4 /\ spans radius (n_vox g).
Proof.
  induction 1 as [|h y e y' R IH S]; intros g W; [discriminate|].
  destruct (window_step _ _ _ _ _ R S W) as [K|[[K EN]|(g0 & reg & g1 & t & K & _ & EM & EV)]].
  - apply IH. exact K.
  - destruct (wNew_size _ _ EN) as [C SP]. split; [exact C|]. split; [|exact SP].
    apply (wNew_header _ _ _ _ _ _ _ _ _ _ _ EN).
  - destruct (IH g0 K) as (C & CS & SP). pose proof (wMerge_header _ _ _ _ _ _ _ _ _ _ _ _ _ _ _ EM) as (g0' & E0 & _ & CS1).
    injection E0 as <-. assert (CS' : n_cs g = n_cs g1).
    { clear - EV. unfold n_move in EV. destruct (Qlt_b _ _); [injection EV as <- _; reflexivity|].
      apply bind_ok_inv in EV. destruct EV as (kx & _ & EV). apply bind_ok_inv in EV. destruct EV as (ky & _ & EV).
      destruct kx, ky; try (apply bind_ok_inv in EV; destruct EV as (v & _ & EV)); injection EV as <- _; reflexivity. }
    pose proof (wMerge_size g0 g1 (i_scan (v_in e)) reg ltac:(rewrite C; reflexivity) EM) as G1. apply move_size in EV.
    assert (G : grown (n_vox g0) (n_vox g)) by (eapply grown_trans; [exact G1|apply same_grown; exact EV]).
    split; [rewrite (proj1 G); exact C|]. split; [congruence|].
    eapply grown_spans; [|exact G|exact SP]. rewrite C. reflexivity.
Qed.
(** ** Bounded *)
Hypothesis OO : occ_only occRay.
Hypothesis DG : nc_gauss dflt = false.
Hypothesis MX : bare dflt addPt compute.
Hypothesis TG : forall t c, nc_gauss (tcell t c) = nc_gauss c.
Hypothesis TM : forall t c, nc_mean (tcell t c) = if nc_gauss c then tp t (nc_mean c) else nc_mean c.
Hypothesis MI : mixes merge.
Hypothesis AF : forall t, affine (tp t).
Hypothesis SH : shifts btw tp.
Hypothesis SL : slides noLin moveOrigin.
Variables rho mu big : Q.
Hypothesis R0 : (0 <= rho)%Q.
Hypothesis M0 : (0 <= mu)%Q.
Hypothesis BR : (radius <= big)%Q.
Hypothesis BM : (rho + mu <= big)%Q.
Notation modest := (@modest D tp dbl rho mu).

Lemma made_mean (g : grid) s c : unturned (n_pose g) ->
  made_of dflt addPt compute (seen_from btw tp g (n_pose g) s) c ->
  hull (reals s) (nc_mean c) \/ peq (nc_mean c) (0, 0)%Q.
Proof using MX SH.
  intros U (ps & -> & HP). destruct (MX ps) as [A|[_ Z]]; [left|right; exact Z].
  apply hull_sub with ps; [|apply hull_average; exact A].
  intros p I. apply HP in I. unfold seen_from in I. apply in_map_iff in I.
  destruct I as ([p0|] & E0 & I); [|discriminate]. injection E0 as <-. exists p0. split; [apply reals_in; exact I|].
  destruct (SH (n_pose g) (n_pose g) p0 U U) as [A' B']. cbn [fst snd] in *. split; [rewrite A'|rewrite B']; ring.
Qed.
Lemma init_stays (g g' : grid) s r : (0 < cell_size (n_vox g))%Q -> unturned (n_pose g) -> (0 <= r)%Q ->
  (forall p, In (Some p) s -> inbox r p) -> stays r (n_vox g) -> init g s = Ok g' -> stays r (n_vox g').
Proof using MX SH.
  intros HC U RR HS ST E. unfold n_initialize, mergeInTracedPcl in E. apply bind_ok_inv in E. destruct E as (l & EL & E).
  apply traced_size in E; [|exact HC]. apply (proj2 E); [exact RR| |exact ST].
  cbn iota. intros c IC. pose proof (createGrid_cells _ _ _ _ _ _ _ c EL IC) as MO.
  destruct (made_mean g s c U MO) as [H|Z].
  - eapply inbox_hull; [|exact H]. intros p I. apply HS. apply reals_in. exact I.
  - eapply inbox_peq; [apply hull_sym; exact Z|]. split; cbn [fst snd]; lra.
Qed.
Lemma stays_new r o : (0 <= r)%Q -> stays r (n_vox (n_setOrigin (newFrame dflt) o)).
Proof.
  intro H. change (stays r (setCellSize (setCellSize (vempty dflt) (1#4)) (1#4))).
  assert (E : (1 # 4) / 2 == 1 # 8) by reflexivity.
  unfold stays, minx, maxx, miny, maxy, half. cbn [cell_size w_left w_right h_up h_down setCellSize vempty].
  change (qn 0) with 0%Q. rewrite E. repeat split; lra.
Qed.
Lemma transform_box (l l' : grid) reg ps : good (lies (hull ps)) l ->
  (forall p, In p ps -> inbox rho (tp (mkTr reg 0 0) p)) ->
  n_transform merge tcell noLin moveOrigin l (toQ dbl reg) = Ok l' ->
  good (fun c => inbox rho (nc_mean c)) l'.
Proof using TG TM MI AF.
  intros H HB E. unfold n_transform in E. cbn [tr_lin toQ tr_x tr_y] in E. apply bind_ok_inv in E. destruct E as (v & E & F).
  injection F as <-. unfold good. cbn [updateMeans n_vox].
  revert E. apply (foldM_inv (fun v => holds (fun c : cell => inbox rho (nc_mean c)) (cells v))).
  - intros v1 c v2 IC HV E. destruct (nc_gauss c) eqn:GC; [|injection E as <-; exact HV].
    assert (LC : inbox rho (nc_mean c)).
    { unfold transformNDTCells in IC. apply in_map_iff in IC. destruct IC as (c0 & <- & IC).
      rewrite TG in GC. rewrite TM, GC. apply inbox_hull with (map (tp (mkTr reg 0 0)) ps).
      - intros p I. apply in_map_iff in I. destruct I as (p0 & <- & I). apply HB. exact I.
      - apply hull_affine; [apply AF|]. eapply (holds_valid (lies (hull ps))); [exact H|exact IC|exact GC]. }
    eapply (holds_addCell_merge (fun c : cell => inbox rho (nc_mean c))); [exact HV|exact LC| |exact E]. intros _ a HA.
    destruct (MI a c) as (s & S & M). eapply inbox_peq; [apply hull_sym; exact M|]. apply inbox_mix; assumption.
  - cbn [clear cells with_cells]. apply holds_none.
Qed.
Lemma wMerge_stays (g g' : grid) s reg : p_th (n_pose g) = 0%Q -> (0 < cell_size (n_vox g))%Q ->
  inbox mu (dbl (tx reg), dbl (ty reg)) -> (forall p, In (Some p) s -> inbox rho (tp (mkTr reg 0 0) p)) ->
  stays big (n_vox g) -> wMerge (Ok g) s reg = Ok g' -> stays big (n_vox g').
Proof using OO DG MX TG TM MI AF SH SL R0 M0 BM.
  intros TH HC [MUX MUY] HS ST E. unfold SysModel.wMerge in E. cbn [bind] in E. cbn [fst snd] in MUX, MUY.
  apply bind_ok_inv in E. destruct E as (l & EL & E). apply bind_ok_inv in E. destruct E as (l' & ET & E).
  assert (U : unturned (n_pose g)) by (unfold unturned; rewrite TH; reflexivity).
  assert (PL : n_pose l = n_pose g).
  { apply init_header in EL. exact (proj1 EL). }
  assert (HL : good (lies (hull (reals s))) l).
  { eapply (init_lies merge dflt addPt compute tcell occRay btw tp OO DG (bare_means _ _ _ MX) SH); [|exact EL]. exact U. }
  assert (PL' : n_pose l' = moveOrigin (n_pose g) (mkTr noLin (dbl (tx reg)) (dbl (ty reg)))).
  { clear - ET PL. unfold n_transform in ET. apply bind_ok_inv in ET. destruct ET as (v & _ & F). injection F as <-.
    cbn [updateMeans n_pose]. rewrite PL. reflexivity. }
  pose proof (transform_box _ _ _ _ HL ltac:(intros p I; apply HS; apply reals_in; exact I) ET) as HB.
  destruct (SL (n_pose g) (dbl (tx reg)) (dbl (ty reg)) U) as (U' & OX & OY). rewrite <- PL' in U', OX, OY.
  apply traced_size in E; [|exact HC]. apply (proj2 E); [lra| |exact ST].
  cbn iota. intros c IC. assert (BC : inbox rho (nc_mean c)) by (eapply (holds_valid (fun c : cell => inbox rho (nc_mean c))); [exact HB|exact IC]).
  rewrite TM. destruct (nc_gauss c).
  - destruct (SH (n_pose l') (n_pose g) (nc_mean c) U' U) as [A B]. cbn [fst snd] in A, B. destruct BC as [BX BY].
    unfold inbox. rewrite A, B, OX, OY. split; lra.
  - eapply inbox_more; [|exact BC]. lra.
Qed.
Lemma window_stays h y : yreach h y -> (forall e, In e h -> modest e) -> forall g, a_win (y_alg y) = Some (Ok g) ->
  p_th (n_pose g) = 0%Q /\ stays big (n_vox g).
Proof using OO DG MX TG TM MI AF SH SL R0 M0 BM BR.
  induction 1 as [|h y e y' R IH S]; intros HM g W; [discriminate|].
  specialize (IH (fun e0 I => HM e0 (or_intror I))). destruct (HM e (or_introl eq_refl)) as [M1 M2].
  destruct (window_step _ _ _ _ _ R S W) as [K|[[K EN]|(g0 & reg & g1 & t & K & MT & EM & EV)]].
  - apply IH. exact K.
  - pose proof (wNew_header _ _ _ _ _ _ _ _ _ _ _ EN) as [PO _]. rewrite PO. split; [reflexivity|].
    unfold SysModel.wNew in EN. apply bind_ok_inv in EN. destruct EN as (g0 & E0 & E).
    unfold n_enlarge in E0. apply bind_ok_inv in E0. destruct E0 as (v & EV & E0). injection E0 as <-.
    apply enlarge_size in EV; [|reflexivity]. destruct EV as (G & _ & T).
    assert (C : cell_size v = 1#4) by (exact (proj1 G)).
    eapply init_stays; [| | | | |exact E]; cbn [with_vox n_vox].
    + rewrite C. reflexivity.
    + reflexivity.
    + lra.
    + intros p I. eapply inbox_more; [|apply M1; exact I]. lra.
    + apply T; try lra. apply stays_new. lra.
  - destruct (IH g0 K) as (TH & ST). destruct (window_spans _ _ R _ K) as (C & _ & _).
    destruct (M2 reg MT) as [M3 M4].
    pose proof (wMerge_header _ _ _ _ _ _ _ _ _ _ _ _ _ _ _ EM) as (g0' & E0 & PO & _). injection E0 as <-.
    assert (ST1 : stays big (n_vox g1)) by (eapply wMerge_stays; [exact TH|rewrite C; reflexivity|exact M3|exact M4|exact ST|exact EM]).
    split; [|eapply same_stays; [|exact ST1]; eapply move_size; exact EV].
    rewrite <- TH, <- PO. clear - EV. unfold n_move in EV. destruct (Qlt_b _ _); [injection EV as <- _; reflexivity|].
    apply bind_ok_inv in EV. destruct EV as (kx & _ & EV). apply bind_ok_inv in EV. destruct EV as (ky & _ & EV).
    destruct kx, ky; try (apply bind_ok_inv in EV; destruct EV as (v & _ & EV)); injection EV as <- _; reflexivity.
Qed.
End System.
