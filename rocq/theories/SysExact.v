(** Proofs: the exact content of the frames and of the map. *)
From Coq Require Import Reals Qreals List ZArith QArith Bool Lia Arith Sorting.Permutation Sorting.Sorted.
From Verif Require Import Base LinAlg3 GeoModel GeoSpec GeoProofs.
From Verif Require Import GraphModel GraphSpec GraphProofs LoopModel LoopSpec LoopProofs SlamModel SlamSpec SlamProofs.
From Verif Require Import AlgModel AlgSpec AlgProofs.
From Verif Require Import VoxelModel VoxelSpec VoxelProofs VoxelOps VoxelAdd VoxelRay GridModel GridSpec GridProofs GridOps ScanSpec ScanProofs ScanInit.
From Verif Require Import BeamSpec BeamProofs BeamScan MapModel MapSpec MapHist MapDraw CellsFrom SysModel SysSpec SysProofs SysMap SysCloud SysExactSpec.
Import ListNotations.
Open Scope nat_scope.
Set Default Proof Using "Type".

Section System.
Context {X Guess D : Type}.
Notation cell := (ncell X).
Notation grid := (ngrid X).
Notation scan := (list (option point)).
Notation body := (res grid).
Notation stroke := (pose * T2 * scan)%type.
Variable merge : cell -> cell -> cell.
Variable dflt : cell.
Variable addPt : cell -> point -> cell.
Variable compute : cell -> cell.
Variable tcell : qt -> cell -> cell.
Variable occRay : cell -> point -> cell -> cell.
Variable rawOcc : cell -> Q.
Variable btw : qpose -> qpose -> qt.
Variable tp : qt -> point -> point.
Variable noLin : T2.
Variable moveOrigin : qpose -> qt -> qpose.
Variable moveScan : T2 -> point -> point.
Variable dbl : R -> Q.
Variable radius : Q.
Variable le : lenv pose (frame body) M3 Guess D.
Variable se2' : pose -> pose.
Variable odo : M3.
Variable dist : R.

Notation env := (sysEnv merge dflt addPt compute tcell occRay btw tp noLin moveOrigin moveScan dbl radius le se2' odo dist).
Notation yreach := (yreach merge dflt tcell occRay rawOcc btw tp dbl env).
Notation addToMap := (addToMap merge dflt tcell occRay btw tp).
Notation fill := (fill merge dflt addPt compute tcell occRay btw tp moveScan dbl).
Notation add_scan := (add_scan merge dflt addPt compute tcell occRay btw tp dbl).
Notation frame_of := (frame_of merge dflt addPt compute tcell occRay btw tp moveScan dbl).
Notation in_frame := (in_frame btw tp moveScan dbl).
Notation sensor_of := (sensor_of btw tp dbl).
Notation scan_ok := (scan_ok dflt addPt compute btw tp moveScan dbl).
Notation frame_ok := (frame_ok tcell btw tp).
Notation sensor_at := (sensor_at btw tp).
Notation placed := (placed tcell btw).
Notation scan_cell_of s := (scan_cell dflt addPt compute (1#4) (in_frame s)).
Notation scan_beams := (scan_beams dflt addPt compute).
Notation evidence := (evidence dflt occRay).

Section Frames.
Hypothesis MV : forall p, moveScan t2id p = p.
Hypothesis Z0 : dbl 0%R = 0%Q.
Hypothesis MA : means_average dflt addPt compute.
Hypothesis SELF : forall o, peq (tp (btw o o) (0, 0)%Q) (0, 0)%Q.

(** One scan more. *)
Definition one_more (v : vgrid cell) (s : stroke) (old : pcell -> option cell) (g' : grid) : Prop :=
  nwf g' /\ n_cs g' = 1#4 /\ grows v (n_vox g') /\
  exists bs, scan_beams (1#4) (in_frame s) bs /\
    forall c hit, seen_through v (sensor_of s) bs c hit -> content (n_vox g') c =
      match scan_cell_of s c with
      | Some x => Some x
      | None => evidence (sensor_of s) (filter hit bs) (old c)
      end.

Lemma add_exact (g : grid) o s sc : nwf g -> n_cs g = 1#4 -> n_pose g = qposeOf dbl o ->
  seen_from btw tp g (qposeOf dbl o) s = in_frame sc -> fst (fst sc) = o -> scan_ok sc ->
  exists g', mergeInTracedPcl merge dflt addPt compute tcell occRay btw tp g s (qposeOf dbl o) true = Ok g' /\
    one_more (n_vox g) sc (content (n_vox g)) g'.
Proof using MA SELF.
  intros W CS P SF OO' [CL RY]. unfold SysSpec.sensor_of in RY. rewrite OO' in RY.
  destruct (origin_cell (n_vox g) (tp (btw (qposeOf dbl o) (qposeOf dbl o)) (0, 0)%Q) (proj1 W) (SELF _)) as [I0 B0].
  destruct (scan_exact_replace merge dflt occRay tcell btw tp addPt compute MA g s (qposeOf dbl o) W) with (resize := true) (c0 := (0, 0)%Z)
    as (g' & bs & E & W' & SH & GR & CC & SB & CT).
  - rewrite SF, CS. exact CL.
  - left. reflexivity.
  - rewrite P. destruct W as [W0 W1]. rewrite W1. exact I0.
  - exact B0.
  - rewrite SF, CS, P. exact RY.
  - exists g'. split; [exact E|]. split; [exact W'|]. split; [destruct SH as (_ & SH & _); congruence|].
    split; [exact GR|]. exists bs. rewrite SF, CS in SB. split; [exact SB|].
    intros c hit H. specialize (CT c hit). rewrite SF, CS, P in CT. unfold SysSpec.sensor_of in *. rewrite OO' in *.
    apply CT. exact H.
Qed.

Definition before (first : bool) (l : list stroke) (g : grid) (c : pcell) : option cell :=
  if first && (length l =? 0) then None else content (n_vox g) c.

Lemma fill_snoc first l s g : l <> [] -> fill first l = Ok g ->
  fill first (l ++ [s]) = add_scan g (fst (fst s)) (map (option_map (moveScan (snd (fst s)))) (snd s)).
Proof.
  destruct l as [|[[o m] s1] t]; [congruence|]. intros _ E. unfold SysSpec.fill in *. cbn [app].
  apply bind_ok_inv in E. destruct E as (g1 & E1 & E). rewrite E1. cbn [bind]. rewrite foldM_app, E. cbn [bind foldM].
  destruct s as [[o' m'] s']. cbn [fst snd]. destruct (add_scan g o' _); reflexivity.
Qed.
Lemma fill_one first s : head_ok first [s] -> scan_ok s ->
  exists g, fill first [s] = Ok g /\ one_more (n_vox (newFrame dflt)) s (before first [] (newFrame dflt)) g.
Proof using MV Z0 MA SELF.
  intros HO CL. destruct s as [[o m] s]. destruct (HO o m s [] eq_refl) as [-> FO]. unfold SysSpec.fill, before. cbn [length Nat.eqb andb].
  destruct first; cbn [andb].
  - specialize (FO eq_refl). subst o. unfold n_initialize.
    set (g0 := with_vox (newFrame dflt) (clear (n_vox (newFrame dflt)))).
    assert (WN : nwf g0). { split; [apply clear_spec; apply nwf_frame|reflexivity]. }
    destruct (add_exact g0 (mkP 0 0 0) s (mkP 0 0 0, t2id, s)) as (g1 & E1 & W1 & CS1 & GR & bs & SB & G1); auto.
    { rewrite origin0 by exact Z0. reflexivity. }
    { apply in_frame_first; [exact MV|]. rewrite origin0 by exact Z0. reflexivity. }
    rewrite origin0 in E1 by exact Z0.
    change (n_pose (newFrame dflt)) with (mkPose 0 0 0) in *. cbn [n_pose] in *.
    exists g1. split; [cbn [bind]; fold g0; rewrite E1; reflexivity|].
    split; [exact W1|]. split; [exact CS1|]. split; [exact GR|]. exists bs. split; [exact SB|].
    intros c hit H. rewrite (G1 c hit H). destruct (scan_cell_of _ c); [reflexivity|]. f_equal.
    destruct (clear_spec (n_vox (newFrame dflt)) (proj1 (nwf_frame dflt))) as (_ & Y & _).
    apply Y.
  - unfold SysSpec.add_scan.
    destruct (add_exact (n_setOrigin (newFrame dflt) (qposeOf dbl o)) o s (o, t2id, s)) as (g1 & E1 & G1); auto.
    { apply nwf_frame. }
    { apply in_frame_first; [exact MV|]. reflexivity. }
    exists g1. rewrite E1. split; [reflexivity|exact G1].
Qed.

Lemma head_prefix first l1 (s : stroke) l2 : head_ok first (l1 ++ s :: l2) -> head_ok first (l1 ++ [s]).
Proof.
  intros H o m x t E. destruct l1 as [|y l1]; cbn [app] in *; injection E as -> E; eapply H; cbn [app]; reflexivity.
Qed.
Lemma fill_exact first l : head_ok first l -> Forall scan_ok l ->
  exists g, fill first l = Ok g /\ nwf g /\ n_cs g = 1#4.
Proof using MV Z0 MA SELF.
  intros HO CL. induction l as [|s l IH] using rev_ind.
  { exists (newFrame dflt). split; [reflexivity|]. split; [apply nwf_frame|reflexivity]. }
  apply Forall_app in CL. destruct CL as [CL CS]. apply Forall_inv in CS.
  destruct l as [|s1 l].
  { cbn [app] in *. destruct (fill_one first s HO CS) as (g & E & W & S & _). eauto. }
  destruct IH as (g & E & W & S); [|exact CL|].
  { intros o m x t E. injection E as -> ->. eapply HO. cbn [app]. reflexivity. }
  rewrite (fill_snoc _ (s1 :: l) s g) by (exact E || discriminate). unfold SysSpec.add_scan.
  destruct s as [[o m] s]. cbn [fst snd].
  destruct (add_exact (n_setOrigin g (qposeOf dbl o)) o (map (option_map (moveScan m)) s) (o, m, s)) as (g' & E' & W' & S' & _); auto.
  { rewrite in_frame_seen; reflexivity. }
  eauto.
Qed.
Lemma fill_step first l1 s l2 : head_ok first (l1 ++ s :: l2) -> Forall scan_ok (l1 ++ s :: l2) ->
  exists g g', fill first l1 = Ok g /\ fill first (l1 ++ [s]) = Ok g' /\
    one_more (n_vox g) s (before first l1 g) g'.
Proof using MV Z0 MA SELF.
  intros HO CL. apply Forall_app in CL. destruct CL as [CL CS]. apply Forall_inv in CS.
  destruct l1 as [|s1 l].
  { exists (newFrame dflt). apply head_prefix in HO. cbn [app] in *. destruct (fill_one first s HO CS) as (g & E & G).
    exists g. split; [reflexivity|]. split; [exact E|exact G]. }
  destruct (fill_exact first (s1 :: l)) as (g & E & W & S); [|exact CL|].
  { intros o m x t E. injection E as -> ->. eapply HO. cbn [app]. reflexivity. }
  exists g. rewrite (fill_snoc _ (s1 :: l) s g) by (exact E || discriminate). unfold SysSpec.add_scan.
  destruct s as [[o m] s]. cbn [fst snd].
  destruct (add_exact (n_setOrigin g (qposeOf dbl o)) o (map (option_map (moveScan m)) s) (o, m, s)) as (g' & E' & G); auto.
  { rewrite in_frame_seen; reflexivity. }
  exists g'. split; [exact E|]. split; [exact E'|]. unfold before. cbn [length Nat.eqb]. rewrite andb_false_r. exact G.
Qed.

Theorem frames_exact h y k : yreach h y -> Forall scan_ok (scans_of h k) ->
  (exists g, fill (k =? 0) (scans_of h k) = Ok g) /\
  forall l1 s l2, scans_of h k = l1 ++ s :: l2 ->
  exists g g' bs, fill (k =? 0) l1 = Ok g /\ fill (k =? 0) (l1 ++ [s]) = Ok g' /\ grows (n_vox g) (n_vox g') /\
    scan_beams (1#4) (in_frame s) bs /\
    forall c hit, seen_through (n_vox g) (sensor_of s) bs c hit -> content (n_vox g') c =
      match scan_cell_of s c with
      | Some x => Some x
      | None => evidence (sensor_of s) (filter hit bs)
                  (if (k =? 0) && (length l1 =? 0) then None else content (n_vox g) c)
      end.
Proof using MV Z0 MA SELF.
  intros R CL. pose proof (heads _ _ _ _ _ _ _ _ _ _ _ _ _ _ _ _ _ _ h y R k) as HO. split.
  { destruct (fill_exact _ _ HO CL) as (g & E & _). eauto. }
  intros l1 s l2 EQ. rewrite EQ in HO, CL. destruct (fill_step _ _ _ _ HO CL) as (g & g' & E & E' & _ & _ & GR & bs & SB & CT).
  exists g, g', bs. auto.
Qed.
End Frames.

(** *** the map *)
Lemma draw_exact (g f : grid) : nwf g -> n_pose g = world -> n_cs g = map_res -> frame_ok f ->
  exists g', addToMap g f = Ok g' /\ nwf g' /\ n_pose g' = world /\ n_cs g' = map_res /\
    grows (n_vox g) (n_vox g') /\ cloud_current g' /\
    forall c c0 hit, in_cell map_res c0 (sensor_at f) -> seen_through (n_vox g) (sensor_at f) (placed f) c hit ->
      content (n_vox g') c =
      latest (if in_box (n_vox g) c0 then evidence (sensor_at f) (filter hit (placed f)) (content (n_vox g) c)
              else content (n_vox g) c) (landing map_res c (placed f)).
Proof.
  intros W P S (O1 & O2 & R).
  assert (CS : cell_size (n_vox g) = map_res) by (destruct W; congruence).
  assert (IB : isInside (n_vox g) (sensor_at f) = in_box (n_vox g) (cell_of map_res (sensor_at f))).
  { rewrite <- CS. apply off_box; [apply W|]. rewrite CS. exact O1. }
  assert (IC : in_cell map_res (cell_of map_res (sensor_at f)) (sensor_at f)) by (apply cell_of_in; reflexivity).
  assert (UN : forall c0, in_cell map_res c0 (sensor_at f) -> cell_of map_res (sensor_at f) = c0)
    by (intros c0 H; apply in_cell_unique; [reflexivity|exact H]).
  destruct (in_box (n_vox g) (cell_of map_res (sensor_at f))) eqn:B.
  - destruct (beams_replace merge dflt occRay tcell btw tp g f true true (cell_of map_res (sensor_at f)) W (or_introl eq_refl))
      as (g' & E & W' & (H1 & H2 & _) & GR & CC & CT).
    + unfold sensor. rewrite S, P. exact IC.
    + exact B.
    + unfold sensor, incoming. rewrite S, P. exact R.
    + unfold incoming. rewrite S, P. exact O2.
    + exists g'. split; [exact E|]. split; [exact W'|]. split; [congruence|]. split; [congruence|].
      split; [exact GR|]. split; [exact CC|]. intros c c0 hit I H. rewrite <- (UN c0 I), B.
      specialize (CT c hit). unfold sensor, incoming in CT. rewrite S, P in CT. apply CT. exact H.
  - destruct (merge_replace merge g (placed f) true W (or_introl eq_refl)) as (g' & EM & W' & (H1 & H2 & _) & _ & GR & ME & _ & CT).
    { rewrite S. exact O2. }
    exists g'. split.
    { unfold MapModel.addToMap. rewrite outside_plain by (rewrite P; exact IB). unfold mergeInGrid. rewrite P. exact EM. }
    split; [exact W'|]. split; [congruence|]. split; [congruence|]. split; [exact GR|].
    split; [apply cloud_of_gaussians; exact ME|]. intros c c0 hit I _. rewrite <- (UN c0 I), B, CT, S. reflexivity.
Qed.
Lemma draws_exact fs : forall g : grid, nwf g -> n_pose g = world -> n_cs g = map_res ->
  (forall f, In f fs -> frame_ok f) ->
  exists g', foldM addToMap fs g = Ok g' /\ nwf g' /\ n_pose g' = world /\ n_cs g' = map_res /\
    (fs <> [] -> cloud_current g').
Proof.
  induction fs as [|f t IH]; intros g W P S DF.
  - exists g. repeat (split; [assumption || reflexivity|]). congruence.
  - destruct (draw_exact g f W P S (DF f (or_introl eq_refl))) as (g1 & E1 & W1 & P1 & S1 & _ & C1 & _).
    destruct (IH g1 W1 P1 S1) as (g' & E & W' & P' & S' & C'). { intros x Hx. apply DF. right. exact Hx. }
    exists g'. cbn [foldM]. rewrite E1. cbn [bind]. repeat (split; [assumption|]).
    intros _. destruct t as [|f' t']; [|apply C'; discriminate]. cbn in E. injection E as <-. exact C1.
Qed.

Theorem map_exact h y : yreach h y ->
  exists order fs g0,
    Permutation order (born h) /\ (clock h -> order = born h) /\
    allOk (map (frame_of h (y_alg y)) order) = Ok fs /\ blank dflt g0 /\
    ((forall f, In f fs -> frame_ok f) ->
     (forall f1 f f2, fs = f1 ++ f :: f2 ->
        exists g g', foldM addToMap f1 g0 = Ok g /\ foldM addToMap (f1 ++ [f]) g0 = Ok g' /\ grows (n_vox g) (n_vox g') /\
          forall c c0 hit, in_cell map_res c0 (sensor_at f) -> seen_through (n_vox g) (sensor_at f) (placed f) c hit ->
            content (n_vox g') c =
            latest (if in_box (n_vox g) c0 then evidence (sensor_at f) (filter hit (placed f)) (content (n_vox g) c)
                    else content (n_vox g) c) (landing map_res c (placed f))) /\
     (fs <> [] -> exists g, foldM addToMap fs g0 = Ok g /\
        m_occ (y_map y) = createOccupancyGrid rawOcc btw tp g /\
        forall p, In p (getPclMap (y_map y)) <->
          exists c v, content (n_vox g) c = Some v /\ nc_gauss v = true /\ p = tp (btw world world) (nc_mean v))).
Proof.
  intro R. destruct (sys_map _ _ _ _ _ _ _ _ _ _ _ _ _ _ _ _ _ _ h y R)
    as (order & fs & g0 & g & PE & CK & FS & B0 & DR & EM & ME).
  exists order, fs, g0. split; [exact PE|]. split; [exact CK|]. split; [exact FS|]. split; [exact B0|].
  destruct (blank_ok dflt g0 B0) as (W0 & P0 & S0). intro OK. split.
  - intros f1 f f2 ->.
    destruct (draws_exact f1 g0 W0 P0 S0) as (g1 & E1 & W1 & P1 & S1 & _).
    { intros x Hx. apply OK. apply in_or_app. left. exact Hx. }
    destruct (draw_exact g1 f W1 P1 S1) as (g2 & E2 & _ & _ & _ & GR & _ & CT).
    { apply OK. apply in_or_app. right. left. reflexivity. }
    exists g1, g2. split; [exact E1|]. split; [rewrite foldM_app, E1; cbn [bind foldM]; rewrite E2; reflexivity|].
    split; [exact GR|exact CT].
  - intro NE. exists g. split; [exact DR|]. destruct (ME NE) as [MT MO]. split; [exact MO|].
    destruct (draws_exact fs g0 W0 P0 S0 OK) as (g1 & E1 & W1 & P1 & S1 & CC).
    rewrite DR in E1. injection E1 as <-. specialize (CC NE). destruct CC as (ms & EMS & IN).
    unfold getMeansTransformed in MT. rewrite EMS in MT. injection MT as MT. rewrite <- MT, P1.
    intro p. rewrite in_map_iff. split.
    + intros (q & <- & Hq). apply IN in Hq. destruct Hq as (c & v & E & Gv & <-). eauto.
    + intros (c & v & E & Gv & ->). exists (nc_mean v). split; [reflexivity|]. apply IN. eauto.
Qed.
End System.
