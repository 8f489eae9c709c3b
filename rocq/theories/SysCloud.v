(** Proofs: what is in the frames and in the published cloud. *)
From Coq Require Import Reals Qreals List ZArith QArith Bool Lia Arith Sorting.Permutation Sorting.Sorted.
From Verif Require Import Base LinAlg3 GeoModel GeoSpec GeoProofs.
From Verif Require Import GraphModel GraphSpec GraphProofs LoopModel LoopSpec LoopProofs SlamModel SlamSpec SlamProofs.
From Verif Require Import AlgModel AlgSpec AlgProofs.
From Verif Require Import VoxelModel VoxelSpec VoxelProofs VoxelOps VoxelAdd VoxelRay GridModel GridSpec GridProofs GridOps ScanSpec ScanProofs ScanInit MapModel MapSpec MapHist MapDraw CellsFrom SysModel SysSpec SysProofs SysMap.
Import ListNotations.
Open Scope nat_scope.
Set Default Proof Using "Type".

Section System.
Context {X Guess D : Type}.
Notation cell := (ncell X).
Notation grid := (ngrid X).
Notation scan := (list (option point)).
Notation body := (res grid).
Notation stroke := (pose * T2 * scan)%type.
Variable merge : cell -> cell -> cell.
Variable dflt : cell.
Variable addPt : cell -> point -> cell.
Variable compute : cell -> cell.
Variable tcell : qt -> cell -> cell.
Variable occRay : cell -> point -> cell -> cell.
Variable rawOcc : cell -> Q.
Variable btw : qpose -> qpose -> qt.
Variable tp : qt -> point -> point.
Variable noLin : T2.
Variable moveOrigin : qpose -> qt -> qpose.
Variable moveScan : T2 -> point -> point.
Variable dbl : R -> Q.
Variable radius : Q.
Variable le : lenv pose (frame body) M3 Guess D.
Variable se2' : pose -> pose.
Variable odo : M3.
Variable dist : R.

Notation env := (sysEnv merge dflt addPt compute tcell occRay btw tp noLin moveOrigin moveScan dbl radius le se2' odo dist).
Notation yreach := (yreach merge dflt tcell occRay rawOcc btw tp dbl env).
Notation addToMap := (addToMap merge dflt tcell occRay btw tp).
Notation fill := (fill merge dflt addPt compute tcell occRay btw tp moveScan dbl).
Notation add_scan := (add_scan merge dflt addPt compute tcell occRay btw tp dbl).
Notation frame_of := (frame_of merge dflt addPt compute tcell occRay btw tp moveScan dbl).
Notation in_frame := (in_frame btw tp moveScan dbl).
Notation newest_cell := (newest_cell dflt addPt compute btw tp moveScan dbl).
Notation clean := (clean dflt addPt compute btw tp moveScan dbl).
Notation sys := (sys X).
Notation yev := (yev D).
Notation drawable := (drawable tcell btw tp).
Notation drawn := (drawn tcell btw).
Notation made_of := (made_of dflt addPt compute).

(** *** the first scan of a frame is not moved *)
Definition head_ok (first : bool) (l : list stroke) : Prop :=
  forall o m s t, l = (o, m, s) :: t -> m = t2id /\ (first = true -> o = mkP 0 0 0).

Lemma heads h y : yreach h y -> forall k, head_ok (k =? 0) (scans_of h k).
Proof.
  induction 1 as [|h y e y' R IH S]; intros k o m s t E.
  { unfold scans_of in E. cbn in E. destruct k; discriminate. }
  pose proof (yreach_AI _ _ _ _ _ _ _ _ _ _ _ _ _ _ _ _ _ _ h y R) as A.
  pose proof (FI_reach _ _ _ _ _ _ _ _ _ _ _ _ _ _ _ _ _ _ h y R) as [N LEN _ _ _].
  pose proof (strokes_nonempty _ _ _ _ _ _ _ _ _ _ _ _ _ _ _ _ _ _ h y R) as NE.
  destruct S as [i ts a' evs m' o' U DM].
  assert (OLD : forall e, made (v_evs e) = [] -> (h <> []) -> scans_of (e :: h) k = (o, m, s) :: t ->
     m = t2id /\ (k =? 0 = true -> o = mkP 0 0 0)).
  { clear E. intros e MD HN E. specialize (LEN HN). destruct (strokes h) as [|f0 t0] eqn:ST; [discriminate|].
    destruct (lt_eq_lt_dec k (length t0)) as [[LT|EQ]|GT].
    - rewrite (scans_same h e f0 t0 k ST MD LT) in E. apply (IH k _ _ _ _ E).
    - subst k. rewrite (scans_more h e f0 t0 ST MD) in E.
      assert (SF : scans_of h (length t0) = f0).
      { unfold scans_of. rewrite ST. cbn [rev]. rewrite app_nth2 by (rewrite rev_length; auto).
        rewrite rev_length, Nat.sub_diag. reflexivity. }
      apply Forall_inv in NE. destruct f0 as [|[[o1 m1] s1] t1]; [congruence|].
      rewrite SF in E. injection E as <- <- <- <-. eapply IH. exact SF.
    - unfold scans_of in E. cbn [strokes] in E. rewrite MD, ST in E.
      rewrite nth_overflow in E; [discriminate|]. rewrite rev_length. cbn [length]. lia. }
  destruct (update_frames _ _ _ _ _ _ A U) as [IN MD NR DR SL FR|IN MD NR DR SL FR|o1 m1 IN MD NR DR O SL FR|o1 IN MD DR B O FR].
  - assert (H0 : h = []) by (apply N; exact IN). subst h.
    unfold scans_of in E. cbn [strokes v_evs] in E. rewrite MD in E. cbn [rev app] in E.
    destruct k as [|[|k]]; cbn [nth] in E; [|discriminate|discriminate].
    unfold strokes_of in E. cbn [v_evs v_in] in E. rewrite DR in E. cbn [map fst snd] in E.
    injection E as <- <- <- <-. auto.
  - apply (OLD (mkYE i ts evs) MD); [|exact E]. intro Y. apply N in Y. congruence.
  - apply (OLD (mkYE i ts evs) MD); [|exact E]. intro Y. apply N in Y. congruence.
  - assert (HN : h <> []). { intro Y. apply N in Y. congruence. }
    specialize (LEN HN).
    destruct (lt_eq_lt_dec k (length (strokes h))) as [[LT|EQ]|GT].
    + rewrite (scans_new h (mkYE i ts evs) _ k MD LT) in E. apply (IH k _ _ _ _ E).
    + subst k. rewrite (scans_begin h (mkYE i ts evs) _ MD) in E.
      unfold strokes_of in E. cbn [v_evs v_in] in E. rewrite DR in E. cbn [map fst snd] in E.
      injection E as <- <- <- <-. split; [reflexivity|]. rewrite LEN. discriminate.
    + unfold scans_of in E. cbn [strokes v_evs] in E. rewrite MD in E.
      rewrite nth_overflow in E; [discriminate|]. rewrite rev_length. cbn [length]. lia.
Qed.

Section Hyps.
Hypothesis OO : occ_only occRay.
Hypothesis DG : nc_gauss dflt = false.
Hypothesis MV : forall p, moveScan t2id p = p.
Hypothesis Z0 : dbl 0%R = 0%Q.
Hypothesis MA : means_average dflt addPt compute.

Lemma in_frame_seen (g : grid) o m s : n_pose g = qposeOf dbl o ->
  seen_from btw tp g (qposeOf dbl o) (map (option_map (moveScan m)) s) = in_frame (o, m, s).
Proof.
  intro P. unfold seen_from, SysSpec.in_frame. rewrite P, map_map. apply map_ext. intros [p|]; reflexivity.
Qed.
Lemma in_frame_first (g : grid) o s : n_pose g = qposeOf dbl o ->
  seen_from btw tp g (qposeOf dbl o) s = in_frame (o, t2id, s).
Proof using MV.
  intro P. unfold seen_from, SysSpec.in_frame. rewrite P. apply map_ext. intros [p|]; [|reflexivity].
  cbn. rewrite MV. reflexivity.
Qed.
Lemma origin0 : qposeOf dbl (mkP 0 0 0) = mkPose 0 0 0.
Proof using Z0. unfold qposeOf. cbn. rewrite Z0. reflexivity. Qed.

(** *** where the cells of a frame come from *)
Definition from_scan (l : list stroke) (c : cell) : Prop :=
  nc_gauss c = true -> exists s ps, In s l /\ (forall p, In p ps -> In (Some p) (in_frame s)) /\
                                    average ps (nc_mean c).
Lemma from_dflt l : from_scan l dflt.
Proof using DG. intro G. congruence. Qed.
Lemma from_occ l c s e : from_scan l c -> from_scan l (occRay c s e).
Proof using OO. intros H G. destruct (OO c s e) as [M E]. rewrite M. apply H. apply E. exact G. Qed.
Lemma from_made l s c : In s l -> made_of (in_frame s) c -> from_scan l c.
Proof using MA.
  intros I (ps & -> & HP) G. exists s, ps. split; [exact I|]. split; [exact HP|]. apply MA. exact G.
Qed.
Lemma from_more l l' c : (forall s, In s l -> In s l') -> from_scan l c -> from_scan l' c.
Proof. intros H F G. destruct (F G) as (s & ps & I & HP & AV). exists s, ps. auto. Qed.

Lemma good_new l : good (from_scan l) (newFrame dflt).
Proof using DG. unfold good. cbn. intros c [I|[]]. injection I as <-. apply from_dflt. Qed.
Lemma good_clear P (g : grid) : good P (with_vox g (clear (n_vox g))).
Proof. unfold good. cbn [with_vox n_vox clear cells with_cells]. apply holds_none. Qed.

Lemma fill_from first l g : head_ok first l -> fill first l = Ok g -> good (from_scan l) g.
Proof using OO DG MV Z0 MA.
  intros HO E. destruct l as [|[[o m] s] t]; unfold SysSpec.fill in E.
  { injection E as <-. apply good_new. }
  destruct (HO o m s t eq_refl) as [-> FO].
  apply bind_ok_inv in E. destruct E as (g1 & E1 & E).
  assert (H1 : good (from_scan ((o, t2id, s) :: t)) g1).
  { destruct first.
    - specialize (FO eq_refl). subst o. unfold n_initialize in E1.
      eapply good_mergePcl in E1; [apply E1|apply from_dflt|intros; apply from_occ; assumption|apply good_clear|].
      intros c M. apply (from_made _ (mkP 0 0 0, t2id, s)); [left; reflexivity|].
      rewrite <- (in_frame_first (with_vox (newFrame dflt) (clear (n_vox (newFrame dflt)))))
        by (rewrite origin0; reflexivity).
      rewrite origin0. exact M.
    - unfold SysSpec.add_scan in E1.
      eapply good_mergePcl in E1; [apply E1|apply from_dflt|intros; apply from_occ; assumption|apply good_new|].
      intros c M. apply (from_made _ (o, t2id, s)); [left; reflexivity|].
      rewrite in_frame_first in M by reflexivity. exact M. }
  clear E1 FO HO. revert E.
  apply (foldM_inv (good (from_scan ((o, t2id, s) :: t)))); [|exact H1].
  intros ga [[o2 m2] s2] gb I HA E. unfold SysSpec.add_scan in E.
  eapply good_mergePcl in E; [apply E|apply from_dflt|intros; apply from_occ; assumption|exact HA|].
  intros c M. apply (from_made _ (o2, m2, s2)); [right; exact I|].
  rewrite in_frame_seen in M by reflexivity. exact M.
Qed.

(** *** what a frame holds after clean scans *)
Hypothesis SELF : forall o, peq (tp (btw o o) (0, 0)%Q) (0, 0)%Q.

Lemma add_clean (g : grid) o s sc : nwf g -> n_cs g = 1#4 -> n_pose g = qposeOf dbl o ->
  seen_from btw tp g (qposeOf dbl o) s = in_frame sc -> fst (fst sc) = o -> clean sc ->
  exists g', mergeInTracedPcl merge dflt addPt compute tcell occRay btw tp g s (qposeOf dbl o) true = Ok g' /\
    nwf g' /\ n_cs g' = 1#4 /\
    forall c, match scan_cell dflt addPt compute (1#4) (in_frame sc) c with
              | Some x => gauss_at g' c = Some (nc_mean x)
              | None => fades (on_beam dflt addPt compute (1#4) (sensor_of btw tp dbl sc) (in_frame sc) c)
                              (gauss_at g c) (gauss_at g' c)
              end.
Proof using OO DG MA SELF.
  intros W CS P SF OO' [CL RY]. rewrite OO' in RY.
  destruct (origin_cell (n_vox g) (tp (btw (qposeOf dbl o) (qposeOf dbl o)) (0, 0)%Q) (proj1 W) (SELF _)) as [I0 B0].
  destruct (scan_replace merge dflt tcell addPt compute occRay btw tp MA g s (qposeOf dbl o) W) with (resize := true) (c0 := (0, 0)%Z)
    as (g' & mid & E & W' & SH & GR & CC & FR & CT).
  - rewrite SF, CS. exact CL.
  - left. reflexivity.
  - exact OO.
  - rewrite P. destruct W as [W0 W1]. rewrite W1. exact I0.
  - exact B0.
  - rewrite SF, CS, P. exact RY.
  - exists g'. split; [exact E|]. split; [exact W'|]. split; [destruct SH as (_ & SH & _); congruence|].
    intro c. unfold gauss_at. specialize (CT c). rewrite SF, CS in CT. rewrite CT.
    destruct (scan_cell dflt addPt compute (1#4) (in_frame sc) c) as [x|] eqn:EX.
    + unfold scan_cell in EX. destruct (nc_gauss _) eqn:G in EX; [|discriminate]. injection EX as <-.
      cbn [gmean]. rewrite G. reflexivity.
    + specialize (FR c). rewrite SF, CS, P in FR. destruct FR as [->|(OB & x & -> & M & G)]; [left; reflexivity|].
      unfold fades, gmean. destruct (nc_gauss x) eqn:GX.
      * left. specialize (G eq_refl). destruct (content (n_vox g) c) as [v|]; [rewrite G, M; reflexivity|].
        rewrite DG in G. discriminate.
      * right. split; [|reflexivity]. unfold sensor_of. rewrite OO'. exact OB.
Qed.

Lemma gauss_frame c : gauss_at (newFrame dflt) c = None.
Proof using DG.
  unfold gauss_at. unfold gmean, content. destruct (in_box _ c); [|reflexivity].
  cbn [newFrame n_setCellSize n_new n_vox setCellSize vempty cells].
  destruct (slot_of _ c) as [|[|k]]; cbn [nth]; [rewrite DG| |]; reflexivity.
Qed.
Lemma nwf_frame : nwf (newFrame dflt).
Proof. split; [split; reflexivity|reflexivity]. Qed.

Definition newest_from (acc : option cell) (l : list stroke) (c : pcell) : option cell :=
  fold_left (fun acc s => match scan_cell dflt addPt compute (1#4) (in_frame s) c with
                          | Some x => Some x | None => acc end) l acc.
Notation on_beam_of s := (on_beam dflt addPt compute (1#4) (sensor_of btw tp dbl s) (in_frame s)).
Notation scan_cell_of s := (scan_cell dflt addPt compute (1#4) (in_frame s)).
Notation remains := (remains dflt addPt compute btw tp moveScan dbl).
Lemma newest_mono l c : forall a b m, (forall m, option_map nc_mean a = Some m -> option_map (@nc_mean X) b = Some m) ->
  option_map nc_mean (newest_from a l c) = Some m -> option_map nc_mean (newest_from b l c) = Some m.
Proof.
  induction l as [|s t IH]; intros a b m H E; [apply H; exact E|].
  unfold newest_from in *. cbn [fold_left] in *. revert E. apply IH.
  destruct (scan_cell_of s c); [auto|exact H].
Qed.

Lemma fold_clean t : Forall clean t -> forall (g : grid), nwf g -> n_cs g = 1#4 ->
  exists g', foldM (fun g (x : stroke) => let '(o, m, s) := x in
                       add_scan g o (map (option_map (moveScan m)) s)) t g = Ok g' /\
    nwf g' /\ n_cs g' = 1#4 /\
    (forall c acc m, (forall q, gauss_at g c = Some q -> option_map nc_mean acc = Some q) ->
       gauss_at g' c = Some m -> option_map nc_mean (newest_from acc t c) = Some m) /\
    (forall c, (forall s, In s t -> scan_cell_of s c = None /\ ~ on_beam_of s c) -> gauss_at g' c = gauss_at g c) /\
    (forall c x, remains t c x -> gauss_at g' c = Some (nc_mean x)).
Proof using OO DG MA SELF.
  induction 1 as [|[[o m] s] t CL _ IH]; intros g W CS.
  - exists g. split; [reflexivity|]. split; [exact W|]. split; [exact CS|]. split; [intros c acc m H; apply H|].
    split; [reflexivity|]. intros c x (l1 & s & l2 & E & _). apply app_cons_not_nil in E. destruct E.
  - destruct (add_clean (n_setOrigin g (qposeOf dbl o)) o (map (option_map (moveScan m)) s) (o, m, s))
      as (g1 & E1 & W1 & CS1 & G1); auto.
    { rewrite in_frame_seen; reflexivity. }
    destruct (IH g1 W1 CS1) as (g' & E & W' & CS' & N' & K' & R').
    exists g'. cbn [foldM]. unfold SysSpec.add_scan at 1. rewrite E1. cbn [bind]. split; [exact E|].
    split; [exact W'|]. split; [exact CS'|]. split; [|split].
    + intros c acc q H E2. unfold newest_from. cbn [fold_left]. eapply N'; [|exact E2].
      intros q2 E3. specialize (G1 c). destruct (scan_cell_of (o, m, s) c) as [x|]; [cbn; congruence|].
      apply H. apply (fades_some _ _ _ _ G1 E3).
    + intros c H. rewrite K' by (intros s' I; apply H; right; exact I).
      specialize (G1 c). destruct (H _ (or_introl eq_refl)) as [H1 H2]. rewrite H1 in G1.
      apply (fades_not _ _ _ H2 G1).
    + intros c x (l1 & s1 & l2 & E2 & SC & L). destruct l1 as [|s0 l1].
      * injection E2 as <- <-. rewrite K' by exact L. specialize (G1 c). rewrite SC in G1. exact G1.
      * injection E2 as <- ->. apply R'. exists l1, s1, l2. auto.
Qed.

Lemma fill_clean first l : head_ok first l -> Forall clean l ->
  exists g, fill first l = Ok g /\ nwf g /\ n_cs g = 1#4 /\
    (forall c m, gauss_at g c = Some m -> option_map nc_mean (newest_cell l c) = Some m) /\
    (forall c x, remains l c x -> gauss_at g c = Some (nc_mean x)).
Proof using OO DG MV Z0 MA SELF.
  intros HO CL. destruct l as [|[[o m] s] t].
  { exists (newFrame dflt). split; [reflexivity|]. split; [apply nwf_frame|]. split; [reflexivity|].
    split; [intros c m; rewrite gauss_frame; discriminate|].
    intros c x (l1 & s & l2 & E & _). apply app_cons_not_nil in E. destruct E. }
  destruct (HO o m s t eq_refl) as [-> FO]. inversion CL as [|? ? CL1 CL2]; subst.
  assert (F1 : exists g1, (if first
               then n_initialize merge dflt addPt compute tcell occRay btw tp (newFrame dflt) s
               else add_scan (newFrame dflt) o s) = Ok g1 /\ nwf g1 /\ n_cs g1 = 1#4 /\
     forall c, gauss_at g1 c = option_map nc_mean (scan_cell_of (o, t2id, s) c)).
  { assert (FN : forall P b, fades P None b -> b = @None point) by (intros P b [->|[_ ->]]; reflexivity).
    destruct first.
    - specialize (FO eq_refl). subst o. unfold n_initialize.
      set (g0 := with_vox (newFrame dflt) (clear (n_vox (newFrame dflt)))).
      assert (WN : nwf g0).
      { split; [apply clear_spec; apply nwf_frame|reflexivity]. }
      destruct (add_clean g0 (mkP 0 0 0) s (mkP 0 0 0, t2id, s)) as (g1 & E1 & W1 & CS1 & G1); auto.
      { rewrite origin0. reflexivity. }
      { apply in_frame_first. rewrite origin0. reflexivity. }
      rewrite origin0 in E1. exists g1. split; [exact E1|]. split; [exact W1|]. split; [exact CS1|].
      intro c. specialize (G1 c). destruct (scan_cell_of _ c); [exact G1|].
      change (gauss_at g0 c) with (gauss_at (n_clear (newFrame dflt)) c) in G1. rewrite gauss_clear in G1 by apply nwf_frame.
      exact (FN _ _ G1).
    - unfold SysSpec.add_scan.
      destruct (add_clean (n_setOrigin (newFrame dflt) (qposeOf dbl o)) o s (o, t2id, s)) as (g1 & E1 & W1 & CS1 & G1); auto.
      { apply nwf_frame. }
      { apply in_frame_first. reflexivity. }
      exists g1. split; [exact E1|]. split; [exact W1|]. split; [exact CS1|].
      intro c. specialize (G1 c). destruct (scan_cell_of _ c); [exact G1|].
      change (gauss_at (n_setOrigin (newFrame dflt) (qposeOf dbl o)) c) with (gauss_at (newFrame dflt) c) in G1.
      rewrite gauss_frame in G1. exact (FN _ _ G1). }
  destruct F1 as (g1 & E1 & W1 & CS1 & G1).
  destruct (fold_clean t CL2 g1 W1 CS1) as (g & E & W & CS & N & K & R).
  exists g. unfold SysSpec.fill. rewrite E1. cbn [bind]. split; [exact E|]. split; [exact W|]. split; [exact CS|].
  split.
  - intros c q H. unfold SysSpec.newest_cell. cbn [fold_left].
    pose proof (N c (scan_cell_of (o, t2id, s) c) q) as NN. unfold newest_from in NN.
    destruct (scan_cell_of (o, t2id, s) c) as [x|] eqn:SC; apply NN; try exact H; intros q2 H2; rewrite G1, SC in H2; exact H2.
  - intros c x (l1 & s1 & l2 & E2 & SC & L). destruct l1 as [|s0 l1].
    + injection E2 as <- <-. rewrite K by exact L. rewrite G1, SC. reflexivity.
    + injection E2 as <- ->. apply R. exists l1, s1, l2. auto.
Qed.

(** *** the published cloud *)
Theorem sys_cloud h y : yreach h y ->
  exists order fs,
    Permutation order (born h) /\ (clock h -> order = born h) /\
    allOk (map (frame_of h (y_alg y)) order) = Ok fs /\
    (fs = [] -> getPclMap (y_map y) = []) /\
    ((forall f, In f fs -> drawable f) ->
     (forall p, In p (getPclMap (y_map y)) ->
       exists c q, drawn fs c = Some q /\ p = tp (btw world world) q) /\
     (forall c q, lasting tcell btw tp fs c q -> In (tp (btw world world) q) (getPclMap (y_map y)))).
Proof using OO DG.
  intro R. destruct (sys_map _ _ _ _ _ _ _ _ _ _ _ _ _ _ _ _ _ _ h y R)
    as (order & fs & g0 & g & PE & CK & FS & B0 & DR & EM & ME).
  exists order, fs. split; [exact PE|]. split; [exact CK|]. split; [exact FS|].
  split. { intro E. rewrite (EM E). reflexivity. }
  intros DW. destruct fs as [|f0 t].
  { rewrite (EM eq_refl). cbn. split; [intros p []|]. intros c q (s1 & f & s2 & E & _). apply app_cons_not_nil in E. destruct E. }
  assert (NE : f0 :: t <> []) by discriminate. destruct (ME NE) as [MT _].
  destruct (blank_ok dflt g0 B0) as (W0 & P0 & S0).
  destruct (draw_all merge dflt tcell occRay btw tp OO DG (f0 :: t) g0 W0 P0 S0 DW) as (g1 & E1 & W1 & P1 & S1 & CC & GA & _).
  rewrite DR in E1. injection E1 as <-. specialize (CC NE). destruct CC as (ms & EMS & IN).
  unfold getMeansTransformed in MT. rewrite EMS in MT. injection MT as MT. unfold getPclMap in *. rewrite <- MT, P1.
  split.
  - intros p I. apply in_map_iff in I. destruct I as (q & <- & Hq). apply IN in Hq. destruct Hq as (c & v & E & Gv & <-).
    exists c, (nc_mean v). split; [|reflexivity].
    assert (G : gauss_at g c = Some (nc_mean v)) by (unfold gauss_at, gmean; rewrite E, Gv; reflexivity).
    apply GA in G. replace (gauss_at g0 c) with (@None point) in G; [exact G|].
    destruct B0 as [->|(gx & [WX _] & _ & _ & ->)]; symmetry; [apply gauss_new; exact DG|apply gauss_clear; exact WX].
  - intros c q L. apply in_map_iff. exists q. split; [reflexivity|]. apply IN.
    pose proof (draw_lasting merge dflt tcell occRay btw tp OO DG (f0 :: t) g0 g c q W0 P0 S0 DW DR L) as E.
    unfold gauss_at, gmean in E.
    destruct (content (n_vox g) c) as [v|] eqn:EC; [|discriminate].
    destruct (nc_gauss v) eqn:Gv; [|discriminate]. injection E as <-. eauto.
Qed.

(** *** where its points come from *)
Hypothesis TG : forall t c, nc_gauss (tcell t c) = nc_gauss c.
Hypothesis TM : forall t c, nc_gauss c = true -> nc_mean (tcell t c) = tp t (nc_mean c).

Lemma traced_pose (g f g' : grid) : addToMap g f = Ok g' -> n_pose g' = n_pose g.
Proof.
  intro E. unfold MapModel.addToMap, mergeInTraced in E. apply bind_ok_inv in E. destruct E as (v & _ & E).
  unfold mergeInCells in E. cbn [orb] in E. destruct (bbox _) as [[[x0 y0] x1] y1].
  apply bind_ok_inv in E. destruct E as (v0 & _ & E). apply bind_ok_inv in E. destruct E as (v1 & _ & E).
  injection E as <-. reflexivity.
Qed.
Definition from_frame (fs : list grid) (c : cell) : Prop :=
  nc_gauss c = true -> exists f c0, In f fs /\ In c0 (getValidCells (n_vox f)) /\ nc_gauss c0 = true /\
    nc_mean c = tp (btw (n_pose f) world) (nc_mean c0).

Theorem sys_points h y p : yreach h y -> In p (getPclMap (y_map y)) ->
  exists k x s ps q, getPoseLocation (a_slam (y_alg y)) k = Ok x /\ In s (scans_of h k) /\
    (forall a, In a ps -> In (Some a) (in_frame s)) /\ average ps q /\
    p = tp (btw world world) (tp (btw (qposeOf dbl x) world) q).
Proof using OO DG MV Z0 MA TG TM.
  intros R IP. destruct (sys_map _ _ _ _ _ _ _ _ _ _ _ _ _ _ _ _ _ _ h y R)
    as (order & fs & g0 & g & PE & _ & FS & B0 & DR & EM & ME).
  assert (NE : fs <> []). { intro E. rewrite (EM E) in IP. destruct IP. }
  destruct (ME NE) as [MT _]. destruct (blank_ok dflt g0 B0) as (W0 & P0 & S0).
  destruct (fold_inv merge dflt tcell occRay btw tp fs g0 g W0 DR) as (W & P & _ & _ & _ & [[Y _]|MS]); [contradiction|].
  unfold getMeansTransformed in MT. rewrite MS in MT. injection MT as MT. rewrite <- MT in IP.
  apply in_map_iff in IP. destruct IP as (q & <- & IQ). apply in_map_iff in IQ. destruct IQ as (c & <- & IC).
  unfold getGaussianCells in IC. apply filter_In in IC. destruct IC as [IC GC].
  assert (GG : good (from_frame fs) g /\ n_pose g = world).
  { revert DR. apply (foldM_inv (fun g => good (from_frame fs) g /\ n_pose g = world)).
    - intros ga f gb IF [HA PA] E. split; [|rewrite (traced_pose _ _ _ E); exact PA].
      eapply good_mergeInTraced in E; [exact E| | |exact HA|].
      + intro Y. congruence.
      + intros c1 s e H Y. destruct (OO c1 s e) as [M1 G1]. rewrite M1. apply H. apply G1. exact Y.
      + intros c1 I1 Y. cbn in *. rewrite TG in Y. exists f, c1. split; [exact IF|]. split; [exact I1|].
        split; [exact Y|]. rewrite PA. apply TM. exact Y.
    - split; [|exact P0]. destruct B0 as [->|(gx & _ & _ & _ & ->)].
      + intros c1 [I|[]]. injection I as <-. intro Y. congruence.
      + unfold good. cbn [n_clear n_vox clear cells with_cells]. apply holds_none. }
  destruct GG as [GG PG]. destruct (holds_valid _ _ _ GG IC GC) as (f & c0 & IF & I0 & G0 & M0).
  apply allOk_zip in FS. destruct FS as [LF FA]. rewrite Forall_forall in FA.
  assert (IK : exists k, In (k, f) (combine order fs)).
  { apply In_nth_error in IF. destruct IF as [n En].
    assert (L : n < length order) by (rewrite <- LF; eapply nth_error_lt; exact En).
    destruct (nth_error order n) as [k|] eqn:Ek; [|apply nth_error_None in Ek; lia]. exists k.
    apply nth_error_In with n. clear - En Ek. revert fs n En Ek. induction order as [|a t IH]; intros [|b fs] [|n]; cbn; intros; try discriminate.
    - congruence.
    - apply IH; assumption. }
  destruct IK as [k IK]. specialize (FA _ IK). cbn [fst snd] in FA. unfold SysSpec.frame_of in FA.
  apply bind_ok_inv in FA. destruct FA as (x & EX & FA). apply bind_ok_inv in FA. destruct FA as (b & EB & FA).
  injection FA as FA. rewrite <- FA in I0, M0. cbn [n_setTimestamp n_setOrigin n_vox n_pose] in I0, M0.
  pose proof (fill_from (fst k =? 0) (scans_of h (fst k)) b (heads h y R (fst k)) EB) as GB.
  destruct (holds_valid _ _ _ GB I0 G0) as (s & ps & IS & HP & AV).
  exists (fst k), x, s, ps, (nc_mean c0). split; [exact EX|]. split; [exact IS|]. split; [exact HP|].
  split; [exact AV|]. rewrite PG, M0. reflexivity.
Qed.
End Hyps.
End System.
