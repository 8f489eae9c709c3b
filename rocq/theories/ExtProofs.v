(** Proofs: the size of the published map. *)
From Coq Require Import Reals Qreals List ZArith QArith Qabs Qround Bool Lia Arith Lqa Sorting.Permutation Sorting.Sorted.
From Verif Require Import Base LinAlg3 GeoModel GeoSpec GeoProofs.
From Verif Require Import GraphModel LoopModel SlamModel AlgModel AlgSpec AlgProofs.
From Verif Require Import QLemmas VoxelModel VoxelSpec VoxelProofs GridModel GridSpec GridProofs ScanSpec ScanProofs MapModel MapSpec MapHist MapDraw CellsFrom.
From Verif Require Import SysModel SysSpec SysProofs SysMap WinSpec WinSize ExtSpec.
Import ListNotations.
Open Scope nat_scope.
Set Default Proof Using "Type".

Lemma bbox_covers l p : In p l -> let '(x0, y0, x1, y1) := bbox l in (x0 <= fst p <= x1 /\ y0 <= snd p <= y1)%Q.
Proof.
  unfold bbox. set (leb := fun b b' : Q * Q * Q * Q => let '(x0, y0, x1, y1) := b in let '(u0, v0, u1, v1) := b' in (u0 <= x0 /\ v0 <= y0 /\ x1 <= u1 /\ y1 <= v1)%Q).
  assert (S : forall b q, leb b (bbox_step b q) /\ let '(x0, y0, x1, y1) := bbox_step b q in (x0 <= fst q <= x1 /\ y0 <= snd q <= y1)%Q \/
     ~ (let '(x0, y0, x1, y1) := b in x0 <= x1 /\ y0 <= y1)%Q).
  { intros [[[x0 y0] x1] y1] q. unfold leb, bbox_step.
    destruct (Qlt_b (fst q) x0) eqn:A, (Qlt_b (snd q) y0) eqn:B, (Qlt_b x1 (fst q)) eqn:E, (Qlt_b y1 (snd q)) eqn:F;
      repeat match goal with H : Qlt_b _ _ = true |- _ => apply ltb_spec in H | H : Qlt_b _ _ = false |- _ => apply ltb_false in H end;
      (split; [lra|]); (destruct (Qlt_le_dec x1 x0); [right; lra|]); (destruct (Qlt_le_dec y1 y0); [right; lra|]); left; lra. }
  set (fine := fun b : Q * Q * Q * Q => let '(x0, y0, x1, y1) := b in (x0 <= x1 /\ y0 <= y1)%Q).
  assert (FI : forall b q, fine b -> fine (bbox_step b q)).
  { intros b q. destruct (S b q) as [L _]. destruct b as [[[x0 y0] x1] y1], (bbox_step _ q) as [[[u0 v0] u1] v1]. unfold fine, leb in *. lra. }
  assert (MO : forall l b, leb b (fold_left bbox_step l b)).
  { clear l. induction l as [|q l IH]; intro b; [destruct b as [[[x0 y0] x1] y1]; cbn; lra|]. cbn [fold_left]. specialize (IH (bbox_step b q)). destruct (S b q) as [L _].
    destruct b as [[[x0 y0] x1] y1], (bbox_step _ q) as [[[u0 v0] u1] v1], (fold_left _ _ _) as [[[a0 b0] a1] b1]. unfold leb in *. lra. }
  assert (G : forall l b, fine b -> In p l -> let '(x0, y0, x1, y1) := fold_left bbox_step l b in (x0 <= fst p <= x1 /\ y0 <= snd p <= y1)%Q).
  { clear l. induction l as [|q l IH]; intros b FB I; [destruct I|]. cbn [fold_left]. destruct I as [->|I]; [|apply IH; [apply FI; exact FB|exact I]].
    destruct (S b p) as [L K]. specialize (MO l (bbox_step b p)).
    destruct b as [[[x0 y0] x1] y1], (bbox_step _ p) as [[[u0 v0] u1] v1], (fold_left _ _ _) as [[[a0 b0] a1] b1]. unfold leb, fine in *. destruct K as [K|K]; [lra|tauto]. }
  intro I. apply (G l (0, 0, 0, 0)%Q); [cbn; lra|exact I].
Qed.

Section Mapper.
Context {X L : Type}.
Notation cell := (ncell X).
Notation grid := (ngrid X).
Variable merge : cell -> cell -> cell.
Variable dflt : cell.
Variable tcell : qtrans L -> cell -> cell.
Variable occRay : cell -> point -> cell -> cell.
Variable rawOcc : cell -> Q.
Variable btw : qpose -> qpose -> qtrans L.
Variable tp : qtrans L -> point -> point.
Notation addToMap := (addToMap merge dflt tcell occRay btw tp).
Notation mreach := (mreach merge dflt tcell occRay rawOcc btw tp).
Notation mstep := (MapModel.mstep merge dflt tcell occRay rawOcc btw tp).
Notation placed := (placed tcell btw).
Notation within := (within tcell btw).

Lemma cells_cover (g g' : grid) l : (0 < cell_size (n_vox g))%Q -> mergeInCells merge g l true = Ok g' ->
  forall c, In c l -> isInside (n_vox g') (nc_mean c) = true.
Proof.
  intros HC E c I. unfold mergeInCells in E. cbn [orb] in E. destruct (bbox _) as [[[x0 y0] x1] y1] eqn:EB.
  apply bind_ok_inv in E. destruct E as (v0 & E0 & E). apply bind_ok_inv in E. destruct E as (v1 & E1 & E).
  injection E as <-. cbn [updateMeans n_vox]. apply enlarge_size in E0; [|exact HC]. destruct E0 as (A & B & _).
  assert (HC0 : (0 < cell_size v0)%Q) by (rewrite (proj1 A); exact HC).
  assert (G : grown v0 v1).
  { revert E1. apply (foldM_inv (fun v => grown v0 v)); [|apply grown_refl].
    intros v b v' _ G1 E. destruct (nc_gauss b); [|injection E as <-; exact G1].
    apply addCell_size in E; [|rewrite (proj1 G1); exact HC0]. eapply grown_trans; [exact G1|apply E]. }
  apply (grown_inside v0 v1 (nc_mean c) HC0 G). apply inside_iff.
  pose proof (bbox_covers (map nc_mean l) (nc_mean c) (in_map nc_mean l c I)) as K. rewrite EB in K. lra.
Qed.
Lemma trace_same start l (v v' : vgrid cell) : foldM (traceCell dflt occRay start) l v = Ok v' -> same v v'.
Proof.
  intro E. revert E. apply (foldM_inv (fun w => same v w)); [|apply same_refl].
  intros v1 c v2 _ S1 E1. eapply same_trans; [exact S1|]. clear - E1.
  unfold traceCell in E1. destruct (nc_gauss c); [|injection E1 as <-; apply same_refl].
  apply bind_ok_inv in E1. destruct E1 as (r & ER & E). apply rayTrace_same in ER. unfold occSlots in E.
  apply bind_ok_inv in E. destruct E as (l & _ & E). injection E as <-. eapply same_trans; [exact ER|apply same_cells].
Qed.
Lemma add_ext (g f g' : grid) : (0 < cell_size (n_vox g))%Q -> n_pose g = world -> addToMap g f = Ok g' ->
  grown (n_vox g) (n_vox g') /\ n_pose g' = world /\ n_cs g' = n_cs g /\
  (forall r, 0 <= r -> within r f -> stays r (n_vox g) -> stays r (n_vox g'))%Q /\
  (forall c, In c (placed f) -> isInside (n_vox g') (nc_mean c) = true).
Proof.
  intros HC PW E. unfold MapModel.addToMap, mergeInTraced in E. rewrite PW in E. apply bind_ok_inv in E. destruct E as (v & EV & E).
  pose proof (trace_same _ _ _ _ EV) as S. clear EV.
  assert (HC2 : (0 < cell_size (n_vox (with_vox g v)))%Q) by (cbn [with_vox n_vox]; rewrite (proj1 S); exact HC).
  destruct (mergeCells_size merge _ _ _ HC2 E) as [A B]. pose proof (cells_cover _ _ _ HC2 E) as CV. cbn [with_vox n_vox] in A, B.
  split; [eapply grown_trans; [apply same_grown; exact S|exact A]|].
  assert (HD : n_pose g' = n_pose g /\ n_cs g' = n_cs g).
  { clear - E. unfold mergeInCells in E. destruct (bbox _) as [[[x0 y0] x1] y1]. apply bind_ok_inv in E. destruct E as (v0 & _ & E).
    apply bind_ok_inv in E. destruct E as (v1 & _ & E). injection E as <-. split; reflexivity. }
  destruct HD as [H1 H2]. split; [congruence|]. split; [exact H2|]. split; [|exact CV].
  intros r R0 W T. apply B; [exact R0|exact W|eapply same_stays; [exact S|exact T]].
Qed.
Lemma fold_ext l : forall (g g' : grid), (0 < cell_size (n_vox g))%Q -> n_pose g = world -> foldM addToMap l g = Ok g' ->
  grown (n_vox g) (n_vox g') /\ n_pose g' = world /\ n_cs g' = n_cs g /\
  (forall r, 0 <= r -> (forall f, In f l -> within r f) -> stays r (n_vox g) -> stays r (n_vox g'))%Q /\
  (forall f c, In f l -> In c (placed f) -> isInside (n_vox g') (nc_mean c) = true).
Proof.
  induction l as [|f l IH]; intros g g' HC PW E.
  - injection E as <-. split; [apply grown_refl|]. split; [exact PW|]. split; [reflexivity|]. split; [auto|intros f c []].
  - cbn [foldM] in E. apply bind_ok_inv in E. destruct E as (g1 & E1 & E).
    destruct (add_ext g f g1 HC PW E1) as (G1 & P1 & C1 & S1 & V1).
    assert (HC1 : (0 < cell_size (n_vox g1))%Q) by (rewrite (proj1 G1); exact HC).
    destruct (IH g1 g' HC1 P1 E) as (G2 & P2 & C2 & S2 & V2).
    split; [eapply grown_trans; eassumption|]. split; [exact P2|]. split; [congruence|]. split.
    + intros r R0 W T. apply S2; [exact R0|intros b I; apply W; right; exact I|]. apply S1; [exact R0|apply W; left; reflexivity|exact T].
    + intros b c [->|I] IC; [|eapply V2; eassumption]. eapply grown_inside; [exact HC1|exact G2|]. apply V1. exact IC.
Qed.
Lemma addFrame_ext (m : mapper X) (f : grid) ts m' : addFrame merge dflt tcell occRay rawOcc btw tp m f ts = Ok m' ->
  addToMap (m_ndt m) f = Ok (m_ndt m') /\ m_occ m' = createOccupancyGrid rawOcc btw tp (m_ndt m').
Proof.
  unfold addFrame. intro E. apply bind_ok_inv in E. destruct E as (g & EG & E).
  apply bind_ok_inv in E. destruct E as (ms & EM & E). injection E as <-. cbn. auto.
Qed.
Lemma recalc_ext (m : mapper X) s ts m' : recalc merge dflt tcell occRay rawOcc btw tp m s ts = Ok m' ->
  foldM addToMap s (n_clear (m_ndt m)) = Ok (m_ndt m') /\ m_occ m' = createOccupancyGrid rawOcc btw tp (m_ndt m').
Proof.
  unfold recalc. intro E. apply bind_ok_inv in E. destruct E as (g & EG & E).
  apply bind_ok_inv in E. destruct E as (ms & EM & E). injection E as <-. cbn. auto.
Qed.
Record ext (ops : list (mop (X:=X))) (m : mapper X) : Prop := {
  x_cell : cell_size (n_vox (m_ndt m)) = map_res /\ n_cs (m_ndt m) = map_res;
  x_pose : n_pose (m_ndt m) = world;
  x_stays : forall r, (0 <= r)%Q -> (forall f, In f (drawn_in ops) -> within r f) -> stays r (n_vox (m_ndt m));
  x_cover : forall f c, In f (drawn_in ops) -> In c (placed f) -> isInside (n_vox (m_ndt m)) (nc_mean c) = true;
  x_occ : m_frames m <> [] -> om_width (calcOccupancyGridMsg m) = width (n_vox (m_ndt m)) /\
     om_height (calcOccupancyGridMsg m) = height (n_vox (m_ndt m)) /\ om_res (calcOccupancyGridMsg m) = map_res }.
Lemma drawn_app (a b : list (mop (X:=X))) : drawn_in (a ++ b) = drawn_in a ++ drawn_in b.
Proof. apply flat_map_app. Qed.
Lemma step_grows ops m o m' : ext ops m -> mstep m o m' -> ext (ops ++ [o]) m' /\ grown (n_vox (m_ndt m)) (n_vox (m_ndt m')).
Proof.
  intros [C P S V O] ST. assert (HC : (0 < cell_size (n_vox (m_ndt m)))%Q) by (rewrite (proj1 C); reflexivity).
  destruct ST as [f ts m' E|s t m' SO E|fs LE].
  - destruct (addFrame_ext _ _ _ _ E) as (EA & EO).
    destruct (add_ext _ _ _ HC P EA) as (G & P' & C' & S' & V'). split; [|exact G]. split.
    + rewrite (proj1 G), C'. exact C.
    + exact P'.
    + intros r R0 W. rewrite drawn_app in W. apply S'; [exact R0|apply W, in_or_app; right; left; reflexivity|].
      apply S; [exact R0|]. intros b I. apply W, in_or_app. left. exact I.
    + intros b c I IC. rewrite drawn_app in I. apply in_app_or in I. destruct I as [I|[<-|[]]]; [|apply V'; exact IC].
      eapply grown_inside; [exact HC|exact G|]. eapply V; eassumption.
    + intros _. unfold calcOccupancyGridMsg. rewrite EO. cbn. rewrite C'. repeat split. apply C.
  - destruct (recalc_ext _ _ _ _ E) as (EA & EO).
    assert (SC : same (n_vox (m_ndt m)) (n_vox (n_clear (m_ndt m)))) by (repeat split).
    assert (HC2 : (0 < cell_size (n_vox (n_clear (m_ndt m))))%Q) by exact HC.
    destruct (fold_ext s _ _ HC2 P EA) as (G & P' & C' & S' & V').
    assert (G2 : grown (n_vox (m_ndt m)) (n_vox (m_ndt m'))) by (eapply grown_trans; [apply same_grown; exact SC|exact G]).
    split; [|exact G2]. split.
    + rewrite (proj1 G2), C'. exact C.
    + exact P'.
    + intros r R0 W. rewrite drawn_app in W. cbn in W. rewrite app_nil_r in W.
      apply S'; [exact R0|intros b I; apply W, in_or_app; right; exact I|]. eapply same_stays; [exact SC|].
      apply S; [exact R0|]. intros b I. apply W, in_or_app. left. exact I.
    + intros b c I IC. rewrite drawn_app in I. cbn in I. rewrite app_nil_r in I. apply in_app_or in I. destruct I as [I|I]; [|eapply V'; eassumption].
      eapply grown_inside; [exact HC|exact G2|]. eapply V; eassumption.
    + intros _. unfold calcOccupancyGridMsg. rewrite EO. cbn. rewrite C'. repeat split. apply C.
  - split; [|apply grown_refl]. split; cbn; auto.
    + intros r R0 W. apply S; [exact R0|]. intros b I. apply W. rewrite drawn_app. apply in_or_app. left. exact I.
    + intros b c I IC. rewrite drawn_app in I. cbn in I. rewrite app_nil_r in I. eapply V; eassumption.
    + intro N. apply O. intro Z. apply N. rewrite Z in LE. destruct fs; [reflexivity|discriminate].
Qed.
Lemma stays_blank r : (0 <= r)%Q -> stays r (n_vox (m_ndt (m_new dflt))).
Proof.
  intro H. assert (E : ((1 # 4) / 2 == 1 # 8)%Q) by reflexivity.
  unfold stays, minx, maxx, miny, maxy, half.
  change (cell_size (n_vox (m_ndt (m_new dflt)))) with (1#4)%Q.
  change (w_left (n_vox (m_ndt (m_new dflt)))) with 0. change (w_right (n_vox (m_ndt (m_new dflt)))) with 0.
  change (h_up (n_vox (m_ndt (m_new dflt)))) with 0. change (h_down (n_vox (m_ndt (m_new dflt)))) with 0.
  change (qn 0) with 0%Q. rewrite E. repeat split; lra.
Qed.
Lemma ext_reach ops m : mreach ops m -> ext ops m.
Proof.
  induction 1 as [|ops m o m' R IH S].
  - split; [split; reflexivity|reflexivity|intros r R0 _; apply stays_blank; exact R0|intros f c []|cbn; congruence].
  - apply (step_grows ops m o m' IH S).
Qed.
(** as seen from outside *)
Theorem map_size ops m : mreach ops m ->
  (forall f c, In f (drawn_in ops) -> In c (placed f) -> shows m (nc_mean c)) /\
  (forall r, 0 <= r -> (forall f, In f (drawn_in ops) -> within r f) ->
     (forall p, shows m p -> inbox (r + map_res) p) /\
     (m_frames m <> [] -> let msg := calcOccupancyGridMsg m in
        om_res msg = map_res /\
        qn (om_width msg) * om_res msg < 2 * r + 2 * map_res /\ qn (om_height msg) * om_res msg < 2 * r + 2 * map_res))%Q.
Proof.
  intro R. destruct (ext_reach ops m R) as [C P S V O]. split; [exact V|].
  intros r R0 W. destruct (stays_inside r _ (S r R0 W)) as [A B]. rewrite (proj1 C) in A, B. split; [exact A|].
  intro N. destruct (O N) as (O1 & O2 & O3). cbv zeta. rewrite O1, O2, O3. split; [reflexivity|exact B].
Qed.
Theorem map_grows ops m o m' : mreach ops m -> mstep m o m' ->
  (forall p, shows m p -> shows m' p) /\
  (m_frames m <> [] -> om_width (calcOccupancyGridMsg m) <= om_width (calcOccupancyGridMsg m') /\
     om_height (calcOccupancyGridMsg m) <= om_height (calcOccupancyGridMsg m')).
Proof.
  intros R ST. pose proof (ext_reach ops m R) as E0. destruct (step_grows ops m o m' E0 ST) as [E1 G].
  split; [intros p; unfold shows; apply grown_inside; [rewrite (proj1 (x_cell _ _ E0)); reflexivity|exact G]|].
  intro N. destruct (x_occ _ _ E0 N) as (O1 & O2 & _).
  assert (N2 : m_frames m' <> []).
  { destruct ST as [f ts m' E|s t m' SO E|fs LE].
    - unfold addFrame in E. apply bind_ok_inv in E. destruct E as (g & _ & E). apply bind_ok_inv in E. destruct E as (ms & _ & E).
      injection E as <-. cbn. intro Z. apply app_eq_nil in Z. destruct Z; discriminate.
    - unfold recalc in E. apply bind_ok_inv in E. destruct E as (g & _ & E). apply bind_ok_inv in E. destruct E as (ms & _ & E).
      injection E as <-. cbn. intros ->. destruct SO as [SO _]. apply Permutation_sym, Permutation_nil in SO. contradiction.
    - cbn. intros ->. destruct (m_frames m); [contradiction|discriminate]. }
  destruct (x_occ _ _ E1 N2) as (P1 & P2 & _). rewrite O1, O2, P1, P2. unfold width, height. destruct G as (_ & G). lia.
Qed.
End Mapper.

Section System.
Context {X Guess D : Type}.
Notation cell := (ncell X).
Notation grid := (ngrid X).
Notation body := (res grid).
Variable merge : cell -> cell -> cell.
Variable dflt : cell.
Variable addPt : cell -> point -> cell.
Variable compute : cell -> cell.
Variable tcell : qt -> cell -> cell.
Variable occRay : cell -> point -> cell -> cell.
Variable rawOcc : cell -> Q.
Variable btw : qpose -> qpose -> qt.
Variable tp : qt -> point -> point.
Variable noLin : T2.
Variable moveOrigin : qpose -> qt -> qpose.
Variable moveScan : T2 -> point -> point.
Variable dbl : R -> Q.
Variable radius : Q.
Variable le : lenv pose (frame body) M3 Guess D.
Variable se2' : pose -> pose.
Variable odo : M3.
Variable dist : R.
Notation env := (sysEnv merge dflt addPt compute tcell occRay btw tp noLin moveOrigin moveScan dbl radius le se2' odo dist).
Notation yreach := (yreach merge dflt tcell occRay rawOcc btw tp dbl env).
Notation throughout := (throughout merge dflt tcell occRay rawOcc btw tp dbl env).
Notation present := (present merge dflt addPt compute tcell occRay btw tp moveScan dbl).
Notation mreach := (mreach merge dflt tcell occRay rawOcc btw tp).

Lemma throughout_reach P h y : throughout P h y -> yreach h y.
Proof. induction 1 as [|h y e y' T IH S PY]; [constructor|econstructor; eassumption]. Qed.
(** Every run drives the mapper through a history of its own, drawing only frames that are
    present in the run. *)
Theorem run_history (Q0 : grid -> Prop) h y :
  throughout (fun h y => forall f, present h y f -> Q0 f) h y ->
  (forall f t, Q0 f -> Q0 (n_setTimestamp f t)) ->
  exists ops, mreach ops (y_map y) /\ forall f, In f (drawn_in ops) -> Q0 f.
Proof.
  intros T QT. induction T as [P0|h y e y' T (ops & R & F) S PY].
  - exists []. split; [constructor|intros f []].
  - pose proof (throughout_reach _ _ _ T) as YR.
    assert (PB : forall f, present h y f -> Q0 f).
    { clear - T. destruct T; assumption. }
    assert (YR' : yreach (e :: h) y') by (econstructor; eassumption).
    destruct S as [i ts a' evs m' o' U DM]. cbn [y_map] in *.
    destruct DM as [NN|id f m IA NR GF AF|id f m fs s m'' IA RD GF AF AO PS SS RC].
    + exists ops. auto.
    + exists (ops ++ [MAdd f ts]). split.
      * econstructor; [exact R|]. constructor. exact AF.
      * intros b I. rewrite drawn_app in I. apply in_app_or in I. destruct I as [I|[<-|[]]]; [auto|]. apply PB. left. exact GF.
    + exists (((ops ++ [MAdd f ts]) ++ [MTouch fs]) ++ [MRecalc (map snd s) ts]).
      destruct (allOk_zip _ _ _ AO) as [LF FA]. split.
      * assert (R1 : mreach (ops ++ [MAdd f ts]) m) by (econstructor; [exact R|constructor; exact AF]).
        assert (LM : length fs = length (m_frames m)).
        { destruct (addFrame_inv _ _ _ _ _ _ _ _ _ _ _ AF) as (_ & _ & EF & _). rewrite EF, LF, !app_length. cbn [length].
          destruct (MI_reach _ _ _ _ _ _ _ _ _ _ _ _ _ _ _ _ _ _ h y YR) as [_ FR _ _ _ _].
          destruct (allOk_zip _ _ _ FR) as [LY _]. rewrite LY. reflexivity. }
        econstructor; [econstructor; [exact R1|apply step_touch; exact LM]|]. constructor; [|exact RC].
        cbn [m_frames]. split; [|exact SS]. rewrite <- (map_snd_combine (y_order y ++ [(id, ts)]) fs LF) at 1. apply Permutation_map. exact PS.
      * intros b I. rewrite !drawn_app in I. cbn in I. rewrite !app_nil_r in I. apply in_app_or in I. destruct I as [I|I].
        { apply in_app_or in I. destruct I as [I|[<-|[]]]; [auto|]. apply PB. left. exact GF. }
        apply PY. right. apply in_map_iff in I. destruct I as ([k b'] & <- & I). cbn [snd].
        exists k. rewrite Forall_forall in FA. apply (Permutation_in _ (Permutation_sym PS)) in I. specialize (FA _ I). cbn [fst snd] in FA.
        rewrite <- FA. apply (frame_of_now _ _ _ _ _ _ _ _ _ _ _ _ _ _ _ _ _ _ _ _ k YR').
Qed.
Theorem run_map_size r h y : (0 <= r)%Q -> throughout (fun h y => forall f, present h y f -> within tcell btw r f) h y ->
  (forall p, shows (y_map y) p -> inbox (r + map_res) p) /\
  (forall k f c, frame_of merge dflt addPt compute tcell occRay btw tp moveScan dbl h (y_alg y) k = Ok f ->
     In c (placed tcell btw f) -> shows (y_map y) (nc_mean c)).
Proof.
  intros R0 T. destruct (run_history (within tcell btw r) h y T) as (ops & R & F); [intros f t W; exact W|].
  destruct (map_size merge dflt tcell occRay rawOcc btw tp ops _ R) as [V S]. split; [apply (S r R0 F)|].
  intros k f c FO IC. pose proof (throughout_reach _ _ _ T) as YR.
  rewrite (frame_of_now _ _ _ _ _ _ _ _ _ _ _ _ _ _ _ _ _ _ _ _ k YR) in FO.
  destruct (MI_reach _ _ _ _ _ _ _ _ _ _ _ _ _ _ _ _ _ _ h y YR) as [PM FR (g0 & B0 & DR) _ _ _].
  destruct (blank_ok dflt g0 B0) as ([W0 CS0] & P0 & S0).
  assert (HC : (0 < cell_size (n_vox g0))%Q) by (rewrite <- CS0, S0; reflexivity).
  destruct (fold_ext merge dflt tcell occRay btw tp _ _ _ HC P0 DR) as (_ & _ & _ & _ & CV).
  destruct (born_length _ _ _ _ _ _ _ _ _ _ _ _ _ _ _ _ _ _ h y YR) as [_ BS].
  assert (IN : In (fst k) (map fst (y_order y))).
  { apply (Permutation_in _ (Permutation_map fst (Permutation_sym PM))). rewrite BS. apply in_seq. split; [lia|]. cbn.
    rewrite frameNow_nth in FO. destruct (nth_error (objs (y_alg y)) (fst k)) as [o|] eqn:EN; [|discriminate].
    apply nth_error_Some. congruence. }
  apply in_map_iff in IN. destruct IN as (k2 & EK & IK).
  destruct (allOk_zip _ _ _ FR) as [LY FA]. rewrite Forall_forall in FA.
  assert (EX : exists f2, In (k2, f2) (combine (y_order y) (m_frames (y_map y)))).
  { rewrite <- (map_fst_combine (y_order y) (m_frames (y_map y)) LY) in IK. apply in_map_iff in IK. destruct IK as ([k3 f2] & E3 & I3). cbn in E3. subst k3. exists f2. exact I3. }
  destruct EX as (f2 & I2). pose proof (FA _ I2) as E2. cbn [fst snd] in E2. rewrite frameNow_nth, EK in E2. rewrite frameNow_nth in FO.
  destruct (nth_error (objs (y_alg y)) (fst k)) as [o|]; [|discriminate].
  apply bind_ok_inv in FO. destruct FO as (g & EG & FO). injection FO as <-. rewrite EG in E2. cbn [bind] in E2. injection E2 as E2.
  apply (CV f2 c); [eapply in_combine_r; exact I2|]. rewrite <- E2. exact IC.
Qed.
(** every run has such a square *)
Lemma cells_bound (l : list cell) : exists r, (0 <= r)%Q /\ forall c, In c l -> inbox r (nc_mean c).
Proof.
  induction l as [|c l (r & R0 & IH)]; [exists 0%Q; split; [lra|intros c []]|].
  set (b := (Qabs (fst (nc_mean c)) + Qabs (snd (nc_mean c)))%Q).
  pose proof (Qabs_nonneg (fst (nc_mean c))) as A1. pose proof (Qabs_nonneg (snd (nc_mean c))) as A2.
  assert (X1 : (- Qabs (fst (nc_mean c)) <= fst (nc_mean c) <= Qabs (fst (nc_mean c)))%Q) by (apply Qabs_Qle_condition; lra).
  assert (X2 : (- Qabs (snd (nc_mean c)) <= snd (nc_mean c) <= Qabs (snd (nc_mean c)))%Q) by (apply Qabs_Qle_condition; lra).
  exists (r + b)%Q. unfold b. split; [lra|]. intros c' [<-|I]; [split; lra|]. destruct (IH c' I) as [B1 B2]. split; lra.
Qed.
Lemma frames_bound (l : list grid) : exists r, (0 <= r)%Q /\ forall f, In f l -> within tcell btw r f.
Proof.
  destruct (cells_bound (flat_map (placed tcell btw) l)) as (r & R0 & H). exists r. split; [exact R0|].
  intros f I c IC. apply H. apply in_flat_map. exists f. auto.
Qed.
Lemma present_bound h y : yreach h y -> exists r, (0 <= r)%Q /\ forall f, present h y f -> within tcell btw r f.
Proof.
  intro YR. set (l := a_frame (y_alg y) :: objs (y_alg y)).
  destruct (frames_bound (flat_map (fun o => match gridOf dbl o with Ok g => [g] | _ => [] end) l)) as (r & R0 & H).
  exists r. split; [exact R0|]. intros f [E|(k & E)].
  - apply H. apply in_flat_map. exists (a_frame (y_alg y)). split; [left; reflexivity|]. rewrite E. left. reflexivity.
  - rewrite (frame_of_now _ _ _ _ _ _ _ _ _ _ _ _ _ _ _ _ _ _ _ _ k YR), frameNow_nth in E.
    destruct (nth_error (objs (y_alg y)) (fst k)) as [o|] eqn:EN; [|discriminate].
    apply bind_ok_inv in E. destruct E as (g & EG & E). injection E as <-.
    assert (W : within tcell btw r g); [|exact W]. apply H. apply in_flat_map. exists o. split; [right; eapply nth_error_In; exact EN|].
    rewrite EG. left. reflexivity.
Qed.
Lemma within_more r r' f : (r <= r')%Q -> within tcell btw r f -> within tcell btw r' f.
Proof. intros L W c I. eapply inbox_more; [exact L|]. apply W. exact I. Qed.
Theorem run_bounded h y : yreach h y -> exists r, (0 <= r)%Q /\ throughout (fun h y => forall f, present h y f -> within tcell btw r f) h y.
Proof.
  induction 1 as [|h y e y' YR (r & R0 & T) S].
  - destruct (present_bound [] _ (yreach_new _ _ _ _ _ _ _ _ _)) as (r & R0 & H). exists r. split; [exact R0|constructor; exact H].
  - destruct (present_bound (e :: h) y' ltac:(econstructor; eassumption)) as (r2 & R2 & H).
    exists (r + r2)%Q. split; [lra|]. apply (thr_step _ _ _ _ _ _ _ _ _ _ h y e y'); [|exact S|].
    + clear - T R2. induction T as [P0|h y e y' T IH S PY].
      * constructor. intros f P. eapply within_more; [|apply P0; exact P]. lra.
      * econstructor; [exact IH|exact S|]. intros f P. eapply within_more; [|apply PY; exact P]. lra.
    + intros f P. eapply within_more; [|apply H; exact P]. lra.
Qed.
End System.
