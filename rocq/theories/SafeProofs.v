(** Proofs: the program never gets stuck in general position. *)
From Coq Require Import Reals Qreals List ZArith QArith Qabs Bool Lia Arith Sorting.Permutation Sorting.Sorted.
From Verif Require Import Base LinAlg3 GeoModel GeoSpec GeoProofs.
From Verif Require Import GraphModel GraphSpec GraphProofs LoopModel LoopSpec LoopProofs SlamModel SlamSpec SlamProofs.
From Verif Require Import AlgModel AlgSpec AlgProofs NodeModel NodeSpec NodeProofs.
From Verif Require Import VoxelModel VoxelSpec VoxelProofs VoxelOps VoxelAdd VoxelRay GridModel GridSpec GridProofs GridOps ScanSpec ScanProofs ScanInit MapModel MapSpec MapHist MapDraw CellsFrom.
From Verif Require Import ExportModel ExportSpec ExportProofs SysModel SysSpec SysProofs SysMap SysCloud SysWindow SysFacts RunModel RunSpec RunProofs SafeSpec SafeGrid.
Import ListNotations.
Open Scope nat_scope.
Set Default Proof Using "Type".

(** Frames can be ordered by their stamps. *)
Lemma sort_exists {X A} (l : list (A * ngrid X)) :
  exists s, Permutation l s /\ StronglySorted earlier (map snd s).
Proof.
  assert (INS : forall x (s : list (A * ngrid X)), StronglySorted earlier (map snd s) ->
    exists s', Permutation (x :: s) s' /\ StronglySorted earlier (map snd s')).
  { intros x s. induction s as [|y t IH]; intro S.
    - exists [x]. split; [apply Permutation_refl|]. repeat constructor.
    - cbn [map] in S. apply StronglySorted_inv in S. destruct S as [S F].
      destruct (Qlt_le_dec (n_time (snd y)) (n_time (snd x))) as [L|L].
      + destruct (IH S) as (s' & P & S'). exists (y :: s'). split.
        * eapply Permutation_trans; [apply perm_swap|]. apply perm_skip. exact P.
        * cbn [map]. constructor; [exact S'|]. apply Forall_forall. intros g I.
          apply in_map_iff in I. destruct I as (z & <- & I). apply Permutation_sym in P.
          apply (Permutation_in _ P) in I. destruct I as [<-|I].
          -- apply Qlt_le_weak. exact L.
          -- rewrite Forall_forall in F. apply F. apply in_map. exact I.
      + exists (x :: y :: t). split; [apply Permutation_refl|]. cbn [map].
        constructor; [constructor; assumption|]. constructor; [exact L|].
        rewrite Forall_forall in F |- *. intros g I. specialize (F g I). unfold earlier in *.
        eapply Qle_trans; eauto. }
  induction l as [|x t (s & P & S)].
  - exists []. split; [apply Permutation_refl|constructor].
  - destruct (INS x s S) as (s' & P' & S'). exists s'. split; [|exact S'].
    eapply Permutation_trans; [apply perm_skip; exact P|exact P'].
Qed.
Lemma allOk_all {A B} (f : B -> res A) l : (forall b, In b l -> exists a, f b = Ok a) ->
  exists r, allOk (map f l) = Ok r.
Proof.
  induction l as [|b t IH]; intro H; [exists []; reflexivity|].
  destruct (H b (or_introl eq_refl)) as (a & E). destruct (IH (fun x I => H x (or_intror I))) as (r & R).
  exists (a :: r). cbn [map allOk]. rewrite E, R. reflexivity.
Qed.
Lemma markers_def {Pose Obj Info Guess D P} (xy : Pose -> P) (env : senv Pose Obj Info Guess D) (s : slam Pose Obj Info) null :
  SI env s -> exists ms, graphMarkers xy (Some null) s = Ok ms.
Proof.
  intro I. destruct (visit_all env s null I) as (es & V & GE). unfold graphMarkers. rewrite V. cbn [bind].
  assert (K : forall es' pre ms n, g_edges (s_graph s) = map Some (pre ++ es') ->
    exists st, foldM (addArrow xy s) es' (ms, n) = Ok st).
  { induction es' as [|[a e] es' IH]; intros pre ms n E; [exists (ms, n); reflexivity|].
    assert (S : slot (s_graph s) (length pre) = Some (Some (a, e))).
    { unfold slot. rewrite E, nth_error_map, nth_error_app2, Nat.sub_diag by lia. reflexivity. }
    destruct (edge_nodes env s _ a e I S) as (nf & nt & VF & VT & _).
    cbn [foldM addArrow snd]. rewrite VF, VT. cbn [bind].
    apply (IH (pre ++ [(a, e)])). rewrite <- app_assoc. exact E. }
  destruct (K es [] [] 0 GE) as (st & ->). cbn [bind]. eauto.
Qed.

Section System.
Context {X Guess D : Type}.
Notation cell := (ncell X).
Notation grid := (ngrid X).
Notation scan := (list (option point)).
Notation body := (res grid).
Variable merge : cell -> cell -> cell.
Variable dflt : cell.
Variable addPt : cell -> point -> cell.
Variable compute : cell -> cell.
Variable tcell : qt -> cell -> cell.
Variable occRay : cell -> point -> cell -> cell.
Variable rawOcc : cell -> Q.
Variable btw : qpose -> qpose -> qt.
Variable tp : qt -> point -> point.
Variable noLin : T2.
Variable moveOrigin : qpose -> qt -> qpose.
Variable moveScan : T2 -> point -> point.
Variable dbl : R -> Q.
Variable radius : Q.
Variable le : lenv pose (frame body) M3 Guess D.
Variable se2' : pose -> pose.
Variable odo : M3.
Variable dist : R.

Notation env := (sysEnv merge dflt addPt compute tcell occRay btw tp noLin moveOrigin moveScan dbl radius le se2' odo dist).
Notation yreach := (yreach merge dflt tcell occRay rawOcc btw tp dbl env).
Notation ystep := (ystep merge dflt tcell occRay rawOcc btw tp dbl env).
Notation drawMap := (drawMap merge dflt tcell occRay rawOcc btw tp dbl).
Notation addToMap := (addToMap merge dflt tcell occRay btw tp).
Notation sys := (sys X).
Notation yev := (yev D).
Notation wNew := (wNew merge dflt addPt compute tcell occRay btw tp radius).
Notation wMerge := (wMerge merge dflt addPt compute tcell occRay btw tp noLin moveOrigin dbl).
Notation wMove := (@wMove X dbl).
Notation bInit := (bInit merge dflt addPt compute tcell occRay btw tp).
Notation bMerge := (bMerge merge dflt addPt compute tcell occRay btw tp dbl).
Notation stroke_apart := (stroke_apart dflt addPt compute btw tp moveScan dbl).
Notation frame_apart := (frame_apart tcell btw tp).
Notation match_apart := (match_apart merge dflt addPt compute tcell occRay btw tp noLin moveOrigin dbl).
Notation calm := (@calm X D merge dflt addPt compute tcell occRay btw tp noLin moveOrigin moveScan dbl).

Hypothesis OO : occ_only occRay.
Hypothesis MV : forall p, moveScan t2id p = p.
Hypothesis DZ : dbl 0%R = 0%Q.
Hypothesis MA : means_average dflt addPt compute.
Hypothesis SELF : forall o, peq (tp (btw o o) (0, 0)%Q) (0, 0)%Q.

(** Frames *)
Definition quarter (g : grid) : Prop := nwf g /\ n_cs g = 1#4.
Lemma quarter_origin g o : quarter g -> quarter (n_setOrigin g o).
Proof. intros [[W C] S]. split; [split; assumption|exact S]. Qed.
Lemma quarter_frame : quarter (newFrame dflt).
Proof. split; [apply nwf_frame|reflexivity]. Qed.

Lemma bMerge_def g o m s l : quarter g ->
  seen_from btw tp (n_setOrigin g (qposeOf dbl o)) (qposeOf dbl o) l = in_frame btw tp moveScan dbl (o, m, s) ->
  stroke_apart (o, m, s) -> exists g', bMerge (Ok g) o l = Ok g' /\ quarter g'.
Proof using OO MA SELF.
  intros Q SF AP. unfold SysModel.bMerge. cbn [bind].
  destruct (quarter_origin g (qposeOf dbl o) Q) as [W CS]. cbn [n_setOrigin n_cs] in CS.
  destruct (scan_def dflt occRay OO merge tcell btw tp addPt compute MA (n_setOrigin g (qposeOf dbl o)) l (qposeOf dbl o) W)
    as (g' & E & [W' _] & (_ & C' & _)).
  { apply placed_origin; [apply W|]. apply SELF. }
  { rewrite SF. change (n_cs (n_setOrigin g (qposeOf dbl o))) with (n_cs g). rewrite CS. exact AP. }
  exists g'. split; [exact E|]. split; [exact W'|]. rewrite C'. exact CS.
Qed.
Lemma bInit_def g s : quarter g -> stroke_apart (mkP 0 0 0, t2id, s) ->
  exists g', bInit (Ok g) s = Ok g' /\ quarter g'.
Proof using OO MA SELF DZ MV.
  intros Q AP. unfold SysModel.bInit. cbn [bind].
  destruct (quarter_origin g (mkPose 0 0 0) Q) as [W CS].
  destruct (init_def dflt occRay OO merge tcell btw tp addPt compute MA (n_setOrigin g (mkPose 0 0 0)) s W)
    as (g' & E & [W' _] & (_ & C' & _)).
  { apply SELF. }
  { rewrite CS. cbn [n_setOrigin n_pose].
    unfold SafeSpec.stroke_apart, sensor_of in AP. cbn [fst] in AP.
    rewrite <- (in_frame_first btw tp moveScan dbl MV (n_setOrigin g (mkPose 0 0 0)) (mkP 0 0 0) s) in AP
      by (rewrite (origin0 dbl DZ); reflexivity).
    rewrite (origin0 dbl DZ) in AP. exact AP. }
  exists g'. split; [exact E|]. split; [exact W'|]. rewrite C'. exact CS.
Qed.

(** The window *)
Definition flat (g : grid) : Prop := sound g /\ n_cs g = 1#4 /\ p_th (n_pose g) = 0%Q.
Lemma wNew_def s : stroke_apart (mkP 0 0 0, t2id, s) -> exists g, wNew s = Ok g /\ flat g.
Proof using OO MA SELF DZ MV.
  intro AP. unfold SysModel.wNew.
  set (f := n_setOrigin (newFrame dflt) (mkPose 0 0 0)).
  assert (WF : nwf f) by apply nwf_frame.
  destruct (enlarge_spec (n_vox f) (- radius) (- radius) radius radius (proj1 WF)) as (v & E & W & G & _).
  unfold n_enlarge. rewrite E. cbn [bind].
  assert (CV : cell_size v = 1#4) by (destruct G as [_ G]; exact G).
  match goal with |- context [n_initialize _ _ _ _ _ _ _ _ ?x _] => set (g0 := x) end.
  assert (W0 : nwf g0) by (split; [exact W|cbn; symmetry; exact CV]).
  destruct (init_def dflt occRay OO merge tcell btw tp addPt compute MA g0 s W0) as (g & EG & SG & (P & C & _)).
  { apply SELF. }
  { change (n_cs g0) with (1#4). change (n_pose g0) with (mkPose 0 0 0).
    unfold SafeSpec.stroke_apart, sensor_of in AP. cbn [fst] in AP.
    rewrite <- (in_frame_first btw tp moveScan dbl MV g0 (mkP 0 0 0) s) in AP
      by (rewrite (origin0 dbl DZ); reflexivity).
    rewrite (origin0 dbl DZ) in AP. exact AP. }
  exists g. split; [exact EG|]. split; [exact SG|]. split; [rewrite C; reflexivity|rewrite P; reflexivity].
Qed.

Lemma wMerge_def g s reg : flat g -> match_apart g s reg ->
  exists g' c, wMove (wMerge (Ok g) s reg) reg = (Ok g', c) /\ flat g'.
Proof using OO MA SELF.
  intros ([W NM] & CS & TH) (AS & AL & BX & BY). unfold SysModel.wMerge. cbn [bind].
  set (f := n_setOrigin (newFrame dflt) (n_pose g)).
  assert (WF : nwf f) by apply nwf_frame.
  destruct (init_def dflt occRay OO merge tcell btw tp addPt compute MA f s WF) as (l & EL & [WL _] & (PL & CL & _)).
  { apply SELF. }
  { exact AS. }
  fold f in AL. destruct (AL l EL) as [OB AL']. rewrite EL. cbn [bind].
  destruct (transform_spec merge tcell noLin moveOrigin l (toQ dbl reg) WL) as (l' & EL' & WL' & PL' & CL' & _).
  { rewrite CL. exact OB. }
  rewrite EL'. cbn [bind]. destruct (AL' l' EL') as [OS AP].
  destruct (merge_def dflt occRay OO merge tcell btw tp g l' true W) as (g1 & E1 & [W1 NM1] & (P1 & C1 & _)).
  { apply placed_off; [apply W|]. rewrite <- (proj2 W), CS. exact OS. }
  { rewrite CS. exact AP. }
  rewrite E1. unfold SysModel.wMove. cbn [bind].
  destruct (move_ok g1 (toQ dbl reg) W1) as (g' & rx & ry & kx & ky & EM & W' & _ & C' & _ & _ & _ & _ & T' & _ & _ & _ & _ & _ & _ & ALT).
  { rewrite P1, TH. discriminate. }
  { rewrite C1, CS. exact BX. }
  { rewrite C1, CS. exact BY. }
  rewrite EM. cbn [fst snd]. eexists g', _. split; [reflexivity|].
  split; [split; [exact W'|]|split; [rewrite C1 in C'; rewrite CS in C'; exact C'|rewrite T', P1; exact TH]].
  destruct ALT as [[_ ->]|[-> _]]; [exact NM1|discriminate].
Qed.

(** The map *)
Definition onMap (g : grid) : Prop := nwf g /\ n_pose g = world /\ n_cs g = map_res.
Lemma draw_def g f : onMap g -> frame_apart f -> exists g', addToMap g f = Ok g' /\ onMap g' /\ n_means g' <> None.
Proof using OO.
  intros (W & P & C) [OS AP].
  destruct (merge_def dflt occRay OO merge tcell btw tp g f true W) as (g' & E & [W' N] & (P' & C' & _)).
  { unfold sensor. rewrite P. apply placed_off; [apply W|]. rewrite <- (proj2 W), C. exact OS. }
  { unfold sensor, incoming. rewrite P, C. exact AP. }
  exists g'. split; [exact E|]. split; [|exact N]. split; [exact W'|]. split; congruence.
Qed.
Lemma draws_def fs : (forall f, In f fs -> frame_apart f) -> forall g, onMap g ->
  exists g', foldM addToMap fs g = Ok g' /\ onMap g' /\ (fs = [] \/ n_means g' <> None).
Proof using OO.
  induction fs as [|f t IH]; intros H g O; [exists g; auto|].
  destruct (draw_def g f O (H f (or_introl eq_refl))) as (g1 & E1 & O1 & N1).
  destruct (IH (fun x I => H x (or_intror I)) g1 O1) as (g' & E & O' & N).
  exists g'. cbn [foldM]. rewrite E1. cbn [bind]. split; [exact E|]. split; [exact O'|]. right.
  destruct N as [->|N]; [|exact N]. injection E as <-. exact N1.
Qed.
Lemma means_def (g : grid) : n_means g <> None -> exists ms, getMeansTransformed btw tp g = Ok ms.
Proof. unfold getMeansTransformed. destruct (n_means g); [eauto|congruence]. Qed.

(** What is kept. *)
Record safe (y : sys) : Prop := {
  sf_win : a_init (y_alg y) = true -> exists g, a_win (y_alg y) = Some (Ok g) /\ flat g;
  sf_frame : exists g, f_body (a_frame (y_alg y)) = Ok g /\ quarter g
}.

Lemma win_def h y i ts a' evs : yreach h y -> safe y -> update env (y_alg y) i = Ok (a', evs) ->
  calm y a' (mkYE i ts evs) -> exists g, a_win a' = Some (Ok g) /\ flat g.
Proof using OO MA SELF DZ MV.
  intros R SF U CM. pose proof (yreach_AI _ _ _ _ _ _ _ _ _ _ _ _ _ _ _ _ _ _ h y R) as A.
  destruct SF as [SW _]. destruct CM as [CS CMt _ _]. cbn [v_evs v_in] in *.
  unfold update in U. destruct (a_init (y_alg y)) eqn:AI0.
  - destruct (SW eq_refl) as (g & AW & FL). rewrite AW in U. specialize (CMt) .
    assert (KEEP : forall a1 ev1 inc cov, updateGraph env (setUnused (y_alg y) t2id) i inc cov = Ok (a1, ev1) ->
      a_win a1 = Some (Ok g)).
    { intros a1 ev1 inc cov UG. destruct A as [C _ _ _].
      assert (C' : AC env (setUnused (y_alg y) t2id) (events h)) by (destruct C; split; assumption).
      destruct (updateGraph_ok _ _ _ _ _ _ _ _ C' UG) as (_ & _ & _ & _ & W & _).
      rewrite W. exact AW. }
    destruct (movedEnough _).
    + destruct (i_match i) as [reg|] eqn:MT.
      * apply bind_ok_inv in U. destruct U as ([a1 ev1] & UG & U). cbn [fst snd] in U.
        destruct (w_move env (w_merge env (Ok g) (i_scan i) reg) reg) as [w2 c] eqn:WM. injection U as <- <-.
        cbn [setWindow a_win]. cbn [w_move w_merge sysEnv] in WM.
        assert (MA' : match_apart g (i_scan i) reg).
        { eapply CMt; [|exact AW]. apply in_or_app. right. left. reflexivity. }
        destruct (wMerge_def g (i_scan i) reg FL MA') as (g' & c' & E & F).
        rewrite E in WM. injection WM as <- _. eauto.
      * apply bind_ok_inv in U. destruct U as ([a1 ev1] & UG & U). cbn [fst snd] in U. injection U as <- <-.
        exists g. split; [eapply KEEP; exact UG|exact FL].
    + injection U as <- <-. cbn [setUnused a_win]. eauto.
  - injection U as <- <-. cbn [firstScan a_win w_new sysEnv].
    destruct (wNew_def (i_scan i)) as (g & E & F).
    { apply CS. left. reflexivity. }
    exists g. rewrite E. auto.
Qed.

Lemma frame_def h y i ts a' evs : yreach h y -> safe y -> update env (y_alg y) i = Ok (a', evs) ->
  calm y a' (mkYE i ts evs) -> exists g, f_body (a_frame a') = Ok g /\ quarter g.
Proof using OO MA SELF DZ MV.
  intros R SF U CM. pose proof (yreach_AI _ _ _ _ _ _ _ _ _ _ _ _ _ _ _ _ _ _ h y R) as A.
  destruct SF as [_ (g & EG & Q)]. destruct CM as [CS _ _ _].
  destruct (update_frames _ _ _ _ _ _ A U) as [IN MD NR DR SL FR|IN MD NR DR SL FR|o m IN MD NR DR O SL FR|o IN MD DR B O FR];
    rewrite FR; cbn [f_body b_init b_merge b_new s_move sysEnv].
  - rewrite EG. apply bInit_def; [exact Q|]. apply CS. unfold strokes_of. cbn [v_evs v_in]. rewrite DR. left. reflexivity.
  - eauto.
  - rewrite EG. apply (bMerge_def g o m (i_scan i)); [exact Q| |].
    + apply in_frame_seen. reflexivity.
    + apply CS. unfold strokes_of. cbn [v_evs v_in]. rewrite DR. left. reflexivity.
  - apply (bMerge_def (newFrame dflt) o t2id (i_scan i)); [apply quarter_frame| |].
    + apply in_frame_first; [exact MV|reflexivity].
    + apply CS. unfold strokes_of. cbn [v_evs v_in]. rewrite DR. left. reflexivity.
Qed.

Lemma map_def h y i ts a' evs : yreach h y -> safe y -> update env (y_alg y) i = Ok (a', evs) ->
  calm y a' (mkYE i ts evs) -> exists m o, drawMap y a' evs ts m o.
Proof using OO.
  intros R SF U CM. pose proof (yreach_AI _ _ _ _ _ _ _ _ _ _ _ _ _ _ _ _ _ _ h y R) as A.
  pose proof (MI_reach _ _ _ _ _ _ _ _ _ _ _ _ _ _ _ _ _ _ h y R) as [P F (g0 & B0 & DR) _ _ _].
  destruct (born_length _ _ _ _ _ _ _ _ _ _ _ _ _ _ _ _ _ _ h y R) as [_ BS].
  destruct SF as [_ (g & EG & Q)]. destruct CM as [_ _ CN CR]. cbn [v_evs] in *.
  destruct (blank_ok dflt g0 B0) as (W0 & P0 & S0).
  destruct (fold_inv merge dflt tcell occRay btw tp _ _ _ W0 DR) as (W1 & P1 & S1 & _ & _ & _).
  assert (OM : onMap (m_ndt (y_map y))) by (split; [exact W1|split; congruence]).
  destruct (update_frames _ _ _ _ _ _ A U) as [IN MD NR D1 SL FR|IN MD NR D1 SL FR|o m IN MD NR D1 O SL FR|o IN MD D1 B O FR].
  1-3: exists (y_map y), (y_order y); apply draw_none; intros id I; apply in_made in I; rewrite MD in I; destruct I.
  set (id := length (objs (y_alg y))) in *.
  assert (IA : In (ANode id) evs) by (apply made_in; rewrite MD; left; reflexivity).
  assert (GF : exists f, gridOf dbl (a_frame (y_alg y)) = Ok f).
  { unfold gridOf. rewrite EG. cbn [bind]. eauto. }
  destruct GF as (f & GF).
  destruct (draw_def _ f OM (CN id f IA GF)) as (g1 & E1 & O1 & N1). destruct (means_def g1 N1) as (ms & E2).
  assert (AF : exists m, addFrame merge dflt tcell occRay rawOcc btw tp (y_map y) f ts = Ok m /\ m_ndt m = g1).
  { unfold addFrame. rewrite E1. cbn [bind]. rewrite E2. cbn [bind]. eexists. split; [reflexivity|reflexivity]. }
  destruct AF as (m & AF & MG).
  destruct (in_dec (fun a b : bool => bool_dec a b) true [existsb (fun e => match e with ARedraw => true | _ => false end) evs]) as [RD|RD].
  - destruct RD as [RD|[]]. apply existsb_exists in RD. destruct RD as (e & RD & EE). destruct e; try discriminate. clear EE.
    assert (ALL : forall k, In k (y_order y ++ [(id, ts)]) -> exists x, frameNow dbl a' k = Ok x /\ frame_apart x).
    { intros k I.
      assert (BK : exists b, nth_error (map f_body (objs a')) (fst k) = Some (Ok b)).
      { rewrite B. apply in_app_or in I. destruct I as [I|[<-|[]]].
        - assert (L : fst k < length (objs (y_alg y))).
          { apply (Permutation_in _ P) in I. apply (in_map fst) in I. rewrite BS in I. apply in_seq in I. lia. }
          rewrite nth_error_app1 by (rewrite map_length; exact L).
          assert (FK : exists x, frameNow dbl (y_alg y) k = Ok x).
          { clear - F I. revert F. generalize (m_frames (y_map y)). induction (y_order y) as [|k0 t IH]; intros fs F; [destruct I|].
            cbn [map allOk] in F. apply bind_ok_inv in F. destruct F as (x & FX & F). destruct I as [->|I]; [eauto|].
            apply bind_ok_inv in F. destruct F as (r & F & _). eapply IH; eauto. }
          destruct FK as (x & FK). rewrite frameNow_nth in FK. rewrite nth_error_map.
          destruct (nth_error (objs (y_alg y)) (fst k)) as [fk|]; [|discriminate].
          apply bind_ok_inv in FK. destruct FK as (x0 & FK & _). unfold gridOf in FK. apply bind_ok_inv in FK.
          destruct FK as (b & FK & _). exists b. cbn. rewrite FK. reflexivity.
        - cbn [fst]. rewrite nth_error_app2 by (rewrite map_length; auto). rewrite map_length. fold id. rewrite Nat.sub_diag.
          exists g. cbn. rewrite EG. reflexivity. }
      destruct BK as (b & BK). rewrite nth_error_map in BK. rewrite frameNow_nth.
      destruct (nth_error (objs a') (fst k)) as [fk|] eqn:NK; [|discriminate]. injection BK as BK.
      unfold gridOf. rewrite BK. cbn [bind]. eexists. split; [reflexivity|].
      assert (AP : frame_apart (n_setOrigin b (qposeOf dbl (f_origin fk)))).
      { apply (CR (fst k) fk); [exact RD| |].
        - rewrite data_objs, NK. reflexivity.
        - unfold gridOf. rewrite BK. reflexivity. }
      exact AP. }
    destruct (allOk_all (frameNow dbl a') (y_order y ++ [(id, ts)])) as (fs & FS).
    { intros k I. destruct (ALL k I) as (x & EX & _). eauto. }
    destruct (sort_exists (combine (y_order y ++ [(id, ts)]) fs)) as (s & PS & SS).
    destruct (allOk_zip _ _ _ FS) as [LF FA].
    assert (AP : forall x, In x (map snd s) -> frame_apart x).
    { intros x I. apply in_map_iff in I. destruct I as ([k x'] & <- & I). cbn [snd].
      apply Permutation_sym in PS. apply (Permutation_in _ PS) in I.
      rewrite Forall_forall in FA. specialize (FA _ I). cbn [fst snd] in FA.
      apply in_combine_l in I. destruct (ALL k I) as (x2 & EX & AP). rewrite FA in EX. injection EX as ->. exact AP. }
    assert (OC : onMap (n_clear (m_ndt m))).
    { rewrite MG. destruct O1 as ((Wv & Wc) & Wp & Ws). split; [|split; assumption]. split; [apply clear_spec; exact Wv|exact Wc]. }
    destruct (draws_def (map snd s) AP _ OC) as (g2 & E3 & O2 & N2).
    assert (NM : n_means g2 <> None).
    { destruct N2 as [N2|N2]; [|exact N2]. exfalso. apply map_eq_nil in N2. subst s.
      apply Permutation_length in PS. rewrite combine_length, LF, app_length in PS. cbn in PS. lia. }
    destruct (means_def g2 NM) as (ms2 & E4).
    eexists _, _. eapply draw_again; [exact IA|exact RD|exact GF|exact AF|exact FS|exact PS|exact SS|].
    unfold recalc. rewrite E3. cbn [bind]. rewrite E4. cbn [bind]. reflexivity.
  - exists m, (y_order y ++ [(id, ts)]). eapply draw_add; [exact IA| |exact GF|exact AF].
    intro I. apply RD. left. apply existsb_exists. exists ARedraw. auto.
Qed.

Lemma step_def h y i ts null : yreach h y -> safe y -> LoopModel.oob le = Some null -> fresh_input (y_alg y) i ->
  (forall a' evs, update env (y_alg y) i = Ok (a', evs) -> calm y a' (mkYE i ts evs)) ->
  exists evs y', ystep y (mkYE i ts evs) y' /\ safe y' /\ calm y (y_alg y') (mkYE i ts evs).
Proof using OO MA SELF DZ MV.
  intros R SF OB FI CM.
  destruct (alg_defined env (rev (map v_in h)) (y_alg y) (events h) i null (yreach_run _ _ _ _ _ _ _ _ _ _ _ _ _ _ _ _ _ _ h y R) OB FI) as (st & ST).
  unfold arun in ST. rewrite foldM_app in ST. apply bind_ok_inv in ST. destruct ST as (st0 & ST0 & ST).
  pose proof (yreach_run _ _ _ _ _ _ _ _ _ _ _ _ _ _ _ _ _ _ h y R) as RN. unfold arun in RN.
  rewrite RN in ST0. injection ST0 as <-. cbn [foldM] in ST. apply bind_ok_inv in ST. destruct ST as (st1 & ST & _).
  unfold astep in ST. cbn [fst snd] in ST. apply bind_ok_inv in ST. destruct ST as ([a' evs] & U & _).
  specialize (CM a' evs U).
  destruct (map_def h y i ts a' evs R SF U CM) as (m & o & DM).
  eexists evs, _. split; [eapply ystep_intro; [exact U|exact DM]|]. split; [|exact CM].
  split; cbn [y_alg].
  - intros _. exact (win_def h y i ts a' evs R SF U CM).
  - exact (frame_def h y i ts a' evs R SF U CM).
Qed.

Lemma safe_new : safe (sys_new dflt env).
Proof.
  split; [discriminate|]. exists (newFrame dflt). split; [reflexivity|apply quarter_frame].
Qed.
Lemma safe_step h y e y' : yreach h y -> safe y -> ystep y e y' -> calm y (y_alg y') e -> safe y'.
Proof using OO MA SELF DZ MV.
  intros R SF S CM. destruct S as [i ts a' evs m' o' U DM]. cbn [y_alg] in CM. split; cbn [y_alg].
  - intros _. exact (win_def h y i ts a' evs R SF U CM).
  - exact (frame_def h y i ts a' evs R SF U CM).
Qed.
Lemma safe_whole h y : yreach h y -> safe y -> whole y.
Proof.
  intros R [SW (g & EG & _)]. split; [eauto|]. split.
  - intros k f E. rewrite data_objs in E. destruct (nth_error (objs (y_alg y)) k) as [f'|] eqn:N; [|discriminate]. injection E as ->.
    pose proof (MI_reach _ _ _ _ _ _ _ _ _ _ _ _ _ _ _ _ _ _ h y R) as [P F _ _ _ _].
    destruct (born_length _ _ _ _ _ _ _ _ _ _ _ _ _ _ _ _ _ _ h y R) as [_ BS].
    assert (I : exists t, In (k, t) (y_order y)).
    { assert (K : In k (map fst (born h))).
      { rewrite BS. apply in_seq. split; [lia|]. cbn. apply nth_error_Some. rewrite N. discriminate. }
      apply in_map_iff in K. destruct K as ([k' t] & EK & K). cbn in EK. subst k'. exists t.
      apply Permutation_sym in P. apply (Permutation_in _ P). exact K. }
    destruct I as (t & I).
    assert (FK : exists x, frameNow dbl (y_alg y) (k, t) = Ok x).
    { clear - F I. revert F. generalize (m_frames (y_map y)). induction (y_order y) as [|k0 l IH]; intros fs F; [destruct I|].
      cbn [map allOk] in F. apply bind_ok_inv in F. destruct F as (x & FX & F). destruct I as [->|I]; [eauto|].
      apply bind_ok_inv in F. destruct F as (r & F & _). eapply IH; eauto. }
    destruct FK as (x & FK). rewrite frameNow_nth in FK. cbn [fst] in FK. rewrite N in FK.
    apply bind_ok_inv in FK. destruct FK as (x0 & FK & _). unfold gridOf in FK. apply bind_ok_inv in FK.
    destruct FK as (b & FK & _). eauto.
  - intros w E. destruct (a_init (y_alg y)) eqn:AI0.
    + destruct (SW eq_refl) as (g' & E' & _). rewrite E' in E. injection E as <-. eauto.
    + pose proof (FI_reach _ _ _ _ _ _ _ _ _ _ _ _ _ _ _ _ _ _ h y R) as [N _ _ _ _].
      apply N in AI0. subst h. inversion R; subst. cbn in E. discriminate.
Qed.

(** ** Runs *)
Variable null nul2 : bool.
Variable ser : bool.
Notation rreach := (RunModel.rreach merge dflt tcell occRay rawOcc btw tp dbl (Some nul2) ser env).
Notation rstep := (RunModel.rstep merge dflt tcell occRay rawOcc btw tp dbl (Some nul2) ser env).
Notation quiet := (quiet merge dflt addPt compute tcell occRay rawOcc btw tp noLin moveOrigin moveScan dbl (Some nul2) ser env).

Lemma quiet_run t h r : quiet t h r -> rreach t h r.
Proof. induction 1 as [|t h r m r' o c Q IH S _]; [constructor|]. eapply RunModel.rreach_step; eauto. Qed.
Lemma quiet_safe t h r : quiet t h r -> safe (r_sys r).
Proof using OO MA SELF DZ MV.
  induction 1 as [|t h r m r' o c Q IH S CM]; [apply safe_new|].
  pose proof (quiet_run _ _ _ Q) as R. apply run_calls in R. destruct R as [R _].
  destruct S as [P|odom pts i evs y' P RD M SC S|odom pts i evs y' p out P RD M SC S RT TP]; [exact IH| |];
    cbn [r_sys] in *; (eapply safe_step; [exact R|exact IH|exact S|apply CM; left; reflexivity]).
Qed.

Lemma topics_def h y : yreach h y -> safe y -> h <> [] -> exists out, topics dflt btw tp (Some nul2) ser y = Ok out.
Proof.
  intros R [SW _] NE. pose proof (yreach_AI _ _ _ _ _ _ _ _ _ _ _ _ _ _ _ _ _ _ h y R) as A.
  pose proof (FI_reach _ _ _ _ _ _ _ _ _ _ _ _ _ _ _ _ _ _ h y R) as [N _ _ _ _].
  destruct (a_init (y_alg y)) eqn:AI0; [|exfalso; apply NE, N; first [exact AI0|reflexivity]].
  destruct (SW eq_refl) as (g & E & ([_ NM] & _)). destruct (means_def g NM) as (ms & EM).
  unfold topics, getNDTMap, getPclMap2. rewrite E. cbn [bind]. rewrite EM. cbn [bind].
  unfold graphOut. destruct ser; [|cbn [bind]; eauto].
  destruct A as [C _ _ _].
  destruct (markers_def (fun p => (px p, py p)) (e_senv env) (a_slam (y_alg y)) nul2 (ai_SI _ _ _ C)) as (l & ->).
  cbn [bind]. eauto.
Qed.

Theorem progress t h r m i : quiet t h r -> LoopModel.oob le = Some null -> call_of r m i ->
  fresh_input (y_alg (r_sys r)) i ->
  (forall a' evs, update env (y_alg (r_sys r)) i = Ok (a', evs) ->
     calm (r_sys r) a' (mkYE i (inject_Z (ms_time m)) evs)) ->
  exists r' o evs, rstep r m r' o [mkYE i (inject_Z (ms_time m)) evs] /\
    quiet ((m, o) :: t) (mkYE i (inject_Z (ms_time m)) evs :: h) r'.
Proof using OO MA SELF DZ MV.
  intros Q OB (odom & pts & AC0 & MS & SC & MO) FI CM.
  assert (P : prepareAllData m = Some (odom, pts)).
  { pose proof (prepare_accepted m) as PA. rewrite AC0 in PA. unfold prepareAllData in *.
    destruct (ms_tf m); [|discriminate]. rewrite MS in *. destruct (_ <? _)%Z; [discriminate|].
    cbn [option_map fst] in PA. injection PA as ->. reflexivity. }
  clear AC0 MS.
  pose proof (quiet_run _ _ _ Q) as RR. pose proof RR as R. apply run_calls in R. destruct R as [R _].
  pose proof (quiet_safe _ _ _ Q) as SF.
  destruct (step_def h (r_sys r) i (inject_Z (ms_time m)) null R SF OB FI CM) as (evs & y' & ST & SF' & CM').
  assert (R' : yreach (mkYE i (inject_Z (ms_time m)) evs :: h) y') by (econstructor; [exact R|exact ST]).
  destruct (r_ready r) eqn:RD.
  - assert (RT : exists p, returned evs = Some p).
    { inversion ST; subst. pose proof (yreach_AI _ _ _ _ _ _ _ _ _ _ _ _ _ _ _ _ _ _ h (r_sys r) R) as A.
      match goal with U : update _ _ _ = Ok _ |- _ => destruct (update_ok _ _ _ _ _ _ A U) as (_ & k & rr & ER & _) end.
      unfold returned. rewrite ER. eauto. }
    destruct RT as (p & RT).
    destruct (topics_def _ y' R' SF') as (out & TP); [discriminate|].
    assert (S : rstep r m (mkRun y' true odom (Some (tfTrans odom p)))
      (RTf (ms_time m) (Some (tfTrans odom p)) :: out) [mkYE i (inject_Z (ms_time m)) evs])
      by (eapply rstep_next; eauto).
    eexists _, _, evs. split; [exact S|]. apply (quiet_step _ _ _ _ _ _ _ _ _ _ _ _ _ _ _ _ t h r m _ _ _ Q S).
    intros e [<-|[]]. exact CM'.
  - assert (S : rstep r m (mkRun y' true odom (r_tf r)) [RTf (ms_time m) (r_tf r)] [mkYE i (inject_Z (ms_time m)) evs])
      by (eapply rstep_first; eauto).
    eexists _, _, evs. split; [exact S|]. apply (quiet_step _ _ _ _ _ _ _ _ _ _ _ _ _ _ _ _ t h r m _ _ _ Q S).
    intros e [<-|[]]. exact CM'.
Qed.
Lemma quiet_whole t h r : quiet t h r -> whole (r_sys r).
Proof using OO MA SELF DZ MV.
  intro Q. pose proof (quiet_run _ _ _ Q) as R. apply run_calls in R. destruct R as [R _].
  exact (safe_whole h _ R (quiet_safe _ _ _ Q)).
Qed.
End System.
