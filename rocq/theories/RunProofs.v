(** Proofs about the whole program. *)
From Coq Require Import Reals Qreals List ZArith QArith Bool Lia Arith.
From Verif Require Import Base LinAlg3 GeoModel GeoSpec GeoProofs GeoCov.
From Verif Require Import GraphModel LoopModel SlamModel AlgModel AlgSpec AlgProofs NodeModel NodeSpec NodeProofs.
From Verif Require Import VoxelModel GridModel GridSpec ScanSpec MapModel MapSpec MapDraw ExportModel SysModel SysSpec SysProofs SysMap SysCloud SysWindow SysHull SysMsg SysFacts.
From Verif Require Import RunModel RunSpec.
Import ListNotations.
Open Scope nat_scope.
Set Default Proof Using "Type".

Section Vocab.
Context {D : Type}.
Notation scan := (list (option point)).
Lemma taken_cons (m : nmsg (option point)) r : taken (m :: r) =
  match prepareAllData m with Some (o, s) => (ms_time m, o, s) :: taken r | None => taken r end.
Proof.
  cbn [taken]. unfold accepted, prepareAllData. destruct (ms_tf m); [|reflexivity]. destruct (ms_scan m) as [s|]; [|reflexivity].
  destruct (Z.ltb_spec (Z.of_nat (length s)) 400), (Z.leb_spec 400 (Z.of_nat (length s))); try lia; reflexivity.
Qed.
Lemma told_scan (l : list (Z * pose * scan)) (h : list (yev D)) e : told l h -> In e h ->
  exists t o s, In (t, o, s) l /\ v_time e = inject_Z t /\ i_scan (v_in e) = s.
Proof.
  revert h. induction l as [|[[t o] s] l IH]; intros [|x h] T I; try contradiction.
  cbn [told] in T. destruct T as (A & B & _ & T). destruct I as [->|I].
  - exists t, o, s. split; [left; reflexivity|auto].
  - destruct (IH _ T I) as (t' & o' & s' & J & C). exists t', o', s'. split; [right; exact J|exact C].
Qed.
Lemma taken_in (l : list (nmsg (option point))) t o s : In (t, o, s) (taken l) ->
  exists m, In m l /\ ms_time m = t /\ accepted m = Some o /\ ms_scan m = Some s.
Proof.
  induction l as [|m l IH]; [intros []|]. cbn [taken].
  destruct (accepted m) as [o'|] eqn:A, (ms_scan m) as [s'|] eqn:S; intro I;
    try (destruct (IH I) as (m' & J & K); exists m'; split; [right; exact J|exact K]).
  destruct I as [E|I].
  - injection E as <- <- <-. exists m. split; [left; reflexivity|auto].
  - destruct (IH I) as (m' & J & K). exists m'. split; [right; exact J|exact K].
Qed.
Lemma strokes_scan (h : list (yev D)) f s : In f (strokes h) -> In s f -> exists e, In e h /\ snd s = i_scan (v_in e).
Proof.
  revert f. induction h as [|e h IH]; intros f I J; [destruct I|]. cbn [strokes] in I.
  assert (N : forall x, In x (strokes_of e) -> snd x = i_scan (v_in e)).
  { intros x H. apply in_map_iff in H. destruct H as (om & <- & _). reflexivity. }
  assert (O : forall f', In f' (strokes h) -> In s f' -> exists e', In e' (e :: h) /\ snd s = i_scan (v_in e')).
  { intros f' A B. destruct (IH f' A B) as (e' & C & E). exists e'. split; [right; exact C|exact E]. }
  assert (P : In s (strokes_of e) -> exists e', In e' (e :: h) /\ snd s = i_scan (v_in e')).
  { intro H. exists e. split; [left; reflexivity|auto]. }
  destruct (made (v_evs e)), (strokes h) as [|g t] eqn:E; cbn [In] in I.
  - destruct I as [<-|[]]. auto.
  - destruct I as [<-|I].
    + apply in_app_or in J. destruct J as [J|J]; [apply (O g); auto; left; reflexivity|auto].
    + apply (O f); auto. right. exact I.
  - destruct I as [<-|[]]. auto.
  - destruct I as [<-|I]; [auto|]. apply (O f); auto.
Qed.
Lemma scans_scan (h : list (yev D)) k s : In s (scans_of h k) -> exists e, In e h /\ snd s = i_scan (v_in e).
Proof.
  unfold scans_of. intro I. destruct (nth_in_or_default k (rev (strokes h)) []) as [J|J].
  - apply in_rev in J. exact (strokes_scan h _ s J I).
  - rewrite J in I. destruct I.
Qed.
(** the first call's time, or that of a later one *)
Lemma window_time_in (h : list (yev D)) e : In e h -> windowed (v_evs e) = true ->
  exists e', In e' h /\ window_time h = v_time e' /\ windowed (v_evs e') = true.
Proof.
  induction h as [|x h IH]; [intros []|]. intros I W. cbn [window_time]. destruct (windowed (v_evs x)) eqn:V.
  - exists x. split; [left; reflexivity|auto].
  - destruct I as [->|I]; [congruence|]. destruct (IH I W) as (e' & A & B). exists e'. split; [right; exact A|exact B].
Qed.
(** the motions add up to the odometry *)
Lemma told_motions l (h : list (yev D)) t0 o0 s0 : told (l ++ [(t0, o0, s0)]) h ->
  exists e0 h', h = h' ++ [e0] /\ i_motion (v_in e0) = t2id /\
    t2mul (getTransFromPose o0) (motions (rev (map v_in h'))) =
    getTransFromPose match l with [] => o0 | (_, o, _) :: _ => o end.
Proof.
  revert h. induction l as [|[[t o] s] l IH]; intros h T.
  - destruct h as [|e [|]]; cbn in T; try tauto. exists e, []. split; [reflexivity|]. split; [tauto|].
    cbn. unfold motions. cbn. apply T2_eq; cbn; ring.
  - destruct h as [|e h]; [destruct T|]. cbn [app told] in T. destruct T as (_ & _ & M & T).
    destruct (IH _ T) as (e0 & h' & -> & I0 & E). exists e0, (e :: h'). split; [reflexivity|]. split; [exact I0|].
    cbn [map rev]. unfold motions in *. rewrite fold_left_app. cbn [fold_left]. rewrite <- t2mul_assoc, E.
    destruct l as [|[[t1 o1] s1] l]; exact M.
Qed.
(** the motions are rigid *)
Lemma told_rigid l : forall h : list (yev D), told l h -> Forall (fun e => rigid (i_motion (v_in e))) h.
Proof.
  induction l as [|[[x o'] s'] ll IH]; intros [|e hh] T; try contradiction; constructor.
  - cbn [told] in T. destruct T as (_ & _ & M & _). destruct ll as [|[[x1 o1] s1] ll].
    + rewrite M. unfold rigid. cbn. repeat split; ring.
    + assert (E : i_motion (v_in e) = t2mul (t2inv (getTransFromPose o1)) (getTransFromPose o')).
      { rewrite <- M, <- t2mul_assoc, t2inv_l by apply rigid_nz, rigid_pose. symmetry. apply t2mul_id_l. }
      rewrite E. apply rigid_mul; [apply rigid_inv|]; apply rigid_pose.
  - apply IH. apply T.
Qed.
End Vocab.

Section Run.
Context {X Guess D : Type}.
Notation cell := (ncell X).
Notation body := (res (ngrid X)).
Notation msg := (nmsg (option point)).
Variable merge : cell -> cell -> cell.
Variable dflt : cell.
Variable addPt : cell -> point -> cell.
Variable compute : cell -> cell.
Variable tcell : qtrans T2 -> cell -> cell.
Variable occRay : cell -> point -> cell -> cell.
Variable rawOcc : cell -> Q.
Variable btw : qpose -> qpose -> qtrans T2.
Variable tp : qtrans T2 -> point -> point.
Variable noLin : T2.
Variable moveOrigin : qpose -> qtrans T2 -> qpose.
Variable moveScan : T2 -> point -> point.
Variable dbl : R -> Q.
Variable radius : Q.
Variable le : lenv pose (frame body) M3 Guess D.
Variable se2' : pose -> pose.
Variable odo : M3.
Variable dist : R.
Variable oob : option bool.
Variable ser : bool.
Notation env := (sysEnv merge dflt addPt compute tcell occRay btw tp noLin moveOrigin moveScan dbl radius le se2' odo dist).
Notation yreach := (yreach merge dflt tcell occRay rawOcc btw tp dbl env).
Notation ystep := (ystep merge dflt tcell occRay rawOcc btw tp dbl env).
Notation rreach := (rreach merge dflt tcell occRay rawOcc btw tp dbl oob ser env).
Notation rstep := (rstep merge dflt tcell occRay rawOcc btw tp dbl oob ser env).
Notation topics := (topics dflt btw tp oob ser).
Notation run := (run X).

Definition took (t : list (msg * list (rout X))) := taken (map fst t).

Record RI (t : list (msg * list (rout X))) (h : list (yev D)) (r : run) : Prop := {
  ri_reach : yreach h (r_sys r);
  ri_told : told (took t) h;
  ri_ready : r_ready r = match took t with [] => false | _ => true end;
  ri_odom : forall x o s q, took t = (x, o, s) :: q -> r_odom r = o;
  ri_tf : (length (took t) < 2 -> r_tf r = None) /\ (2 <= length (took t) -> r_tf r <> None) }.

Lemma RI_reach t h r : rreach t h r -> RI t h r.
Proof.
  induction 1 as [|t h r m r' o c R IH S].
  - split; cbn; try discriminate.
    + constructor.
    + exact I.
    + reflexivity.
    + split; [reflexivity|lia].
  - destruct IH as [Y T I2 I3 [I4 I5]]. unfold took in *. cbn [map fst]. 
    destruct S as [P|odom pts i evs y' P RD M SC Y'|odom pts i evs y' p out P RD M SC Y' RT TP].
    + split; unfold took; cbn [map fst app]; try (rewrite taken_cons, P); eauto.
    + destruct (taken (map fst t)) as [|x q] eqn:TK; [|congruence].
      split; unfold took; cbn [map fst r_sys r_ready r_odom r_tf app]; try (rewrite taken_cons, P); rewrite ?TK.
      * eapply yreach_step; [exact Y|exact Y'].
      * destruct h; [|destruct T]. cbn [told v_time v_in]. auto.
      * reflexivity.
      * intros ? ? ? ? E. injection E as _ <- _ _. reflexivity.
      * cbn [length] in *. split; [intros _; apply I4; lia|lia].
    + destruct (taken (map fst t)) as [|[[x0 o0] s0] q] eqn:TK; [congruence|].
      split; unfold took; cbn [map fst r_sys r_ready r_odom r_tf app]; try (rewrite taken_cons, P); rewrite ?TK.
      * eapply yreach_step; [exact Y|exact Y'].
      * cbn [told v_time v_in] in *. split; [reflexivity|]. split; [exact SC|]. split; [|exact T].
        rewrite M, (I3 _ _ _ _ eq_refl), <- t2mul_assoc, t2inv_r by apply rigid_nz, rigid_pose. apply t2mul_id_l.
      * reflexivity.
      * intros ? ? ? ? E. injection E as _ <- _ _. reflexivity.
      * cbn [length] in *. split; [lia|discriminate].
Qed.

(** C105: the calls of the algorithm *)
Lemma run_calls t h r : rreach t h r -> yreach h (r_sys r) /\ told (took t) h.
Proof. intro H. destruct (RI_reach _ _ _ H) as [Y T _ _ _]. auto. Qed.

(** What one message leads to *)
Lemma out_cases t h r m o : rreach ((m, o) :: t) h r ->
  (accepted m = None /\ o = [RTf (ms_time m) (r_tf r)] /\ rreach t h r) \/
  (exists odom, accepted m = Some odom /\ took t = [] /\ o = [RTf (ms_time m) None] /\ r_tf r = None) \/
  (exists odom p out, accepted m = Some odom /\ took t <> [] /\
     (exists e h', h = e :: h' /\ returned (v_evs e) = Some p) /\
     topics (r_sys r) = Ok out /\ o = RTf (ms_time m) (Some (tfTrans odom p)) :: out /\ r_tf r = Some (tfTrans odom p)).
Proof.
  intro H. inversion H as [|t' h0 r0 m' r' o' c R S]; subst. pose proof (RI_reach _ _ _ R) as [Y T I2 I3 [I4 I5]].
  pose proof (prepare_accepted m) as PA.
  destruct S as [P|odom pts i evs y' P RD M SC Y'|odom pts i evs y' p out P RD M SC Y' RT TP]; rewrite P in PA; cbn in PA.
  - left. auto.
  - right. left. exists odom. destruct (took t) eqn:TK; [|congruence].
    assert (N : r_tf r0 = None) by (apply I4; cbn; lia). rewrite N. cbn [r_tf]. auto 10.
  - right. right. exists odom, p, out. split; [auto|]. split; [intro E; rewrite E in I2; congruence|].
    cbn [r_sys r_tf app]. split; [eexists _, _; split; [reflexivity|exact RT]|]. auto.
Qed.

(** Order of the topics *)
Lemma topics_inv y out : topics y = Ok out ->
  exists w c g, getNDTMap dflt btw tp y = Ok w /\ getPclMap2 dflt btw tp y = Ok c /\
    out = [RWin w; RMap (calcOccupancyGridMsg (y_map y)); RWinPcl c; RPcl (getPclMap (y_map y))] ++ g /\
    graphOut oob ser y = Ok g /\
    map topic_of g = (if ser then [TGraph] else []).
Proof.
  unfold RunModel.topics. intro H. apply bind_ok_inv in H. destruct H as (w & W & H). apply bind_ok_inv in H.
  destruct H as (c & C & H). apply bind_ok_inv in H. destruct H as (g & G & H). injection H as <-.
  exists w, c, g. split; [exact W|]. split; [exact C|]. split; [reflexivity|]. split; [exact G|].
  unfold graphOut in G. destruct ser.
  - apply bind_ok_inv in G. destruct G as (l & _ & G). injection G as <-. reflexivity.
  - injection G as <-. reflexivity.
Qed.
Lemma graph_only y g x : graphOut oob ser y = Ok g -> In x g -> exists l, x = @RGraph X l /\
  graphMarkers (fun p => (px p, py p)) oob (a_slam (y_alg y)) = Ok l.
Proof.
  unfold graphOut. destruct ser; intro G; [|injection G as <-; intros []].
  apply bind_ok_inv in G. destruct G as (l & L & G). injection G as <-. intros [<-|[]]. exists l. auto.
Qed.

(** C105: what is sent, and when *)
Lemma run_topics t h r m o : rreach ((m, o) :: t) h r ->
  map topic_of o =
    match accepted m with
    | Some _ => if length (took t) =? 0 then [TTf] else [TTf; TWin; TMap; TWinPcl; TPcl] ++ (if ser then [TGraph] else [])
    | None => [TTf]
    end.
Proof.
  intro H. destruct (out_cases _ _ _ _ _ H) as [(A & -> & _)|[(odom & A & T & -> & _)|
    (odom & p & out & A & NE & _ & TP & -> & _)]]; rewrite A.
  - reflexivity.
  - rewrite T. reflexivity.
  - destruct (took t); [congruence|]. cbn [length Nat.eqb].
    destruct (topics_inv _ _ TP) as (w & c & g & _ & _ & -> & _ & G). cbn [map topic_of app]. rewrite G. reflexivity.
Qed.

(** What the message that published something says about the state *)
Lemma run_published t h r m o x : rreach ((m, o) :: t) h r -> In x o -> topic_of x <> TTf ->
   x = RMap (calcOccupancyGridMsg (y_map (r_sys r))) \/ x = RPcl (getPclMap (y_map (r_sys r))) \/
   (exists w, getNDTMap dflt btw tp (r_sys r) = Ok w /\ x = RWin w) \/
   (exists c, getPclMap2 dflt btw tp (r_sys r) = Ok c /\ x = RWinPcl c) \/
   (exists l, graphMarkers (fun p => (px p, py p)) oob (a_slam (y_alg (r_sys r))) = Ok l /\ x = RGraph l).
Proof.
  intros H I N. destruct (out_cases _ _ _ _ _ H) as [(A & -> & _)|[(odom & A & T & -> & _)|
    (odom & p & out & A & NE & _ & TP & -> & _)]].
  - destruct I as [<-|[]]. contradiction N. reflexivity.
  - destruct I as [<-|[]]. contradiction N. reflexivity.
  - destruct I as [<-|I]; [contradiction N; reflexivity|].
    destruct (topics_inv _ _ TP) as (w & c & g & W & C & -> & G & _). cbn [app In] in I.
    destruct I as [<-|[<-|[<-|[<-|I]]]]; eauto 10.
    destruct (graph_only _ _ _ G I) as (l & -> & L). eauto 10.
Qed.

(** C105: rejected messages leave no trace *)
Lemma run_rejected t h r : rreach t h r -> rreach (filter (fun mo => if accepted (fst mo) then true else false) t) h r.
Proof.
  intro H. induction H as [|t h r m r' o c R IH S]; [constructor|].
  cbn [filter fst]. pose proof (prepare_accepted m) as PA. destruct (accepted m) eqn:A.
  - eapply rreach_step; [exact IH|exact S].
  - destruct S as [P|odom pts i evs y' P RD M SC Y'|odom pts i evs y' p out P RD M SC Y' RT TP]; rewrite P in PA; try discriminate PA.
    exact IH.
Qed.
(** C107: covariances *)
Lemma run_covariance (f : msg -> option (list R)) t h r : rreach t h r ->
  rreach (map (fun mo => (with_cov (f (fst mo)) (fst mo), snd mo)) t) h r.
Proof.
  induction 1 as [|t h r m r' o c R IH S]; [constructor|]. cbn [map fst snd]. eapply rreach_step; [exact IH|].
  destruct S as [P|odom pts i evs y' P RD M SC Y'|odom pts i evs y' p out P RD M SC Y' RT TP].
  - change (ms_time m) with (ms_time (with_cov (f m) m)). apply rstep_reject. exact P.
  - change (ms_time m) with (ms_time (with_cov (f m) m)). eapply rstep_first; eauto.
  - change (ms_time m) with (ms_time (with_cov (f m) m)). eapply rstep_next; eauto.
Qed.

(** The transform *)
Lemma run_pose t h r m o odom : rreach ((m, o) :: t) h r -> accepted m = Some odom -> took t <> [] ->
  exists T p k, hd_error o = Some (RTf (ms_time m) (Some T)) /\ tf_mul T (eigenPoseToTF odom) = eigenPoseToTF p /\
    last_report (events h) = Some (k, p).
Proof.
  intros H A0 NE. destruct (out_cases _ _ _ _ _ H) as [(A & _)|[(odom' & A & T & _)|
    (odom' & p & out & A & _ & (e & h' & -> & RT) & TP & -> & _)]]; [congruence|congruence|].
  assert (odom' = odom) by congruence. subst odom'.
  assert (LR : exists k, last_report (events (e :: h')) = Some (k, p)).
  { cbn [events]. unfold returned in RT. destruct (rev (v_evs e)) as [|[] q]; try discriminate. injection RT as ->.
    cbn. eauto. }
  destruct LR as (k & LR). exists (tfTrans odom p), p, k. split; [reflexivity|]. split; [apply tfTrans_spec|].
  auto.
Qed.

Notation in_frame := (in_frame btw tp moveScan dbl).
Notation frame_of := (frame_of merge dflt addPt compute tcell occRay btw tp moveScan dbl).

Lemma told_msg t (h : list (yev D)) e : told (took t) h -> In e h ->
  exists m, In m (map fst t) /\ accepted m <> None /\ ms_scan m = Some (i_scan (v_in e)) /\ v_time e = inject_Z (ms_time m).
Proof.
  intros T I. destruct (told_scan _ _ _ T I) as (x & q & s & J & A & B). destruct (taken_in _ _ _ _ J) as (m & M & C & E & F).
  exists m. split; [exact M|]. split; [congruence|]. split; congruence.
Qed.

(** C105: the cloud of the map *)
Lemma run_cloud t h r m o l p :
  occ_only occRay -> nc_gauss dflt = false -> (forall q, moveScan t2id q = q) -> dbl 0 = 0%Q ->
  means_average dflt addPt compute ->
  (forall t c, nc_gauss (tcell t c) = nc_gauss c) ->
  (forall t c, nc_gauss c = true -> nc_mean (tcell t c) = tp t (nc_mean c)) ->
  rreach ((m, o) :: t) h r -> In (RPcl l) o -> In p l ->
  exists m' s k x f mv ps q, In m' (m :: map fst t) /\ accepted m' <> None /\ ms_scan m' = Some s /\
    In (f, mv, s) (scans_of h k) /\ getPoseLocation (a_slam (y_alg (r_sys r))) k = Ok x /\
    (forall a, In a ps -> In (Some a) (in_frame (f, mv, s))) /\ average ps q /\
    p = tp (btw world world) (tp (btw (qposeOf dbl x) world) q).
Proof.
  intros OO DG MV Z0 MA TG TM H I J.
  assert (N : topic_of (@RPcl X l) <> TTf) by discriminate.
  pose proof (run_published _ _ _ _ _ _ H I N) as E. destruct (run_calls _ _ _ H) as [Y T].
  assert (l = getPclMap (y_map (r_sys r))) as ->.
  { destruct E as [E|[E|[(? & _ & E)|[(? & _ & E)|(? & _ & E)]]]]; try discriminate. injection E as ->. reflexivity. }
  clear E. destruct (sys_points merge dflt addPt compute tcell occRay rawOcc btw tp noLin moveOrigin moveScan dbl radius le se2' odo dist
           OO DG MV Z0 MA TG TM h _ p Y J) as (k & x & s & ps & q & G & S & A & B & C).
  destruct (scans_scan _ _ _ S) as (e & Ie & Se). destruct (told_msg _ _ _ T Ie) as (m' & M & Ac & Sc & _).
  destruct s as [[f mv] s]. cbn [snd] in Se. subst s.
  exists m', (i_scan (v_in e)), k, x, f, mv, ps, q. auto 10.
Qed.

(** C105: the cloud of the window *)
Lemma run_window t h r m o l p :
  occ_only occRay -> nc_gauss dflt = false -> means_average dflt addPt compute ->
  (forall t c, nc_gauss (tcell t c) = nc_gauss c) ->
  (forall t c, nc_gauss c = true -> nc_mean (tcell t c) = tp t (nc_mean c)) ->
  blends merge -> (forall t, affine (tp t)) -> shifts btw tp -> slides noLin moveOrigin ->
  rreach ((m, o) :: t) h r -> In (RWinPcl l) o -> In p l ->
  exists m' s (e : yev D) F, In e h /\ In m' (m :: map fst t) /\ accepted m' <> None /\ ms_scan m' = Some s /\
    i_scan (v_in e) = s /\ v_time e = inject_Z (ms_time m') /\ placed_by tp dbl e F /\ hull (map F (reals s)) p.
Proof.
  intros OO DG MA TG TM BL AF SH SL H I J.
  assert (N : topic_of (@RWinPcl X l) <> TTf) by discriminate.
  pose proof (run_published _ _ _ _ _ _ H I N) as E. destruct (run_calls _ _ _ H) as [Y T].
  assert (P : getPclMap2 dflt btw tp (r_sys r) = Ok l).
  { destruct E as [E|[E|[(? & _ & E)|[(? & G & E)|(? & _ & E)]]]]; try discriminate. injection E as ->. exact G. }
  clear E. destruct (proj2 (window_hull merge dflt addPt compute tcell occRay rawOcc btw tp noLin moveOrigin moveScan dbl radius le se2' odo dist
           OO DG MA TG TM BL AF SH SL h _ Y) l p P J) as (e & F & Ie & PL & HU).
  destruct (told_msg _ _ _ T Ie) as (m' & M & Ac & Sc & Tm). exists m', (i_scan (v_in e)), e, F. auto 12.
Qed.

(** C105: the occupancy grid *)
Lemma run_map t h r m o w : rreach ((m, o) :: t) h r -> In (RMap w) o ->
  exists order fs g0 g,
    Permutation.Permutation order (born h) /\ (clock h -> order = born h) /\
    allOk (map (frame_of h (y_alg (r_sys r))) order) = Ok fs /\
    blank dflt g0 /\ foldM (addToMap merge dflt tcell occRay btw tp) fs g0 = Ok g /\
    (fs <> [] -> let c := createOccupancyGrid rawOcc btw tp g in
       om_width w = oc_width c /\ om_height w = oc_height c /\ om_res w = oc_res c /\ om_origin w = oc_origin c /\
       om_data w = oc_cells c).
Proof.
  intros H I. assert (N : topic_of (@RMap X w) <> TTf) by discriminate.
  pose proof (run_published _ _ _ _ _ _ H I N) as E. destruct (run_calls _ _ _ H) as [Y T].
  assert (w = calcOccupancyGridMsg (y_map (r_sys r))) as ->.
  { destruct E as [E|[E|[(? & _ & E)|[(? & _ & E)|(? & _ & E)]]]]; try discriminate. injection E as ->. reflexivity. }
  clear E. destruct (sys_map merge dflt addPt compute tcell occRay rawOcc btw tp noLin moveOrigin moveScan dbl radius le se2' odo dist h _ Y)
    as (order & fs & g0 & g & A & B & C & G & F & _ & K).
  exists order, fs, g0, g. repeat (split; [assumption|]). intro NE. destruct (K NE) as [_ O]. cbn zeta.
  unfold calcOccupancyGridMsg. rewrite O. cbn. auto.
Qed.

(** C105: stamp of the window's message *)
Lemma first_windowed h y : yreach h y -> h <> [] -> exists e, In e h /\ windowed (v_evs e) = true.
Proof.
  induction 1 as [|h y e y' R IH S]; [congruence|]. intros _. destruct h as [|e' h'].
  - exists e. split; [left; reflexivity|]. inversion R; subst. destruct S as [i ts a' evs m' o' U DM].
    cbn in U. injection U as <- <-. reflexivity.
  - destruct IH as (x & I & W); [discriminate|]. exists x. split; [right; exact I|exact W].
Qed.
Lemma run_stamp t h r m o ts q g : rreach ((m, o) :: t) h r -> In (RWin (ts, q, g)) o ->
  exists e m', In e h /\ windowed (v_evs e) = true /\ v_time e = ts /\ window_time h = ts /\
    In m' (m :: map fst t) /\ accepted m' <> None /\ ts = inject_Z (ms_time m').
Proof.
  intros H I. assert (N : topic_of (@RWin X (ts, q, g)) <> TTf) by discriminate.
  pose proof (run_published _ _ _ _ _ _ H I N) as E. destruct (run_calls _ _ _ H) as [Y T].
  assert (P : getNDTMap dflt btw tp (r_sys r) = Ok (ts, q, g)).
  { destruct E as [E|[E|[(? & G & E)|[(? & G & E)|(? & _ & E)]]]]; try discriminate. injection E as ->. exact G. }
  destruct (window_msg merge dflt addPt compute tcell occRay rawOcc btw tp noLin moveOrigin moveScan dbl radius le se2' odo dist h _ _ _ _ Y P) as [-> _].
  destruct (out_cases _ _ _ _ _ H) as [(A & -> & _)|[(odom & A & T' & -> & _)|
    (odom & p & out & A & NE & (e1 & h2 & -> & _) & _)]]; try (destruct I as [I|[]]; discriminate I).
  assert (NH : e1 :: h2 <> []) by discriminate.
  destruct (first_windowed _ _ Y NH) as (e & Ie & We). destruct (window_time_in _ _ Ie We) as (e' & I' & TT & W').
  destruct (told_msg _ _ _ T I') as (m' & M & Ac & _ & Tm). exists e', m'. rewrite TT. auto 10.
Qed.

(** C105: the pose behind the transform *)
Lemma run_correction t e h r m o odom : rreach ((m, o) :: t) (e :: h) r -> accepted m = Some odom -> took t <> [] ->
  exists T p k, hd_error o = Some (RTf (ms_time m) (Some T)) /\ tf_mul T (eigenPoseToTF odom) = eigenPoseToTF p /\
    last_report (events (e :: h)) = Some (k, p) /\
    let moved_on := match k with KSkip => i_motion (v_in e) | _ => t2id end in
    (forall n q, nodeCount (s_graph (a_slam (y_alg (r_sys r)))) = S n ->
       getPoseLocation (a_slam (y_alg (r_sys r))) n = Ok q ->
       p = getPoseFromTransform (t2mul (t2mul (getTransFromPose q) (since_frame (events (e :: h)))) moved_on)) /\
    (no_loop (events (e :: h)) -> p = getPoseFromTransform (t2mul (total (events (e :: h))) moved_on)).
Proof.
  intros H A NE. destruct (run_pose _ _ _ _ _ _ H A NE) as (T & p & k & HD & TF & LR).
  destruct (run_calls _ _ _ H) as [Y TO].
  exists T, p, k. repeat (split; [assumption|]). cbn zeta.
  pose proof (yreach_run merge dflt addPt compute tcell occRay rawOcc btw tp noLin moveOrigin moveScan dbl radius le se2' odo dist _ _ Y) as RU.
  cbn [map rev] in RU.
  assert (ID : forall a, t2mul a t2id = a) by (intro a; apply T2_eq; cbn; ring).
  split.
  - intros n q NC GP. destruct (alg_report _ _ _ _ _ _ _ _ _ RU LR NC GP) as [K1 K2].
    destruct k; rewrite ?ID; auto; apply K1; discriminate.
  - intro NL. assert (RG : rigid_inputs (rev (map v_in h) ++ [v_in e])).
    { apply Forall_forall. intros i Ii. 
      assert (Ih : exists e', In e' (e :: h) /\ i = v_in e').
      { apply in_app_or in Ii. destruct Ii as [Ii|[<-|[]]]; [|exists e; split; [left|]; reflexivity].
        apply in_rev, in_map_iff in Ii. destruct Ii as (e' & <- & Ie'). exists e'. split; [right; exact Ie'|reflexivity]. }
      destruct Ih as (e' & Ie' & ->). apply told_rigid in TO. rewrite Forall_forall in TO. apply TO. exact Ie'. }
    destruct (alg_total _ _ _ _ _ _ _ RG RU LR NL) as [K1 K2]. destruct k; rewrite ?ID; auto; apply K1; discriminate.
Qed.

(** C105: odometry alone *)
Lemma run_odometry t h r m o odom t0 o0 s0 q : rreach ((m, o) :: t) h r -> accepted m = Some odom ->
  took t = q ++ [(t0, o0, s0)] -> no_loop (events h) ->
  Forall (fun e => i_match (v_in e) = None /\ moved (i_motion (v_in e))) (removelast h) ->
  exists T, hd_error o = Some (RTf (ms_time m) (Some T)) /\
    tf_mul T (eigenPoseToTF odom) =
    eigenPoseToTF (getPoseFromTransform (t2mul (t2inv (getTransFromPose o0)) (getTransFromPose odom))).
Proof.
  intros H A TK NL FA. assert (NE : took t <> []) by (rewrite TK; destruct q; discriminate).
  destruct (run_pose _ _ _ _ _ _ H A NE) as (T & p & k & HD & TF & LR).
  destruct (run_calls _ _ _ H) as [Y TO].
  exists T. split; [exact HD|]. rewrite TF. f_equal.
  pose proof (yreach_run merge dflt addPt compute tcell occRay rawOcc btw tp noLin moveOrigin moveScan dbl radius le se2' odo dist _ _ Y) as RU.
  assert (TO' : exists s, took ((m, o) :: t) = ((ms_time m, odom, s) :: q) ++ [(t0, o0, s0)]).
  { unfold took in *. cbn [map fst]. rewrite taken_cons. pose proof (prepare_accepted m) as PA. rewrite A in PA.
    destruct (prepareAllData m) as [[o' s]|]; [|discriminate]. cbn in PA. injection PA as ->. exists s. rewrite TK. reflexivity. }
  destruct TO' as (s & E). pose proof TO as TO2. rewrite E in TO. destruct (told_motions _ _ _ _ _ TO) as (e0 & h' & -> & M0 & MM).
  cbn [app] in MM. rewrite removelast_last in FA.
  rewrite map_app, rev_app_distr in RU. cbn [map rev app] in RU.
  assert (RG : rigid_inputs (v_in e0 :: rev (map v_in h'))).
  { apply told_rigid in TO2. rewrite Forall_forall in TO2. apply Forall_forall. intros i [<-|I].
    - apply TO2. apply in_or_app. right. left. reflexivity.
    - apply in_rev, in_map_iff in I. destruct I as (e & <- & I). apply TO2. apply in_or_app. left. exact I. }
  rewrite (alg_dead_reckoning _ _ _ _ _ _ _ RG RU LR NL).
  - rewrite <- MM, <- t2mul_assoc, t2inv_l by apply rigid_nz, rigid_pose. rewrite t2mul_id_l. reflexivity.
  - rewrite Forall_forall in FA. apply Forall_forall. intros i I. apply in_rev, in_map_iff in I. destruct I as (e & <- & I).
    apply FA. exact I.
Qed.

(** C108: the two messages about the window *)
Lemma run_pair t h r m o ts n (w : @grid_msg X) l : nc_gauss dflt = false -> shifts btw tp ->
  rreach ((m, o) :: t) h r -> In (RWin (ts, n, w)) o -> In (RWinPcl l) o ->
  gm_cell w = 1#4 /\
  exists a b : Z, Forall2 (fun p c => peq p (fst (nc_mean c) + inject_Z a * (1#4), snd (nc_mean c) + inject_Z b * (1#4))%Q)
    l (filter nc_gauss (gm_cells w)).
Proof.
  intros DG SH H I J. assert (N : topic_of (@RWin X (ts, n, w)) <> TTf) by discriminate.
  assert (N' : topic_of (@RWinPcl X l) <> TTf) by discriminate.
  pose proof (run_published _ _ _ _ _ _ H I N) as E. pose proof (run_published _ _ _ _ _ _ H J N') as E'.
  destruct (run_calls _ _ _ H) as [Y _].
  assert (P : getNDTMap dflt btw tp (r_sys r) = Ok (ts, n, w)).
  { destruct E as [E|[E|[(? & G & E)|[(? & G & E)|(? & _ & E)]]]]; try discriminate. injection E as ->. exact G. }
  assert (P' : getPclMap2 dflt btw tp (r_sys r) = Ok l).
  { destruct E' as [E'|[E'|[(? & _ & E')|[(? & G & E')|(? & _ & E')]]]]; try discriminate. injection E' as ->. exact G. }
  destruct (window_pair merge dflt addPt compute tcell occRay rawOcc btw tp noLin moveOrigin moveScan dbl radius le se2' odo dist
    _ _ _ _ _ _ DG Y P P') as (CS & po & TH & (a & b & A & B) & ->).
  split; [exact CS|]. exists a, b. clear - SH TH A B. induction (filter nc_gauss (gm_cells w)) as [|c q IH]; constructor; [|exact IH].
  destruct (SH po (mkPose 0 0 0) (nc_mean c)) as [X1 X2]; [unfold unturned; rewrite TH; reflexivity|reflexivity|].
  cbn [fst snd p_x p_y] in X1, X2. split; cbn [fst snd].
  - rewrite X1, A. ring.
  - rewrite X2, B. ring.
Qed.
End Run.
