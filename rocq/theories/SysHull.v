(** Proofs: where the points of the running window lie. *)
From Coq Require Import Reals Qreals List ZArith QArith Bool Lia Arith Lqa Setoid.
From Verif Require Import Base LinAlg3 GeoModel GeoSpec GeoProofs.
From Verif Require Import GraphModel GraphSpec GraphProofs LoopModel SlamModel SlamSpec SlamProofs AlgModel AlgSpec AlgProofs.
From Verif Require Import VoxelModel VoxelSpec VoxelProofs VoxelOps VoxelAdd VoxelRay GridModel GridSpec GridProofs GridOps ScanSpec ScanProofs MapModel MapSpec MapDraw CellsFrom.
From Verif Require Import SysModel SysSpec SysProofs SysMap SysCloud SysWindow.
Import ListNotations.
Open Scope nat_scope.
Set Default Proof Using "Type".

(** ** Hulls *)
Lemma hull_in ps p : In p ps -> hull ps p.
Proof. intros I a b c H. apply H. exact I. Qed.
Lemma hull_peq ps p q : peq p q -> hull ps p -> hull ps q.
Proof. intros [A B] H a b c F. rewrite <- A, <- B. apply H. exact F. Qed.
Lemma hull_sym p q : peq p q -> peq q p.
Proof. intros [A B]. split; symmetry; assumption. Qed.
Lemma hull_sub ps qs q : (forall p, In p ps -> exists p', In p' qs /\ peq p p') -> hull ps q -> hull qs q.
Proof.
  intros S H a b c F. apply H. intros p I. destruct (S p I) as (p' & I' & E1 & E2). rewrite E1, E2. apply F. exact I'.
Qed.
Lemma hull_between ps p q s : (0 <= s <= 1)%Q -> hull ps p -> hull ps q ->
  hull ps (s * fst p + (1 - s) * fst q, s * snd p + (1 - s) * snd q)%Q.
Proof.
  intros [S0 S1] P Q a b c F. specialize (P a b c F). specialize (Q a b c F). cbn [fst snd].
  set (u := (a * fst p + b * snd p)%Q) in *. set (w := (a * fst q + b * snd q)%Q) in *.
  setoid_replace (a * (s * fst p + (1 - s) * fst q) + b * (s * snd p + (1 - s) * snd q))%Q with (s * u + (1 - s) * w)%Q
    by (unfold u, w; ring).
  nra.
Qed.
Lemma hull_average ps q : average ps q -> hull ps q.
Proof.
  intros (NE & A & B) a b c F.
  assert (S : forall l, (forall p, In p l -> a * fst p + b * snd p <= c)%Q ->
     (a * sumQ (map fst l) + b * sumQ (map snd l) <= inject_Z (Z.of_nat (length l)) * c)%Q).
  { induction l as [|p l IH]; intro H; cbn [map sumQ fold_right length].
    - change (inject_Z (Z.of_nat 0)) with 0%Q. lra.
    - rewrite Nat2Z.inj_succ, <- Z.add_1_l, inject_Z_plus. change (inject_Z 1) with 1%Q.
      specialize (IH (fun p' I => H p' (or_intror I))). specialize (H p (or_introl eq_refl)).
      fold (sumQ (map fst l)) (sumQ (map snd l)). lra. }
  specialize (S ps F). rewrite <- A, <- B in S.
  assert (L : (0 < inject_Z (Z.of_nat (length ps)))%Q).
  { change 0%Q with (inject_Z 0). rewrite <- Zlt_Qlt. destruct ps; [congruence|cbn; lia]. }
  set (n := inject_Z (Z.of_nat (length ps))) in *.
  apply (Qmult_le_l _ _ n L).
  setoid_replace (n * (a * fst q + b * snd q))%Q with (a * (n * fst q) + b * (n * snd q))%Q by ring.
  exact S.
Qed.
Lemma hull_affine f (ps : list point) q : affine f -> hull ps q -> hull (map f ps) (f q).
Proof.
  intros (m & n & k & l & x & y & H) HQ a b c F. destruct (H q) as [Q1 Q2]. cbn [fst snd] in Q1, Q2. rewrite Q1, Q2.
  assert (G : ((a * m + b * k) * fst q + (a * n + b * l) * snd q <= c - a * x - b * y)%Q).
  { apply HQ. intros p I. specialize (F (f p) (in_map f _ _ I)). destruct (H p) as [P1 P2]. cbn [fst snd] in P1, P2.
    rewrite P1, P2 in F. lra. }
  lra.
Qed.
Lemma hull_map (f g : point -> point) (ps : list point) q : (forall p, In p ps -> peq (f p) (g p)) -> hull (map f ps) q -> hull (map g ps) q.
Proof.
  intros E H a b c F. apply H. intros p I. apply in_map_iff in I. destruct I as (p0 & <- & I).
  destruct (E p0 I) as [A B]. rewrite A, B. apply F. apply in_map. exact I.
Qed.

(** ** Slots *)
Section Slots.
Context {C : Type}.
Variable P : C -> Prop.
Lemma holds_addCell_merge merge (g g' : vgrid C) p c m : holds P (cells g) -> P c ->
  (m = true -> forall a, P a -> P (merge a c)) ->
  addCell merge g p c m = Ok g' -> holds P (cells g').
Proof.
  intros H HC HM E. unfold addCell in E. apply bind_ok_inv in E. destruct E as (g1 & E1 & E).
  assert (H1 : holds P (cells g1)).
  { unfold enlargeToFit in E1. destruct (isInside g p); [injection E1 as <-; exact H|].
    eapply holds_enlargeGrid; eauto. }
  apply bind_ok_inv in E. destruct E as (i & _ & E). apply bind_ok_inv in E. destruct E as (o & EO & E).
  destruct o as [o|]; injection E as <-; cbn [cells with_cells with_valid]; apply holds_upd; auto; intros c9 E9.
  - injection E9 as <-. destruct m; [|exact HC]. apply HM; [reflexivity|]. eapply holds_vget; [exact H1|exact EO|reflexivity].
  - congruence.
Qed.
Lemma holds_mvslot l i j l' : holds P l -> mvslot l i j = Ok l' -> holds P l'.
Proof.
  intros H E. unfold mvslot in E. apply bind_ok_inv in E. destruct E as (o & EO & E).
  apply bind_ok_inv in E. destruct E as (l1 & E1 & E).
  eapply holds_vset; [eapply holds_vset; [exact H| |exact E1]; discriminate| |exact E].
  intros c ->. eapply holds_vget; [exact H|exact EO|reflexivity].
Qed.
Lemma holds_move3 (step : list (option C) * nat * nat -> nat -> res (list (option C) * nat * nat)) sl (g g' : vgrid C) :
  (forall l u n i l' u' n', holds P l -> step (l, u, n) i = Ok (l', u', n') -> holds P l') ->
  holds P (cells g) ->
  (do s <- foldM step sl (cells g, 0, 0); let '(l, _, _) := s in Ok (with_cells g l)) = Ok g' -> holds P (cells g').
Proof.
  intros HS H E. apply bind_ok_inv in E. destruct E as ([[l u] n] & E & F). injection F as <-. cbn [cells with_cells].
  revert E. apply (foldM_inv (fun s => holds P (fst (fst s)))); [|exact H].
  intros [[l1 u1] n1] i [[l2 u2] n2] _ H1 E1. cbn [fst] in *. eapply HS; eauto.
Qed.
Lemma holds_move1 (step : list (option C) -> nat -> res (list (option C))) sl (g g' : vgrid C) :
  (forall l i l', holds P l -> step l i = Ok l' -> holds P l') ->
  holds P (cells g) ->
  (do l <- foldM step sl (cells g); Ok (with_cells g l)) = Ok g' -> holds P (cells g').
Proof.
  intros HS H E. apply bind_ok_inv in E. destruct E as (l & E & F). injection F as <-. cbn [cells with_cells].
  revert E. apply (foldM_inv (holds P)); [|exact H]. intros l1 i l2 _. apply HS.
Qed.
Lemma holds_translate (g g' : vgrid C) x y b : holds P (cells g) -> translate g x y b = Ok g' -> holds P (cells g').
Proof.
  intros H E. unfold translate in E. cbv zeta in E.
  apply bind_ok_inv in E. destruct E as (g0 & E0 & E). apply bind_ok_inv in E. destruct E as (g1 & E1 & E).
  apply bind_ok_inv in E. destruct E as (g2 & E2 & E). apply bind_ok_inv in E. destruct E as (g3 & E3 & E).
  assert (NS : forall l i l', holds P l -> vset l i None = Ok l' -> holds P l').
  { intros l i l' HL EL. eapply holds_vset; [exact HL| |exact EL]. discriminate. }
  assert (H0 : holds P (cells g0)).
  { destruct b; [injection E0 as <-; exact H|]. eapply holds_enlargeGrid; eauto. }
  assert (H1 : holds P (cells g1)).
  { unfold moveLeft in E1. destruct (_ =? 0); [injection E1 as <-; exact H0|]. cbv zeta in E1.
    revert E1. apply holds_move3; [|exact H0]. intros l u n i l' u' n' HL EL. unfold moveLeftStep in EL.
    destruct (_ && _); apply bind_ok_inv in EL; destruct EL as (l1 & EL & F); injection F as <- _ _; eauto using holds_mvslot. }
  assert (H2 : holds P (cells g2)).
  { unfold moveRight in E2. destruct (_ =? 0); [injection E2 as <-; exact H1|]. cbv zeta in E2.
    revert E2. apply holds_move3; [|exact H1]. intros l u n i l' u' n' HL EL. unfold moveRightStep in EL.
    destruct (_ && _); apply bind_ok_inv in EL; destruct EL as (l1 & EL & F); injection F as <- _ _; eauto using holds_mvslot. }
  assert (H3 : holds P (cells g3)).
  { unfold moveUp in E3. destruct (_ =? 0); [injection E3 as <-; exact H2|]. cbv zeta in E3.
    revert E3. apply holds_move1; [|exact H2]. intros l i l' HL EL. unfold moveUpStep in EL.
    destruct (_ <? _); eauto using holds_mvslot. }
  unfold moveDown in E. destruct (_ =? 0); [injection E as <-; exact H3|]. cbv zeta in E.
  revert E. apply holds_move1; [|exact H3]. intros l i l' HL EL. unfold moveDownStep in EL.
  destruct (_ <=? _); eauto using holds_mvslot.
Qed.
End Slots.

(** ** The running window *)
Section System.
Context {X Guess D : Type}.
Notation cell := (ncell X).
Notation grid := (ngrid X).
Notation body := (res grid).
Variable merge : cell -> cell -> cell.
Variable dflt : cell.
Variable addPt : cell -> point -> cell.
Variable compute : cell -> cell.
Variable tcell : qt -> cell -> cell.
Variable occRay : cell -> point -> cell -> cell.
Variable rawOcc : cell -> Q.
Variable btw : qpose -> qpose -> qt.
Variable tp : qt -> point -> point.
Variable noLin : T2.
Variable moveOrigin : qpose -> qt -> qpose.
Variable moveScan : T2 -> point -> point.
Variable dbl : R -> Q.
Variable radius : Q.
Variable le : lenv pose (frame body) M3 Guess D.
Variable se2' : pose -> pose.
Variable odo : M3.
Variable dist : R.

Notation env := (sysEnv merge dflt addPt compute tcell occRay btw tp noLin moveOrigin moveScan dbl radius le se2' odo dist).
Notation yreach := (yreach merge dflt tcell occRay rawOcc btw tp dbl env).
Notation sys := (sys X).
Notation yev := (yev D).
Notation wNew := (wNew merge dflt addPt compute tcell occRay btw tp radius).
Notation wMerge := (wMerge merge dflt addPt compute tcell occRay btw tp noLin moveOrigin dbl).
Notation wMove := (@wMove X dbl).
Notation init := (n_initialize merge dflt addPt compute tcell occRay btw tp).

Hypothesis OO : occ_only occRay.
Hypothesis DG : nc_gauss dflt = false.
Hypothesis MA : means_average dflt addPt compute.
Hypothesis TG : forall t c, nc_gauss (tcell t c) = nc_gauss c.
Hypothesis TM : forall t c, nc_gauss c = true -> nc_mean (tcell t c) = tp t (nc_mean c).
Hypothesis BL : blends merge.
Hypothesis AF : forall t, affine (tp t).
Hypothesis SH : shifts btw tp.
Hypothesis SL : slides noLin moveOrigin.

(** Gaussian cells lie in this set. *)
Definition lies (S : point -> Prop) (c : cell) : Prop := nc_gauss c = true -> S (nc_mean c).
Lemma lies_dflt S : lies S dflt.
Proof using DG. intro G. congruence. Qed.
Lemma lies_occ S c s e : lies S c -> lies S (occRay c s e).
Proof using OO. intros H G. destruct (OO c s e) as [M K]. rewrite M. apply H. apply K. exact G. Qed.

Lemma reals_in (pcl : list (option point)) p : In p (reals pcl) <-> In (Some p) pcl.
Proof.
  unfold reals. rewrite in_flat_map. split.
  - intros ([q|] & I & H); [destruct H as [<-|[]]; exact I|destruct H].
  - intro I. exists (Some p). split; [exact I|left; reflexivity].
Qed.

Lemma init_lies (g g' : grid) s : unturned (n_pose g) -> init g s = Ok g' ->
  good (lies (hull (reals s))) g'.
Proof using OO DG MA SH.
  intros U E. unfold n_initialize in E.
  eapply good_mergePcl in E; [apply E|apply lies_dflt|intros; apply lies_occ; assumption|apply good_clear|].
  intros c (ps & -> & HP) G. apply hull_sub with ps; [|apply hull_average; apply MA; exact G].
  intros p I. apply HP in I. unfold seen_from in I. apply in_map_iff in I.
  destruct I as ([p0|] & E0 & I); [|discriminate]. injection E0 as <-. exists p0. split; [apply reals_in; exact I|].
  destruct (SH (n_pose g) (n_pose g) p0 U U) as [A B]. cbn [with_vox n_pose fst snd] in *. split; [rewrite A|rewrite B]; ring.
Qed.

Lemma transform_lies (l l' : grid) reg ps : good (lies (hull ps)) l ->
  n_transform merge tcell noLin moveOrigin l (toQ dbl reg) = Ok l' ->
  good (lies (hull (map (tp (mkTr reg 0 0)) ps))) l' /\ n_pose l' = moveOrigin (n_pose l) (mkTr noLin (dbl (tx reg)) (dbl (ty reg))).
Proof using TG TM BL AF.
  intros H E. unfold n_transform in E. cbn [tr_lin toQ tr_x tr_y] in E. apply bind_ok_inv in E. destruct E as (v & E & F).
  injection F as <-. split; [|reflexivity]. unfold good. cbn [updateMeans n_vox].
  revert E. apply (foldM_inv (fun v => holds (lies (hull (map (tp (mkTr reg 0 0)) ps))) (cells v))).
  - intros v1 c v2 IC HV E. destruct (nc_gauss c) eqn:GC; [|injection E as <-; exact HV].
    assert (LC : lies (hull (map (tp (mkTr reg 0 0)) ps)) c).
    { unfold transformNDTCells in IC. apply in_map_iff in IC. destruct IC as (c0 & <- & IC). intros _.
      rewrite TG in GC. rewrite TM by exact GC. apply hull_affine; [apply AF|].
      eapply (holds_valid (lies (hull ps))); [exact H|exact IC|exact GC]. }
    eapply holds_addCell_merge; [exact HV|exact LC| |exact E]. intros _ a HA G.
    destruct (BL a c G) as [[GA M]|[[_ M]|(GA & _ & s & S & M)]]; (eapply hull_peq; [apply hull_sym; exact M|]).
    + apply HA. exact GA.
    + apply LC. exact GC.
    + apply hull_between; [exact S|apply HA; exact GA|apply LC; exact GC].
  - cbn [clear cells with_cells]. apply holds_none.
Qed.

(** Where a cell of the window lies in the world. *)
Definition wpos (o : qpose) (q : point) : point := (p_x o + fst q, p_y o + snd q)%Q.
Definition shown (h : list yev) (q : point) : Prop :=
  exists e F, In e h /\ placed_by tp dbl e F /\ hull (map F (reals (i_scan (v_in e)))) q.
Lemma shown_peq h p q : peq p q -> shown h p -> shown h q.
Proof. intros E (e & F & I & P & H). exists e, F. split; [exact I|]. split; [exact P|]. eapply hull_peq; eassumption. Qed.
Lemma shown_more e h q : shown h q -> shown (e :: h) q.
Proof. intros (e0 & F & I & H). exists e0, F. split; [right; exact I|exact H]. Qed.

Lemma wMerge_lies (g g' : grid) s reg (S : point -> Prop) : p_th (n_pose g) = 0%Q ->
  (forall p q, peq p q -> S p -> S q) ->
  good (lies (fun q => S (wpos (n_pose g) q))) g ->
  (forall q, hull (map (fun q => let r := tp (mkTr reg 0 0) q in
               (p_x (n_pose g) + dbl (tx reg) + fst r, p_y (n_pose g) + dbl (ty reg) + snd r)%Q) (reals s)) q -> S q) ->
  wMerge (Ok g) s reg = Ok g' -> good (lies (fun q => S (wpos (n_pose g) q))) g'.
Proof using OO DG MA TG TM BL AF SH SL.
  intros TH SP H HS E. unfold SysModel.wMerge in E. cbn [bind] in E.
  apply bind_ok_inv in E. destruct E as (l & EL & E). apply bind_ok_inv in E. destruct E as (l' & ET & E).
  assert (U : unturned (n_pose g)) by (unfold unturned; rewrite TH; reflexivity).
  assert (PL : n_pose l = n_pose g).
  { unfold n_initialize in EL. eapply good_mergePcl with (P := lies (fun _ => True)) in EL; [destruct EL as [_ EL]; exact EL|..]; repeat intro; exact I. }
  apply init_lies in EL; [|exact U]. destruct (transform_lies _ _ _ _ EL ET) as [HL' PL']. rewrite PL in PL'.
  destruct (SL (n_pose g) (dbl (tx reg)) (dbl (ty reg)) U) as (U' & OX & OY). rewrite <- PL' in U', OX, OY.
  eapply good_mergeInTraced with (P := lies (fun q => S (wpos (n_pose g) q))); [apply lies_dflt|intros c a b; apply lies_occ|exact H| |exact E].
  intros c IC. cbn [Datatypes.negb]. intro G. rewrite TG in G. rewrite TM by exact G.
  assert (HC : hull (map (tp (mkTr reg 0 0)) (reals s)) (nc_mean c)).
  { eapply (holds_valid (lies (hull (map (tp (mkTr reg 0 0)) (reals s))))); [exact HL'|exact IC|exact G]. }
  destruct (SH (n_pose l') (n_pose g) (nc_mean c) U' U) as [A B]. cbn [fst snd] in A, B.
  apply SP with (p_x (n_pose g) + dbl (tx reg) + fst (nc_mean c), p_y (n_pose g) + dbl (ty reg) + snd (nc_mean c))%Q.
  { unfold wpos. split; cbn [fst snd]; [rewrite A, OX|rewrite B, OY]; ring. }
  apply HS. cbv zeta.
  pose proof (hull_affine (fun r => (p_x (n_pose g) + dbl (tx reg) + fst r, p_y (n_pose g) + dbl (ty reg) + snd r)%Q)
                _ _ ltac:(exists 1%Q, 0%Q, 0%Q, 1%Q, (p_x (n_pose g) + dbl (tx reg))%Q, (p_y (n_pose g) + dbl (ty reg))%Q;
                          intro p; split; cbn [fst snd]; ring) HC) as HM.
  rewrite map_map in HM. exact HM.
Qed.

Lemma move_lies (g g' : grid) (t t' : qt) (S : point -> Prop) : p_th (n_pose g) = 0%Q ->
  (forall p q, peq p q -> S p -> S q) ->
  good (lies (fun q => S (wpos (n_pose g) q))) g -> n_move g t = Ok (g', t') ->
  p_th (n_pose g') = 0%Q /\ good (lies (fun q => S (wpos (n_pose g') q))) g'.
Proof using Type.
  intros TH SP H E. unfold n_move in E. destruct (Qlt_b _ _); [injection E as <- _; auto|].
  apply bind_ok_inv in E. destruct E as (kx & EX & E). apply bind_ok_inv in E. destruct E as (ky & EY & E).
  assert (M : forall v, translate (n_vox g) (- steps kx) (- steps ky) true = Ok v ->
    good (lies (fun q => S (wpos (mkPose (p_x (n_pose g) + inject_Z (steps kx) * n_cs g)
                                         (p_y (n_pose g) + inject_Z (steps ky) * n_cs g) (p_th (n_pose g)))%Q q)))
      (with_vox g (with_cells v (map (option_map (shiftMean (inject_Z (steps kx) * n_cs g) (inject_Z (steps ky) * n_cs g))) (cells v))))).
  { intros v EV. apply (holds_translate _ _ _ _ _ _ H) in EV. unfold good. cbn [with_vox n_vox with_cells cells].
    intros c IC. apply in_map_iff in IC. destruct IC as ([c0|] & E0 & IC); [|discriminate]. injection E0 as <-.
    apply EV in IC. unfold shiftMean. destruct (nc_gauss c0) eqn:G0; intro G; cbn [nc_mean nc_gauss] in *; [|congruence].
    specialize (IC G0). eapply SP; [|exact IC]. unfold wpos. split; cbn [fst snd p_x p_y]; ring. }
  destruct kx as [kx|], ky as [ky|];
    try (apply bind_ok_inv in E; destruct E as (v & EV & E); specialize (M v EV); injection E as <- _;
         split; [exact TH|exact M]).
  injection E as <- _. auto.
Qed.

Record HI (h : list yev) (y : sys) : Prop := {
  hi_win : forall g, a_win (y_alg y) = Some (Ok g) ->
    p_th (n_pose g) = 0%Q /\ n_means g = Some (map nc_mean (getGaussianCells g)) /\
    good (lies (fun q => shown h (wpos (n_pose g) q))) g
}.
Lemma mergeCells_means (g g' : grid) l b : mergeInCells merge g l b = Ok g' ->
  n_means g' = Some (map nc_mean (getGaussianCells g')).
Proof.
  unfold mergeInCells. intro E. destruct (b || negb (n_init g)).
  - destruct (bbox _) as [[[x0 y0] x1] y1]. apply bind_ok_inv in E. destruct E as (v0 & _ & E).
    apply bind_ok_inv in E. destruct E as (v1 & _ & E). injection E as <-. reflexivity.
  - apply bind_ok_inv in E. destruct E as (v1 & _ & E). injection E as <-. reflexivity.
Qed.
Lemma traced_means (g f g' : grid) a b : mergeInTraced merge dflt tcell occRay btw tp g f a b = Ok g' ->
  n_means g' = Some (map nc_mean (getGaussianCells g')).
Proof.
  unfold mergeInTraced. intro E. apply bind_ok_inv in E. destruct E as (v & _ & E).
  eapply mergeCells_means. exact E.
Qed.
Lemma move_means (g g' : grid) (t t' : qt) : n_means g = Some (map nc_mean (getGaussianCells g)) ->
  n_move g t = Ok (g', t') -> n_means g' = Some (map nc_mean (getGaussianCells g')).
Proof.
  intros H E. unfold n_move in E. destruct (Qlt_b _ _); [injection E as <- _; auto|].
  apply bind_ok_inv in E. destruct E as (kx & EX & E). apply bind_ok_inv in E. destruct E as (ky & EY & E).
  destruct kx as [kx|], ky as [ky|];
    try (apply bind_ok_inv in E; destruct E as (v & EV & E); injection E as <- _; reflexivity).
  injection E as <- _. exact H.
Qed.

Lemma HI_reach h y : yreach h y -> HI h y.
Proof using OO DG MA TG TM BL AF SH SL.
  induction 1 as [|h y e y' R IH S].
  { split. cbn. discriminate. }
  pose proof (yreach_AI _ _ _ _ _ _ _ _ _ _ _ _ _ _ _ _ _ _ h y R) as A.
  destruct S as [i ts a' evs m' o' U DM]. destruct IH as [IO]. split. cbn [y_alg].
  intros g EW. unfold update in U.
  assert (MORE : forall e o (c : cell), lies (fun q => shown h (wpos o q)) c -> lies (fun q => shown (e :: h) (wpos o q)) c).
  { intros e o c H G. apply shown_more. apply H. exact G. }
  assert (KEEP : a_win (y_alg y) = Some (Ok g) -> forall e, p_th (n_pose g) = 0%Q /\ n_means g = Some (map nc_mean (getGaussianCells g)) /\
     good (lies (fun q => shown (e :: h) (wpos (n_pose g) q))) g).
  { intros W e. destruct (IO g W) as (TH & MM & H). split; [exact TH|]. split; [exact MM|].
    intros c IC. apply MORE. apply H. exact IC. }
  destruct (a_init (y_alg y)) eqn:AI0.
  - destruct (a_win (y_alg y)) as [w|] eqn:AW; [|discriminate].
    destruct (movedEnough _).
    + destruct (i_match i) as [reg|] eqn:MT.
      * apply bind_ok_inv in U. destruct U as ([a1 ev1] & UG & U). cbn [fst snd] in U.
        destruct (w_move env (w_merge env w (i_scan i) reg) reg) as [w2 c] eqn:WM. injection U as <- <-.
        cbn [setWindow a_win] in *. injection EW as ->.
        assert (MS : exists g1, w_merge env w (i_scan i) reg = Ok g1).
        { cbn [w_move sysEnv] in WM. unfold SysModel.wMove in WM.
          destruct (w_merge env w (i_scan i) reg) as [g1| |]; [eauto|discriminate|discriminate]. }
        destruct MS as [g1 EG1]. rewrite EG1 in WM. cbn [w_merge sysEnv] in EG1.
        destruct (wMerge_header _ _ _ _ _ _ _ _ _ _ _ _ _ _ _ EG1) as (g0 & -> & PO & _).
        destruct (IO g0 eq_refl) as (TH & MM & H). cbn [w_move sysEnv] in WM. unfold SysModel.wMove in WM. cbn [bind] in WM.
        destruct (n_move g1 (toQ dbl reg)) as [[g2 t2]| |] eqn:EM; [|discriminate|discriminate]. injection WM as <- _.
        cbn [fst] in *.
        match goal with |- context [shown (?e :: h)] => set (e0 := e) end.
        assert (H1 : good (lies (fun q => shown (e0 :: h) (wpos (n_pose g1) q))) g1).
        { rewrite PO. eapply wMerge_lies; [exact TH|apply shown_peq| | |exact EG1].
          - intros c0 IC. apply MORE. apply H. exact IC.
          - intros q HQ. eexists e0, _. split; [left; reflexivity|]. split; [|exact HQ].
            eapply (placed_match tp dbl e0 (n_pose g0) reg). unfold e0. cbn [v_evs].
            apply in_or_app. right. left. reflexivity. }
        rewrite <- PO in TH. destruct (move_lies _ _ _ _ _ TH (shown_peq (e0 :: h)) H1 EM) as [TH2 H2].
        split; [exact TH2|]. split; [|exact H2]. eapply move_means; [|exact EM].
        unfold SysModel.wMerge in EG1. cbn [bind] in EG1. apply bind_ok_inv in EG1. destruct EG1 as (l & _ & EG1).
        apply bind_ok_inv in EG1. destruct EG1 as (l' & _ & EG1). eapply traced_means. exact EG1.
      * apply bind_ok_inv in U. destruct U as ([a1 ev1] & UG & U). cbn [fst snd] in U. injection U as <- <-.
        apply KEEP. rewrite <- EW. symmetry. destruct A as [C _ _ _].
        assert (C' : AC env (setUnused (y_alg y) t2id) (events h)) by (destruct C; split; assumption).
        destruct (updateGraph_ok _ _ _ _ _ _ _ _ C' UG) as (_ & _ & _ & _ & W & _). rewrite W. exact AW.
    + injection U as <- <-. cbn [setUnused a_win] in EW. apply KEEP. rewrite <- EW. symmetry. exact AW.
  - injection U as <- <-. cbn [firstScan a_win w_new sysEnv] in EW. injection EW as EW.
    destruct (wNew_header _ _ _ _ _ _ _ _ _ _ _ EW) as [PO CS]. rewrite PO.
    unfold SysModel.wNew in EW. apply bind_ok_inv in EW. destruct EW as (g0 & E0 & EW).
    assert (P0 : n_pose g0 = mkPose 0 0 0).
    { unfold n_enlarge in E0. apply bind_ok_inv in E0. destruct E0 as (v & _ & E0). injection E0 as <-. reflexivity. }
    split; [reflexivity|]. split.
    + unfold n_initialize, mergeInTracedPcl in EW. apply bind_ok_inv in EW. destruct EW as (l & _ & EW).
      eapply traced_means. exact EW.
    + apply init_lies in EW; [|unfold unturned; rewrite P0; reflexivity]. intros c IC G.
      eexists _, _. split; [left; reflexivity|]. split; [eapply placed_first; cbn [v_evs]; right; left; reflexivity|].
      rewrite map_id. eapply hull_peq; [|apply EW; [exact IC|exact G]].
      unfold wpos. split; cbn [fst snd p_x p_y]; ring.
Qed.

(** Every gaussian cell of the window, and every point of its published cloud. *)
Lemma window_hull h y : yreach h y ->
  (forall g c, a_win (y_alg y) = Some (Ok g) -> In c (getValidCells (n_vox g)) -> nc_gauss c = true ->
     shown h (wpos (n_pose g) (nc_mean c))) /\
  (forall l p, getPclMap2 dflt btw tp y = Ok l -> In p l -> shown h p).
Proof using OO DG MA TG TM BL AF SH SL.
  intro R. destruct (HI_reach h y R) as [IO]. split.
  - intros g c W I G. destruct (IO g W) as (_ & _ & H).
    eapply (holds_valid (lies (fun q => shown h (wpos (n_pose g) q)))); [exact H|exact I|exact G].
  - intros l p E I. unfold getPclMap2 in E. destruct (a_win (y_alg y)) as [w|].
    + apply bind_ok_inv in E. destruct E as (g & -> & E). destruct (IO g eq_refl) as (TH & MM & H).
      unfold getMeansTransformed in E. rewrite MM in E. injection E as <-. rewrite map_map in I.
      apply in_map_iff in I. destruct I as (c & <- & I). unfold getGaussianCells in I. apply filter_In in I. destruct I as [I G].
      eapply shown_peq; [|eapply (holds_valid (lies (fun q => shown h (wpos (n_pose g) q)))); [exact H|exact I|exact G]].
      destruct (SH (n_pose g) (mkPose 0 0 0) (nc_mean c)) as [A B]; [unfold unturned; rewrite TH; reflexivity|reflexivity|].
      cbn [fst snd p_x p_y] in A, B. unfold wpos. split; cbn [fst snd]; [rewrite A|rewrite B]; ring.
    + cbn in E. injection E as <-. destruct I.
Qed.
End System.
