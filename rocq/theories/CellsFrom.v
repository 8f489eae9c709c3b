(** Where the cells of a grid come from: what holds of every cell that is put in
    holds of every cell that is found, whatever the geometry. *)
From Coq Require Import List ZArith QArith Bool Lia Arith.
From Verif Require Import Base VoxelModel VoxelSpec VoxelProofs VoxelOps VoxelAdd VoxelRay GridModel GridSpec GridProofs GridOps ScanSpec.
Import ListNotations.
Open Scope nat_scope.
Set Default Proof Using "Type".

Lemma foldM_inv {S I} (Q : S -> Prop) (f : S -> I -> res S) l :
  (forall s i s', In i l -> Q s -> f s i = Ok s' -> Q s') -> forall s s', Q s -> foldM f l s = Ok s' -> Q s'.
Proof.
  induction l as [|i t IH]; intros H s s' HS E; cbn [foldM] in E.
  - injection E as <-. exact HS.
  - apply bind_ok_inv in E. destruct E as (s1 & E1 & E). apply (IH) with s1; [|eapply H; eauto; left; reflexivity|exact E].
    intros a b c I1. apply H. right. exact I1.
Qed.

Section Slots.
Context {C : Type}.
Variable P : C -> Prop.
Definition holds (l : list (option C)) : Prop := forall c, In (Some c) l -> P c.

Lemma holds_upd l i o : holds l -> (forall c, o = Some c -> P c) -> holds (upd l i o).
Proof.
  intros H O c I. apply In_nth_error in I. destruct I as [j E]. rewrite nth_error_upd in E.
  destruct ((j =? i) && (i <? length l)).
  - injection E as E. apply O. exact E.
  - apply H. eapply nth_error_In. exact E.
Qed.
Lemma holds_vset l i o l' : holds l -> (forall c, o = Some c -> P c) -> vset l i o = Ok l' -> holds l'.
Proof. intros H O E. apply vset_inv in E. destruct E as [_ ->]. apply holds_upd; assumption. Qed.
Lemma holds_vget l i o c : holds l -> vget l i = Ok o -> o = Some c -> P c.
Proof. intros H E ->. apply H. apply vget_ok in E. eapply nth_error_In. exact E. Qed.
Lemma holds_repeat n : holds (repeat None n).
Proof. intros c I. apply repeat_spec in I. discriminate. Qed.
Lemma holds_none {A} (l : list A) : holds (map (fun _ => None) l).
Proof. intros c I. apply in_map_iff in I. destruct I as (? & E & _). discriminate. Qed.

Lemma holds_enlargeGrid (g g' : vgrid C) a b c d : holds (cells g) -> enlargeGrid g a b c d = Ok g' -> holds (cells g').
Proof.
  intros H E. unfold enlargeGrid in E. destruct (a + b + c + d =? 0); [injection E as <-; exact H|].
  apply bind_ok_inv in E. destruct E as ([[l w] o] & E & F). injection F as <-. cbn [cells].
  revert E. apply (foldM_inv (fun s => holds (fst (fst s)))); [|apply holds_repeat].
  intros [[l1 w1] o1] i [[l2 w2] o2] _ HL E. cbn [fst] in *. unfold enlargeStep in E.
  apply bind_ok_inv in E. destruct E as (x & EX & E). apply bind_ok_inv in E. destruct E as (l3 & EL & E).
  assert (holds l3).
  { eapply holds_vset; [exact HL| |exact EL]. intros c0 E0. eapply holds_vget; [exact H|exact EX|exact E0]. }
  destruct (w1 + 1 =? width g); injection E as <- _ _; assumption.
Qed.
Lemma holds_enlarge (g g' : vgrid C) a b c d : holds (cells g) -> enlarge g a b c d = Ok g' -> holds (cells g').
Proof. apply holds_enlargeGrid. Qed.
Lemma holds_addCell merge (g g' : vgrid C) p c : holds (cells g) -> P c ->
  addCell merge g p c false = Ok g' -> holds (cells g').
Proof.
  intros H HC E. unfold addCell in E. apply bind_ok_inv in E. destruct E as (g1 & E1 & E).
  assert (H1 : holds (cells g1)).
  { unfold enlargeToFit in E1. destruct (isInside g p); [injection E1 as <-; exact H|].
    eapply holds_enlargeGrid; eauto. }
  apply bind_ok_inv in E. destruct E as (i & _ & E). apply bind_ok_inv in E. destruct E as (o & _ & E).
  destruct o; injection E as <-; cbn [cells with_cells with_valid]; apply holds_upd; auto; intros c9 E9; congruence.
Qed.
Lemma holds_touch dflt l i l' : P dflt -> holds l -> touch dflt l i = Ok l' -> holds l'.
Proof.
  intros HD H E. unfold touch in E. apply bind_ok_inv in E. destruct E as ([c|] & _ & E); injection E as <-; auto.
  apply holds_upd; auto. intros c E0. congruence.
Qed.
Lemma holds_rayTrace dflt (g : vgrid C) s e r : P dflt -> holds (cells g) -> rayTrace dflt g s e = Ok r -> holds (cells (fst r)).
Proof.
  intros HD H E. unfold rayTrace in E. destruct (negb (isInside g s)); [injection E as <-; exact H|].
  apply bind_ok_inv in E. destruct E as (i0 & _ & E). apply bind_ok_inv in E. destruct E as (l0 & E0 & E).
  destruct (Qeq_bool (ray_len g s e) 0); [discriminate|].
  assert (H0 : holds l0) by (eapply holds_touch; eauto).
  assert (ST : forall n st, holds (r_cells st) ->
     match iter_N n (rayStep dflt g (ray_delta g s e)) st with
     | Next st' | Break st' => holds (r_cells st') | Fail => True end).
  { intros n st. rewrite iter_N_nat. revert st. induction (N.to_nat n) as [|m IH]; intros st HS; cbn [iter_nat]; [exact HS|].
    unfold rayStep at 1.
    assert (PU : forall l out, (if r_cur st =? r_old st then Ok (r_cells st, r_res st)
        else do l <- touch dflt (r_cells st) (r_cur st); Ok (l, r_res st ++ [r_cur st])) = Ok (l, out) -> holds l).
    { intros l out. destruct (r_cur st =? r_old st); [intro Y; injection Y as <- _; exact HS|].
      intro Y. apply bind_ok_inv in Y. destruct Y as (l1 & EL & Y). injection Y as <- _. eapply holds_touch; eauto. }
    destruct (if r_cur st =? r_old st then _ else _) as [[l out]| |]; [|exact I|exact I].
    specialize (PU l out eq_refl).
    destruct (_ || _); [exact PU|].
    destruct (calcIndex g _) as [j| |]; [|exact I|exact I]. apply IH. exact PU. }
  specialize (ST (ray_count g s e) (mkRay l0 [i0] s i0 i0) H0).
  destruct (iter_N _ _ _) as [st|st|]; [| |discriminate]; injection E as <-; exact ST.
Qed.
Lemma holds_valid (g : vgrid C) c : holds (cells g) -> In c (getValidCells g) -> P c.
Proof.
  intros H. unfold getValidCells.
  assert (G : forall l acc, (forall x, In x acc -> P x) -> holds l ->
     In c (fold_left (fun acc (o : option C) => match o with Some v => acc ++ [v] | None => acc end) l acc) -> P c).
  { induction l as [|o t IH]; intros acc HA HL I; cbn [fold_left] in I; [apply HA; exact I|].
    apply IH in I; [exact I| |intros x Ix; apply HL; right; exact Ix].
    destruct o as [v|]; [|exact HA]. intros x Ix. apply in_app_or in Ix. destruct Ix as [Ix|[<-|[]]]; [auto|].
    apply HL. left. reflexivity. }
  apply G; [intros x []|exact H].
Qed.
End Slots.

Section Grids.
Context {X L : Type}.
Notation cell := (ncell X).
Notation grid := (ngrid X).
Variable merge : cell -> cell -> cell.
Variable dflt : cell.
Variable addPt : cell -> point -> cell.
Variable compute : cell -> cell.
Variable tcell : qtrans L -> cell -> cell.
Variable occRay : cell -> point -> cell -> cell.
Variable btw : qpose -> qpose -> qtrans L.
Variable tp : qtrans L -> point -> point.
Notation mergeInTracedPcl := (mergeInTracedPcl merge dflt addPt compute tcell occRay btw tp).

Section One.
Variable P : cell -> Prop.
Definition good (g : grid) : Prop := holds P (cells (n_vox g)).
Hypothesis PD : P dflt.
Hypothesis PO : forall c s e, P c -> P (occRay c s e).

Lemma good_occSlots start e sl (v v' : vgrid cell) : holds P (cells v) ->
  occSlots occRay v start e sl = Ok v' -> holds P (cells v').
Proof using PO.
  intros H E. unfold occSlots in E. apply bind_ok_inv in E. destruct E as (l & E & F). injection F as <-.
  cbn [cells with_cells]. revert E. apply (foldM_inv (holds P)); [|exact H].
  intros l1 i l2 _ H1 E. apply bind_ok_inv in E. destruct E as ([c|] & EC & E); [|discriminate].
  eapply holds_vset; [exact H1| |exact E]. intros c0 E0. injection E0 as <-. apply PO.
  eapply holds_vget; [exact H1|exact EC|reflexivity].
Qed.
Lemma good_traceCell start (v v' : vgrid cell) e : holds P (cells v) ->
  traceCell dflt occRay start v e = Ok v' -> holds P (cells v').
Proof using PD PO.
  intros H E. unfold traceCell in E. destruct (nc_gauss e); [|injection E as <-; exact H].
  apply bind_ok_inv in E. destruct E as (r & ER & E). eapply good_occSlots; [|exact E].
  eapply holds_rayTrace; eauto.
Qed.
Lemma good_mergeInCells (g g' : grid) l b : good g -> (forall c, In c l -> P c) -> b = true ->
  mergeInCells merge g l b = Ok g' -> good g'.
Proof using Type.
  intros H HL -> E. unfold mergeInCells in E. cbn [orb] in E.
  destruct (bbox (map nc_mean l)) as [[[x0 y0] x1] y1].
  apply bind_ok_inv in E. destruct E as (v0 & E0 & E). apply bind_ok_inv in E. destruct E as (v1 & E1 & E).
  injection E as <-. unfold good. cbn [updateMeans n_vox].
  revert E1. apply (foldM_inv (fun v => holds P (cells v))); [|eapply holds_enlarge; eauto].
  intros v c v' IC HV E. destruct (nc_gauss c); [|injection E as <-; exact HV].
  eapply holds_addCell; [exact HV|apply HL; exact IC|exact E].
Qed.
Lemma good_mergeInTraced (g f g' : grid) tr : good g ->
  (forall c, In c (getValidCells (n_vox f)) ->
     P (if tr : bool then tcell (btw (n_pose f) (n_pose g)) c else c)) ->
  mergeInTraced merge dflt tcell occRay btw tp g f tr true = Ok g' -> good g'.
Proof using PD PO.
  intros H HF E. unfold mergeInTraced in E. apply bind_ok_inv in E. destruct E as (v & EV & E).
  eapply good_mergeInCells; [| |reflexivity|exact E].
  - unfold good. cbn [with_vox n_vox]. revert EV. apply (foldM_inv (fun v => holds P (cells v))); [|exact H].
    intros v1 c v2 _ H1 E1. eapply good_traceCell; eauto.
  - destruct tr; [|exact HF]. intros c I. unfold transformNDTCells in I. apply in_map_iff in I.
    destruct I as (c0 & <- & I). apply HF. exact I.
Qed.
End One.

(** The cells of a scan are made of points of that scan. *)
Definition made_of (pcl : list (option point)) (c : cell) : Prop :=
  exists ps, c = compute (fold_left addPt ps dflt) /\ forall p, In p ps -> In (Some p) pcl.
Lemma createGrid_cells (g l : grid) pcl c : createGrid merge dflt addPt compute g pcl = Ok l ->
  In c (getValidCells (n_vox l)) -> made_of pcl c.
Proof.
  intros E. apply (holds_valid (made_of pcl)). revert E. unfold createGrid.
  destruct (bbox (reals pcl)) as [[[x0 y0] x1] y1]. intro E.
  apply bind_ok_inv in E. destruct E as (v0 & E0 & E). apply bind_ok_inv in E. destruct E as (v1 & E1 & E).
  injection E as <-. cbn [with_vox n_vox computeNDTCells cells with_cells].
  set (Q := fun c : cell => exists ps, c = fold_left addPt ps dflt /\ forall p, In p ps -> In (Some p) pcl).
  assert (QD : Q dflt) by (exists []; split; [reflexivity|intros p []]).
  assert (H : holds Q (cells v1)).
  { revert E1. apply (foldM_inv (fun v => holds Q (cells v))).
    - intros v o v' IO HV E. destruct o as [p|]; [|injection E as <-; exact HV].
      assert (UP : forall va vb, holds Q (cells va) -> updAt va p (fun c => addPt c p) = Ok vb -> holds Q (cells vb)).
      { intros va vb HA EU. unfold updAt in EU. apply bind_ok_inv in EU. destruct EU as (i & _ & EU).
        apply bind_ok_inv in EU. destruct EU as ([c0|] & EC & EU); [|discriminate]. injection EU as <-.
        cbn [cells with_cells]. apply holds_upd; [exact HA|]. intros c1 E1. injection E1 as <-.
        destruct (holds_vget Q _ _ _ c0 HA EC eq_refl) as (ps & -> & HP). exists (ps ++ [p]). split.
        - rewrite fold_left_app. reflexivity.
        - intros q I. apply in_app_or in I. destruct I as [I|[<-|[]]]; auto. }
      unfold addPoint in E. apply bind_ok_inv in E. destruct E as ([|] & _ & E); [eapply UP; eauto|].
      apply bind_ok_inv in E. destruct E as (v2 & E2 & E). eapply UP; [|exact E].
      eapply holds_addCell; [exact HV|exact QD|exact E2].
    - eapply holds_enlarge; [|exact E0]. cbn. intros c0 [I|[]]. injection I as <-. exact QD. }
  intros c0 I. apply in_map_iff in I. destruct I as ([c1|] & E & I); [|discriminate].
  injection E as <-. destruct (H c1 I) as (ps & -> & HP). exists ps. auto.
Qed.

(** Adding a scan to a frame. *)
Lemma good_mergePcl (P : cell -> Prop) (g g' : grid) pcl o : P dflt -> (forall c s e, P c -> P (occRay c s e)) ->
  good P g -> (forall c, made_of (seen_from btw tp g o pcl) c -> P c) ->
  mergeInTracedPcl g pcl o true = Ok g' -> good P g' /\ n_pose g' = n_pose g.
Proof.
  intros PD PO H HM E. unfold GridModel.mergeInTracedPcl in E. apply bind_ok_inv in E. destruct E as (l & EL & E).
  split.
  - eapply good_mergeInTraced; [exact PD|exact PO|exact H| |exact E]. cbn. intros c I. apply HM.
    eapply createGrid_cells; [exact EL|exact I].
  - unfold mergeInTraced in E. apply bind_ok_inv in E. destruct E as (v & _ & E).
    unfold mergeInCells in E. cbn [orb] in E. destruct (bbox _) as [[[x0 y0] x1] y1].
    apply bind_ok_inv in E. destruct E as (v0 & _ & E). apply bind_ok_inv in E. destruct E as (v1 & _ & E).
    injection E as <-. reflexivity.
Qed.
End Grids.
