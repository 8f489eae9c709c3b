(** Proofs: what the messages of the running window have in common. *)
From Coq Require Import Reals Qreals List ZArith QArith Bool Lia Arith Lqa Setoid.
From Verif Require Import Base LinAlg3 GeoModel GeoSpec GeoProofs.
From Verif Require Import GraphModel GraphSpec GraphProofs LoopModel SlamModel SlamSpec SlamProofs AlgModel AlgSpec AlgProofs.
From Verif Require Import VoxelModel VoxelSpec VoxelProofs VoxelOps VoxelAdd VoxelRay GridModel GridSpec GridProofs GridOps ScanSpec ScanProofs MapModel MapSpec MapDraw CellsFrom.
From Verif Require Import SysModel SysSpec SysProofs SysMap SysCloud SysWindow SysHull.
Import ListNotations.
Open Scope nat_scope.
Set Default Proof Using "Type".

(** ** The running window *)
Section System.
Context {X Guess D : Type}.
Notation cell := (ncell X).
Notation grid := (ngrid X).
Notation body := (res grid).
Variable merge : cell -> cell -> cell.
Variable dflt : cell.
Variable addPt : cell -> point -> cell.
Variable compute : cell -> cell.
Variable tcell : qt -> cell -> cell.
Variable occRay : cell -> point -> cell -> cell.
Variable rawOcc : cell -> Q.
Variable btw : qpose -> qpose -> qt.
Variable tp : qt -> point -> point.
Variable noLin : T2.
Variable moveOrigin : qpose -> qt -> qpose.
Variable moveScan : T2 -> point -> point.
Variable dbl : R -> Q.
Variable radius : Q.
Variable le : lenv pose (frame body) M3 Guess D.
Variable se2' : pose -> pose.
Variable odo : M3.
Variable dist : R.

Notation env := (sysEnv merge dflt addPt compute tcell occRay btw tp noLin moveOrigin moveScan dbl radius le se2' odo dist).
Notation yreach := (yreach merge dflt tcell occRay rawOcc btw tp dbl env).
Notation sys := (sys X).
Notation yev := (yev D).
Notation wNew := (wNew merge dflt addPt compute tcell occRay btw tp radius).
Notation wMerge := (wMerge merge dflt addPt compute tcell occRay btw tp noLin moveOrigin dbl).
Notation wMove := (@wMove X dbl).
Notation init := (n_initialize merge dflt addPt compute tcell occRay btw tp).


(** A whole number of cells of 0.25 m *)
Definition cell_steps (o : qpose) : Prop :=
  exists a b : Z, (p_x o == inject_Z a * (1#4) /\ p_y o == inject_Z b * (1#4))%Q.
Record MI (y : sys) : Prop := {
  mi_win : forall g, a_win (y_alg y) = Some (Ok g) ->
    p_th (n_pose g) = 0%Q /\ n_cs g = 1#4 /\ cell_steps (n_pose g) /\
    n_means g = Some (map nc_mean (getGaussianCells g))
}.
Lemma move_steps (g g' : grid) (t t' : qt) : p_th (n_pose g) = 0%Q -> n_cs g = 1#4 -> cell_steps (n_pose g) ->
  n_move g t = Ok (g', t') -> p_th (n_pose g') = 0%Q /\ n_cs g' = 1#4 /\ cell_steps (n_pose g').
Proof.
  intros TH CS (a & b & A & B) E. unfold n_move in E. destruct (Qlt_b _ _); [injection E as <- _; unfold cell_steps; eauto 8|].
  apply bind_ok_inv in E. destruct E as (kx & EX & E). apply bind_ok_inv in E. destruct E as (ky & EY & E).
  assert (ST : cell_steps (mkPose (p_x (n_pose g) + inject_Z (steps kx) * n_cs g) (p_y (n_pose g) + inject_Z (steps ky) * n_cs g) (p_th (n_pose g)))).
  { exists (a + steps kx)%Z, (b + steps ky)%Z. cbn [p_x p_y]. rewrite CS, A, B, !inject_Z_plus. split; ring. }
  destruct kx as [kx|], ky as [ky|];
    try (apply bind_ok_inv in E; destruct E as (v & EV & E); injection E as <- _; cbn [updateMeans n_pose n_cs p_th]; auto).
  injection E as <- _. unfold cell_steps. eauto 8.
Qed.

Lemma MI_reach h y : yreach h y -> MI y.
Proof.
  induction 1 as [|h y e y' R IH S].
  { split. cbn. discriminate. }
  pose proof (yreach_AI _ _ _ _ _ _ _ _ _ _ _ _ _ _ _ _ _ _ h y R) as A.
  destruct S as [i ts a' evs m' o' U DM]. destruct IH as [IO]. split. cbn [y_alg].
  intros g EW. unfold update in U.
  destruct (a_init (y_alg y)) eqn:AI0.
  - destruct (a_win (y_alg y)) as [w|] eqn:AW; [|discriminate].
    destruct (movedEnough _).
    + destruct (i_match i) as [reg|] eqn:MT.
      * apply bind_ok_inv in U. destruct U as ([a1 ev1] & UG & U). cbn [fst snd] in U.
        destruct (w_move env (w_merge env w (i_scan i) reg) reg) as [w2 c] eqn:WM. injection U as <- <-.
        cbn [setWindow a_win] in *. injection EW as ->.
        assert (MS : exists g1, w_merge env w (i_scan i) reg = Ok g1).
        { cbn [w_move sysEnv] in WM. unfold SysModel.wMove in WM.
          destruct (w_merge env w (i_scan i) reg) as [g1| |]; [eauto|discriminate|discriminate]. }
        destruct MS as [g1 EG1]. rewrite EG1 in WM. cbn [w_merge sysEnv] in EG1.
        destruct (wMerge_header _ _ _ _ _ _ _ _ _ _ _ _ _ _ _ EG1) as (g0 & -> & PO & PC).
        destruct (IO g0 eq_refl) as (TH & CS & ST & MM). cbn [w_move sysEnv] in WM. unfold SysModel.wMove in WM. cbn [bind] in WM.
        destruct (n_move g1 (toQ dbl reg)) as [[g2 t2]| |] eqn:EM; [|discriminate|discriminate]. injection WM as <- _.
        cbn [fst] in *. rewrite <- PO in TH, ST. rewrite <- PC in CS.
        destruct (move_steps _ _ _ _ TH CS ST EM) as (TH2 & CS2 & ST2). do 3 (split; [assumption|]).
        eapply move_means; [|exact EM].
        unfold SysModel.wMerge in EG1. cbn [bind] in EG1. apply bind_ok_inv in EG1. destruct EG1 as (l & _ & EG1).
        apply bind_ok_inv in EG1. destruct EG1 as (l' & _ & EG1). eapply traced_means. exact EG1.
      * apply bind_ok_inv in U. destruct U as ([a1 ev1] & UG & U). cbn [fst snd] in U. injection U as <- <-.
        apply IO. rewrite <- EW. symmetry. destruct A as [C _ _ _].
        assert (C' : AC env (setUnused (y_alg y) t2id) (events h)) by (destruct C; split; assumption).
        destruct (updateGraph_ok _ _ _ _ _ _ _ _ C' UG) as (_ & _ & _ & _ & W & _). rewrite W. exact AW.
    + injection U as <- <-. cbn [setUnused a_win] in EW. apply IO. rewrite <- EW. symmetry. exact AW.
  - injection U as <- <-. cbn [firstScan a_win w_new sysEnv] in EW. injection EW as EW.
    destruct (wNew_header _ _ _ _ _ _ _ _ _ _ _ EW) as [PO CS]. rewrite PO.
    unfold SysModel.wNew in EW. apply bind_ok_inv in EW. destruct EW as (g0 & E0 & EW).
    split; [reflexivity|]. split; [exact CS|]. split; [exists 0%Z, 0%Z; cbn; split; reflexivity|].
    unfold n_initialize, mergeInTracedPcl in EW. apply bind_ok_inv in EW. destruct EW as (l & _ & EW).
    eapply traced_means. exact EW.
Qed.

(** The two messages about the window. *)
Lemma window_pair h y ts n (m : @grid_msg X) l : nc_gauss dflt = false -> yreach h y ->
  getNDTMap dflt btw tp y = Ok (ts, n, m) -> getPclMap2 dflt btw tp y = Ok l ->
  gm_cell m = 1#4 /\
  exists o, p_th o = 0%Q /\ cell_steps o /\
    l = map (fun c => tp (btw o (mkPose 0 0 0)) (nc_mean c)) (filter nc_gauss (gm_cells m)).
Proof.
  intros DG R W C. destruct (MI_reach h y R) as [IO]. unfold getNDTMap in W. unfold getPclMap2 in C.
  destruct (a_win (y_alg y)) as [w|].
  - apply bind_ok_inv in W. destruct W as (g & -> & W). cbn [bind] in C. injection W as _ _ <-.
    destruct (IO g eq_refl) as (TH & CS & ST & MM). cbn [n_serialize gm_cell gm_cells]. split; [exact CS|].
    exists (n_pose g). split; [exact TH|]. split; [exact ST|]. unfold getMeansTransformed in C. rewrite MM in C.
    injection C as <-. rewrite map_map. reflexivity.
  - injection W as _ _ <-. split; [reflexivity|]. exists (mkPose 0 0 0). split; [reflexivity|].
    split; [exists 0%Z, 0%Z; cbn; split; reflexivity|]. cbn in C. injection C as <-. cbn. rewrite ?DG. reflexivity.
Qed.
End System.
