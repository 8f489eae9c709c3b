(** C116: how large the running window is. *)
From Coq Require Import Reals Qreals List ZArith QArith Bool Lia Arith Lqa.
From Verif Require Import Base LinAlg3 GeoModel GeoSpec.
From Verif Require Import GraphModel LoopModel SlamModel AlgModel AlgSpec AlgCases.
From Verif Require Import VoxelModel VoxelSpec GridModel GridSpec ScanSpec ScanInit MapModel MapSpec.
From Verif Require Import SysModel SysSpec SysCases WinSpec WinSize WinSizeCases.
Import ListNotations.
Open Scope nat_scope.

Section Size.
Context {X Guess D : Type}.
Notation cell := (ncell X).
Notation grid := (ngrid X).
Variable merge : cell -> cell -> cell.
Variable dflt : cell.
Variable addPt : cell -> point -> cell.
Variable compute : cell -> cell.
Variable tcell : qt -> cell -> cell.
Variable occRay : cell -> point -> cell -> cell.
Variable rawOcc : cell -> Q.
Variable btw : qpose -> qpose -> qt.
Variable tp : qt -> point -> point.
Variable noLin : T2.
Variable moveOrigin : qpose -> qt -> qpose.
Variable moveScan : T2 -> point -> point.
Variable dbl : R -> Q.
Variable radius : Q.
Variable le : lenv pose (frame (res grid)) M3 Guess D.
Variable se2' : pose -> pose.
Variable odo : M3.
Variable dist : R.
Notation env := (sysEnv merge dflt addPt compute tcell occRay btw tp noLin moveOrigin moveScan dbl radius le se2' odo dist).
Notation yreach := (yreach merge dflt tcell occRay rawOcc btw tp dbl env).
Notation ystep := (ystep merge dflt tcell occRay rawOcc btw tp dbl env).

(** At any time the window covers the square of the configured radius around its origin,
    and the message says so. *)
Theorem C116_covers : forall h y g, yreach h y -> a_win (y_alg y) = Some (Ok g) ->
  (forall p, inbox radius p -> isInside (n_vox g) p = true) /\
  forall t n m, getNDTMap dflt btw tp y = Ok (t, n, m) ->
    (2 * radius <= fst (gm_size m) /\ 2 * radius <= snd (gm_size m))%Q.
Proof.
  intros h y g R W. destruct (window_spans _ _ _ _ _ _ _ _ _ _ _ _ _ _ _ _ _ _ h y R g W) as (C & CS & SP).
  destruct (spans_inside _ _ SP) as [A B]. split; [exact A|]. intros t n m E. unfold getNDTMap in E. rewrite W in E.
  injection E as _ _ <-. cbn [n_serialize gm_size fst snd]. rewrite CS. rewrite C in B. exact B.
Qed.
(** A call never makes the window smaller: what lay inside, as seen from the origin of
    the window, still does. *)
Theorem C116_never_smaller : forall h y e y' g g', yreach h y -> ystep y e y' ->
  a_win (y_alg y) = Some (Ok g) -> a_win (y_alg y') = Some (Ok g') ->
  forall p, isInside (n_vox g) p = true -> isInside (n_vox g') p = true.
Proof.
  intros h y e y' g g' R S W W'.
  assert (CS : forall g, a_win (y_alg y) = Some (Ok g) -> cell_size (n_vox g) = 1#4).
  { intros g0 W0. apply (window_spans _ _ _ _ _ _ _ _ _ _ _ _ _ _ _ _ _ _ h y R g0 W0). }
  pose proof (step_grown _ _ _ _ _ _ _ _ _ _ _ _ _ _ _ _ _ _ h y e y' g g' R S CS W W') as G.
  intros p I. eapply grown_inside; [|exact G|exact I]. rewrite (CS g W). reflexivity.
Qed.
(** However long the robot runs, the window does not outgrow the larger of its configured
    radius and the reach of the scans, plus one cell. *)
Theorem C116_bounded : forall rho mu big h y g,
  occ_only occRay -> nc_gauss dflt = false -> bare dflt addPt compute ->
  (forall t c, nc_gauss (tcell t c) = nc_gauss c) ->
  (forall t c, nc_mean (tcell t c) = if nc_gauss c then tp t (nc_mean c) else nc_mean c) ->
  mixes merge -> (forall t, affine (tp t)) -> shifts btw tp -> slides noLin moveOrigin ->
  (0 <= rho)%Q -> (0 <= mu)%Q -> (radius <= big)%Q -> (rho + mu <= big)%Q ->
  yreach h y -> (forall e, In e h -> modest tp dbl rho mu e) -> a_win (y_alg y) = Some (Ok g) ->
  (forall p, isInside (n_vox g) p = true -> inbox (big + (1#4)) p) /\
  forall t n m, getNDTMap dflt btw tp y = Ok (t, n, m) ->
    (fst (gm_size m) < 2 * big + (1#2) /\ snd (gm_size m) < 2 * big + (1#2))%Q.
Proof.
  intros rho mu big h y g OO DG MX TG TM MI AF SH SL R0 M0 BR BM R HM W.
  destruct (window_stays merge dflt addPt compute tcell occRay rawOcc btw tp noLin moveOrigin moveScan dbl radius le se2' odo dist
              OO DG MX TG TM MI AF SH SL rho mu big R0 M0 BR BM h y R HM g W) as [_ ST].
  destruct (window_spans _ _ _ _ _ _ _ _ _ _ _ _ _ _ _ _ _ _ h y R g W) as (C & CS & SP).
  destruct (stays_inside _ _ ST) as [A B]. rewrite C in A, B. split; [exact A|]. intros t n m E. unfold getNDTMap in E. rewrite W in E.
  injection E as _ _ <-. cbn [n_serialize gm_size fst snd]. rewrite CS.
  destruct B as [B1 B2]. split; lra.
Qed.
End Size.
Print Assumptions C116_covers.
Print Assumptions C116_never_smaller.
Print Assumptions C116_bounded.

(** The configured radius does not limit the window: with a radius of 1 a scan of an
    obstacle 3 away makes a window that reaches that far. *)
Theorem C116_radius_refuted : exists h y g p, zreach h y /\ a_win (y_alg y) = Some (Ok g) /\
  isInside (n_vox g) p = true /\ ~ inbox (1 + (1#4)) p.
Proof.
  destruct zreach_h2 as (y & R & W & _). exists zh2, y, zw0, (3, 1)%Q. split; [exact R|]. split; [exact W|].
  split; [vm_compute; reflexivity|]. intros [[_ A] _]. cbn [fst] in A. lra.
Qed.
Print Assumptions C116_radius_refuted.

(** The robot of the other examples: it makes a window with radius 1 and sees 4 far. *)
Example C116_case : exists y g, zreach zh y /\ a_win (y_alg y) = Some (Ok g) /\
  (forall e, In e zh -> modest ztp zdbl 4 2 e) /\
  isInside (n_vox g) (3, 1)%Q = true /\ isInside (n_vox g) (7, 0)%Q = false.
Proof. exact zcase116. Qed.
Example C116_hypotheses : occ_only pray /\ nc_gauss pdflt = false /\ bare pdflt padd pcompute /\
  (forall t c, nc_gauss (ztrans t c) = nc_gauss c) /\
  (forall t c, nc_mean (ztrans t c) = if nc_gauss c then ztp t (nc_mean c) else nc_mean c) /\
  mixes pmerge /\ (forall t, affine (ztp t)) /\ shifts zbtw ztp /\ slides t2id zorigin.
Proof. exact zhyps116. Qed.
