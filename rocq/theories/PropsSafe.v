(** C121: the program goes on in general position (property statements; vocabulary in
    SafeSpec.v, proofs in SafeGrid.v and SafeProofs.v, cases in SafeCases.v).

    [quiet t h r]: after receiving the messages in [t] and making the calls [h] the program
    is in state [r], and every call was in general position: no point and no distribution
    lay exactly on a border between squares or exactly where it was seen from. *)
From Coq Require Import Reals Qreals List ZArith QArith Bool Arith.
From Verif Require Import Base LinAlg3 GeoModel GeoSpec.
From Verif Require Import GraphModel LoopModel SlamModel AlgModel AlgSpec AlgCases NodeModel NodeSpec.
From Verif Require Import VoxelModel VoxelSpec GridModel GridSpec ScanSpec ScanInit MapModel MapSpec ExportModel SysModel SysSpec.
From Verif Require Import RunModel RunSpec SysCases RunCases SafeSpec SafeProofs SafeCases.
Import ListNotations.
Open Scope nat_scope.

Section Props.
Context {X Guess D : Type}.
Notation cell := (ncell X).
Notation body := (res (ngrid X)).
Notation msg := (nmsg (option point)).
Variable merge : cell -> cell -> cell.
Variable dflt : cell.
Variable addPt : cell -> point -> cell.
Variable compute : cell -> cell.
Variable tcell : qt -> cell -> cell.
Variable occRay : cell -> point -> cell -> cell.
Variable rawOcc : cell -> Q.
Variable btw : qpose -> qpose -> qt.
Variable tp : qt -> point -> point.
Variable noLin : T2.
Variable moveOrigin : qpose -> qt -> qpose.
Variable moveScan : T2 -> point -> point.
Variable dbl : R -> Q.
Variable radius : Q.
Variable le : lenv pose (frame body) M3 Guess D.
Variable se2' : pose -> pose.
Variable odo : M3.
Variable dist : R.
Variable null nul2 : bool.
Variable ser : bool.
Notation env := (sysEnv merge dflt addPt compute tcell occRay btw tp noLin moveOrigin moveScan dbl radius le se2' odo dist).
Notation rreach := (rreach merge dflt tcell occRay rawOcc btw tp dbl (Some nul2) ser env).
Notation rstep := (rstep merge dflt tcell occRay rawOcc btw tp dbl (Some nul2) ser env).
Notation calm := (@calm X D merge dflt addPt compute tcell occRay btw tp noLin moveOrigin moveScan dbl).
Notation quiet := (quiet merge dflt addPt compute tcell occRay rawOcc btw tp noLin moveOrigin moveScan dbl (Some nul2) ser env).

(** After any number of messages, whatever is accepted next is answered, provided the call
    it leads to is in general position; and nothing the program then holds is undefined.
    Missing: calls that are not (refuted below). *)
Theorem C121_goes_on_partial : forall t h r m i,
  occ_only occRay -> (forall p, moveScan t2id p = p) -> dbl 0 = 0%Q -> means_average dflt addPt compute ->
  (forall o, peq (tp (btw o o) (0, 0)%Q) (0, 0)%Q) -> LoopModel.oob le = Some null ->
  quiet t h r -> call_of r m i -> fresh_input (y_alg (r_sys r)) i ->
  (forall a' evs, update env (y_alg (r_sys r)) i = Ok (a', evs) ->
     calm (r_sys r) a' (mkYE i (inject_Z (ms_time m)) evs)) ->
  exists r' o evs, rstep r m r' o [mkYE i (inject_Z (ms_time m)) evs] /\
    quiet ((m, o) :: t) (mkYE i (inject_Z (ms_time m)) evs :: h) r' /\ whole (r_sys r').
Proof.
  intros t h r m i OO MV DZ MA SELF OB Q C F CM.
  destruct (progress merge dflt addPt compute tcell occRay rawOcc btw tp noLin moveOrigin moveScan dbl radius le se2' odo dist
    OO MV DZ MA SELF null nul2 ser t h r m i Q OB C F CM) as (r' & o & evs & S & Q').
  exists r', o, evs. split; [exact S|]. split; [exact Q'|].
  exact (quiet_whole merge dflt addPt compute tcell occRay rawOcc btw tp noLin moveOrigin moveScan dbl radius le se2' odo dist
    OO MV DZ MA SELF nul2 ser _ _ _ Q').
Qed.
(** Such runs are runs of the program. *)
Theorem C121_is_a_run : forall t h r, quiet t h r -> rreach t h r.
Proof. exact (quiet_run merge dflt addPt compute tcell occRay rawOcc btw tp noLin moveOrigin moveScan dbl radius le se2' odo dist nul2 ser). Qed.
End Props.
Print Assumptions C121_goes_on_partial.
Print Assumptions C121_is_a_run.
(** The hypotheses are met: after its first scan the robot of SysCases.v goes on by 2 m,
    matches the second one and makes its first node. *)
Example C121_example : exists t h r m i, occ_only pray /\ (forall p, zmove t2id p = p) /\ zdbl 0 = 0%Q /\
  means_average pdflt padd pcompute /\ (forall o, peq (ztp (zbtw o o) (0, 0)%Q) (0, 0)%Q) /\
  LoopModel.oob (zlenv true) = Some false /\ length h = 1 /\
  zquiet t h r /\ call_of r m i /\ fresh_input (y_alg (r_sys r)) i /\
  (exists a' evs, update zenv (y_alg (r_sys r)) i = Ok (a', evs) /\ In (ANode 0) evs) /\
  (forall a' evs, update zenv (y_alg (r_sys r)) i = Ok (a', evs) ->
     zcalm (r_sys r) a' (mkYE i (inject_Z (ms_time m)) evs)).
Proof.
  exists zt0, zh0, zr0, (zmsg 2 12), (zin 2 (Some 2%R) 7). split; [exact pray_occ_only|]. split; [exact zmove_id|].
  split; [exact (zdbl_int 0)|]. split; [exact pmeans|]. split; [exact zself|]. split; [reflexivity|]. split; [reflexivity|].
  split; [exact zquiet0|]. split; [exact zcall2|]. split; [exact zfresh2|]. split.
  - destruct zupdate2 as (a1 & U). eexists a1, _. split; [exact U|]. right; left; reflexivity.
  - intros a' evs. apply zcalm2.
Qed.
(** "Every accepted message is answered" is false: a first scan in which six beams end
    on a border between two squares, or surround the robot at equal distances, is accepted
    and leaves a window that is undefined; no accepted message is answered after it. *)
Theorem C121_stops_refuted : forall s, s = zborder \/ s = zaround -> forall t0 x0,
  accepted (smsg s t0 x0) <> None /\
  exists h r, zrun [(smsg s t0 x0, [RTf t0 None])] h r /\ ~ whole (r_sys r) /\
    forall m r' o c, accepted m <> None -> ~ zstep r m r' o c.
Proof.
  intros s E t0 x0. assert (L : (400 <=? Z.of_nat (length s))%Z = true) by (destruct E as [-> | ->]; vm_compute; reflexivity).
  split; [unfold accepted, smsg; cbn [ms_tf ms_scan]; rewrite L; discriminate|].
  apply stuck; destruct E as [-> | ->]; first [vm_compute; reflexivity|exact zborder_stuck|exact zaround_stuck].
Qed.
Print Assumptions C121_stops_refuted.
