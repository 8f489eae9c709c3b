(** C148: the same messages with other time stamps. *)
From Coq Require Import Reals Qreals List ZArith QArith Bool Lia.
From Verif Require Import Base LinAlg3 GeoModel GraphModel LoopModel SlamModel AlgModel AlgCases NodeModel.
From Verif Require Import VoxelModel GridModel MapModel GridSpec ScanSpec ScanInit ExportModel SysModel RunModel SysCases RunCases RetimeSpec RetimeProofs.
Import ListNotations.
Open Scope nat_scope.

Section Props.
Context {X Guess D : Type}.
Notation cell := (ncell X).
Notation body := (res (ngrid X)).
Variable merge : cell -> cell -> cell.
Variable dflt : cell.
Variable addPt : cell -> point -> cell.
Variable compute : cell -> cell.
Variable tcell : qtrans T2 -> cell -> cell.
Variable occRay : cell -> point -> cell -> cell.
Variable rawOcc : cell -> Q.
Variable btw : qpose -> qpose -> qtrans T2.
Variable tp : qtrans T2 -> point -> point.
Variable noLin : T2.
Variable moveOrigin : qpose -> qtrans T2 -> qpose.
Variable moveScan : T2 -> point -> point.
Variable dbl : R -> Q.
Variable radius : Q.
Variable le : lenv pose (frame body) M3 Guess D.
Variable se2' : pose -> pose.
Variable odo : M3.
Variable dist : R.
Variable oob : option bool.
Variable ser : bool.
Notation env := (sysEnv merge dflt addPt compute tcell occRay btw tp noLin moveOrigin moveScan dbl radius le se2' odo dist).
Notation rreach := (rreach merge dflt tcell occRay rawOcc btw tp dbl oob ser env).

(** Read the stamps of all messages off another clock, any that does not go backwards: the
    same run is possible, with the same calls of the algorithm and the same effects of them,
    and everything published is the same but for the stamps, which are those of the same
    messages on the other clock (or the 0 of the constructors in both runs).  The program ends
    with the same poses. *)
Theorem C148_other_clock : forall (g : Z -> Z) t h r, forward g -> rreach t h r ->
  exists t' h' r', rreach t' h' r' /\ map fst t' = map (retime g) (map fst t) /\
    Forall2 (Forall2 (retimed g)) (map snd t) (map snd t') /\ Forall2 (recall g) h h' /\
    y_alg (r_sys r') = y_alg (r_sys r) /\ r_odom r' = r_odom r /\ r_tf r' = r_tf r.
Proof.
  intros g t h r G H. destruct (rreach_sim merge dflt tcell occRay rawOcc btw tp dbl oob ser env g G t h r H) as (t' & h' & r' & R & S & A & B & C).
  exists t', h', r'. destruct S as ((S1 & _) & _ & S2 & S3). auto 10.
Qed.

(** In particular nothing depends on when the run is started. *)
Theorem C148_started_later : forall (d : Z) t h r, rreach t h r ->
  exists t' h' r', rreach t' h' r' /\ map fst t' = map (retime (fun z => z + d)%Z) (map fst t) /\
    Forall2 (Forall2 (retimed (fun z => z + d)%Z)) (map snd t) (map snd t') /\
    y_alg (r_sys r') = y_alg (r_sys r) /\ r_tf r' = r_tf r.
Proof.
  intros d t h r H. destruct (C148_other_clock (fun z => z + d)%Z t h r) as (t' & h' & r' & A & B & C & _ & E & _ & F); [|exact H|].
  - intros a b L. lia.
  - exists t', h', r'. auto 10.
Qed.
End Props.
Print Assumptions C148_other_clock.
Print Assumptions C148_started_later.

(** Stamps doubled and moved: every run, as the one of C105_case with its two messages, meets
    the hypotheses. *)
Example C148_case : forward (fun z => 2 * z + 100)%Z /\
  exists r, zrun ztrace zcalls r /\ length ztrace >= 2 /\
    map (fun mo => ms_time (fst mo)) ztrace <> map (fun mo => ms_time (retime (fun z => 2 * z + 100)%Z (fst mo))) ztrace.
Proof.
  split; [intros a b L; lia|]. destruct zrun_ok as (r & R & _). exists r. split; [exact R|]. split; [cbn; lia|]. vm_compute. discriminate.
Qed.
