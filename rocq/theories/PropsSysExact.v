(** C135: what every frame and the map hold, square by square (property statements;
    vocabulary in SysExactSpec.v, BeamSpec.v and SysSpec.v, proofs in SysExact.v). *)
From Coq Require Import Reals Qreals Lqa List ZArith QArith Bool Arith Sorting.Permutation.
From Verif Require Import Base LinAlg3 GeoModel GeoSpec.
From Verif Require Import GraphModel LoopModel SlamModel AlgModel AlgSpec AlgCases.
From Verif Require Import VoxelModel VoxelSpec GridModel GridSpec GridCases ScanSpec ScanInit BeamSpec MapModel MapSpec.
From Verif Require Import SysModel SysSpec SysMap SysCloud SysCases SysExactSpec SysExact.
Import ListNotations.
Open Scope nat_scope.

Section Sys.
Context {X Guess D : Type}.
Notation cell := (ncell X).
Notation body := (res (ngrid X)).
(** as in PropsSys.v *)
Variable merge : cell -> cell -> cell.
Variable dflt : cell.
Variable addPt : cell -> point -> cell.
Variable compute : cell -> cell.
Variable tcell : qtrans T2 -> cell -> cell.
Variable occRay : cell -> point -> cell -> cell.
Variable rawOcc : cell -> Q.
Variable btw : qpose -> qpose -> qtrans T2.
Variable tp : qtrans T2 -> point -> point.
Variable noLin : T2.
Variable moveOrigin : qpose -> qtrans T2 -> qpose.
Variable moveScan : T2 -> point -> point.
Variable dbl : R -> Q.
Variable radius : Q.
Variable le : lenv pose (frame body) M3 Guess D.
Variable se2' : pose -> pose.
Variable odo : M3.
Variable dist : R.
Notation env := (sysEnv merge dflt addPt compute tcell occRay btw tp noLin moveOrigin moveScan dbl radius le se2' odo dist).
Notation yreach := (yreach merge dflt tcell occRay rawOcc btw tp dbl env).
Notation fill := (fill merge dflt addPt compute tcell occRay btw tp moveScan dbl).
Notation addToMap := (addToMap merge dflt tcell occRay btw tp).
Notation frame_of := (frame_of merge dflt addPt compute tcell occRay btw tp moveScan dbl).
Notation in_frame := (in_frame btw tp moveScan dbl).
Notation sensor_of := (sensor_of btw tp dbl).
Notation sensor_at := (sensor_at btw tp).
Notation placed := (placed tcell btw).

(** Frames.  The frame of node [k] and the current one are what [fill] makes of their
    scans (C101), and it makes it scan by scan: where the next scan has a distribution
    that distribution replaces what was there, and everywhere else the square gets one
    free-space update for every beam of that scan through it (the very first frame is
    emptied before its first scan). *)
Theorem C135_frames : forall h y k,
  (forall p, moveScan t2id p = p) -> dbl 0 = 0%Q ->
  means_average dflt addPt compute -> (forall o, peq (tp (btw o o) (0, 0)%Q) (0, 0)%Q) ->
  yreach h y -> Forall (scan_ok dflt addPt compute btw tp moveScan dbl) (scans_of h k) ->
  (exists g, fill (k =? 0) (scans_of h k) = Ok g) /\
  forall l1 s l2, scans_of h k = l1 ++ s :: l2 ->
  exists g g' bs, fill (k =? 0) l1 = Ok g /\ fill (k =? 0) (l1 ++ [s]) = Ok g' /\ grows (n_vox g) (n_vox g') /\
    scan_beams dflt addPt compute (1#4) (in_frame s) bs /\
    forall c hit, seen_through (n_vox g) (sensor_of s) bs c hit -> content (n_vox g') c =
      match scan_cell dflt addPt compute (1#4) (in_frame s) c with
      | Some x => Some x
      | None => evidence dflt occRay (sensor_of s) (filter hit bs)
                  (if (k =? 0) && (length l1 =? 0) then None else content (n_vox g) c)
      end.
Proof.
  intros h y k MV Z0 MA SELF.
  exact (frames_exact merge dflt addPt compute tcell occRay rawOcc btw tp noLin moveOrigin moveScan dbl radius le se2' odo dist MV Z0 MA SELF h y k).
Qed.

(** The map.  It is drawn frame by frame: a frame whose sensor lies in the window of the
    map so far gives every square one free-space update for each of its beams through it,
    one from outside gives none; then its distributions replace what is in their squares,
    the last one of a square winning.  The published cloud is exactly the means of the
    distributions in the resulting map, and the published occupancy grid is made of it. *)
Theorem C135_map : forall h y, yreach h y ->
  exists order fs g0,
    Permutation order (born h) /\ (clock h -> order = born h) /\
    allOk (map (frame_of h (y_alg y)) order) = Ok fs /\ blank dflt g0 /\
    ((forall f, In f fs -> frame_ok tcell btw tp f) ->
     (forall f1 f f2, fs = f1 ++ f :: f2 ->
        exists g g', foldM addToMap f1 g0 = Ok g /\ foldM addToMap (f1 ++ [f]) g0 = Ok g' /\ grows (n_vox g) (n_vox g') /\
          forall c c0 hit, in_cell map_res c0 (sensor_at f) -> seen_through (n_vox g) (sensor_at f) (placed f) c hit ->
            content (n_vox g') c =
            latest (if in_box (n_vox g) c0 then evidence dflt occRay (sensor_at f) (filter hit (placed f)) (content (n_vox g) c)
                    else content (n_vox g) c) (landing map_res c (placed f))) /\
     (fs <> [] -> exists g, foldM addToMap fs g0 = Ok g /\
        m_occ (y_map y) = createOccupancyGrid rawOcc btw tp g /\
        forall p, In p (getPclMap (y_map y)) <->
          exists c v, content (n_vox g) c = Some v /\ nc_gauss v = true /\ p = tp (btw world world) (nc_mean v))).
Proof. exact (map_exact merge dflt addPt compute tcell occRay rawOcc btw tp noLin moveOrigin moveScan dbl radius le se2' odo dist). Qed.
End Sys.
Print Assumptions C135_frames.
Print Assumptions C135_map.

(** The conditions are weaker than those of C100 and C101: beams need not be a cell long. *)
Theorem C135_wider_scan {X} (dflt : ncell X) addPt compute btw tp moveScan dbl s :
  clean dflt addPt compute btw tp moveScan dbl s -> scan_ok dflt addPt compute btw tp moveScan dbl s.
Proof. intros [A B]. split; [exact A|]. intros c x E. destruct (B c x E) as [L _]. apply Qlt_le_trans with 1%Q; [reflexivity|exact L]. Qed.
Print Assumptions C135_wider_scan.
Theorem C135_wider_frame {X} (tcell : qtrans T2 -> ncell X -> ncell X) btw tp f :
  drawable tcell btw tp f -> frame_ok tcell btw tp f.
Proof. intros (A & B & R). split; [exact A|]. split; [exact B|]. intros e I G. destruct (R e I G) as [L _]. apply Qlt_le_trans with 1%Q; [reflexivity|exact L]. Qed.
Print Assumptions C135_wider_frame.

(** The robot of C100 and C101: two nodes, a loop, a current frame with two scans. *)
Example C135_case : exists y, zreach zh y /\ clock zh /\
  allOk (map (frame_of pmerge pdflt padd pcompute ztrans pray zbtw ztp zmove zdbl zh (y_alg y)) (born zh)) = Ok zfs /\
  (forall f, In f zfs -> frame_ok ztrans zbtw ztp f) /\
  Forall (scan_ok pdflt padd pcompute zbtw ztp zmove zdbl) (scans_of zh 0) /\
  Forall (scan_ok pdflt padd pcompute zbtw ztp zmove zdbl) (scans_of zh 2) /\ length (scans_of zh 2) = 2 /\
  (forall p, zmove t2id p = p) /\ zdbl 0 = 0%Q /\ means_average pdflt padd pcompute /\
  (forall o, peq (ztp (zbtw o o) (0, 0)%Q) (0, 0)%Q).
Proof.
  destruct zcase100 as (y & R & C & _ & _ & _ & A & DR & _). destruct zcase101 as (C0 & C2 & L & MV & Z0 & MA & SELF).
  exists y. split; [exact R|]. split; [exact C|]. split; [exact A|].
  split; [intros f I; apply C135_wider_frame; apply DR; exact I|].
  split; [revert C0; apply Forall_impl; apply C135_wider_scan|].
  split; [revert C2; apply Forall_impl; apply C135_wider_scan|]. auto.
Qed.
