(** C127: the size of the published map. *)
From Coq Require Import Reals Qreals List ZArith QArith Bool Arith.
From Verif Require Import Base LinAlg3 GeoModel GeoSpec.
From Verif Require Import GraphModel LoopModel SlamModel AlgModel AlgSpec.
From Verif Require Import VoxelModel VoxelSpec GridModel GridSpec GridCases MapModel MapSpec MapCases.
From Verif Require Import SysModel SysSpec WinSpec ExtSpec ExtProofs.
Import ListNotations.
Open Scope nat_scope.

Section Mapper.
Context {X L : Type}.
Notation cell := (ncell X).
Variable merge : cell -> cell -> cell.
Variable dflt : cell.
Variable tcell : qtrans L -> cell -> cell.
Variable occRay : cell -> point -> cell -> cell.
Variable rawOcc : cell -> Q.
Variable btw : qpose -> qpose -> qtrans L.
Variable tp : qtrans L -> point -> point.
Notation mreach := (mreach merge dflt tcell occRay rawOcc btw tp).
Notation mstep := (MapModel.mstep merge dflt tcell occRay rawOcc btw tp).

(** After any history of the mapper, its map shows every cell that was ever drawn, and if
    all of them were in a square it shows nothing farther than a cell from that square; the
    published message has that size. *)
Theorem C127_map_size : forall ops m, mreach ops m ->
  (forall f c, In f (drawn_in ops) -> In c (placed tcell btw f) -> shows m (nc_mean c)) /\
  (forall r, 0 <= r -> (forall f, In f (drawn_in ops) -> within tcell btw r f) ->
     (forall p, shows m p -> inbox (r + map_res) p) /\
     (m_frames m <> [] -> let msg := calcOccupancyGridMsg m in
        om_res msg = map_res /\
        qn (om_width msg) * om_res msg < 2 * r + 2 * map_res /\ qn (om_height msg) * om_res msg < 2 * r + 2 * map_res))%Q.
Proof. exact (map_size merge dflt tcell occRay rawOcc btw tp). Qed.
(** It never gets smaller, also when it is drawn again. *)
Theorem C127_never_smaller : forall ops m o m', mreach ops m -> mstep m o m' ->
  (forall p, shows m p -> shows m' p) /\
  (m_frames m <> [] -> om_width (calcOccupancyGridMsg m) <= om_width (calcOccupancyGridMsg m') /\
     om_height (calcOccupancyGridMsg m) <= om_height (calcOccupancyGridMsg m')).
Proof. exact (map_grows merge dflt tcell occRay rawOcc btw tp). Qed.
End Mapper.
Print Assumptions C127_map_size.
Print Assumptions C127_never_smaller.

Section Sys.
Context {X Guess D : Type}.
Notation cell := (ncell X).
Notation body := (res (ngrid X)).
Variable merge : cell -> cell -> cell.
Variable dflt : cell.
Variable addPt : cell -> point -> cell.
Variable compute : cell -> cell.
Variable tcell : qtrans T2 -> cell -> cell.
Variable occRay : cell -> point -> cell -> cell.
Variable rawOcc : cell -> Q.
Variable btw : qpose -> qpose -> qtrans T2.
Variable tp : qtrans T2 -> point -> point.
Variable noLin : T2.
Variable moveOrigin : qpose -> qtrans T2 -> qpose.
Variable moveScan : T2 -> point -> point.
Variable dbl : R -> Q.
Variable radius : Q.
Variable le : lenv pose (frame body) M3 Guess D.
Variable se2' : pose -> pose.
Variable odo : M3.
Variable dist : R.
Notation env := (sysEnv merge dflt addPt compute tcell occRay btw tp noLin moveOrigin moveScan dbl radius le se2' odo dist).
Notation yreach := (yreach merge dflt tcell occRay rawOcc btw tp dbl env).
Notation throughout := (throughout merge dflt tcell occRay rawOcc btw tp dbl env).
Notation present := (present merge dflt addPt compute tcell occRay btw tp moveScan dbl).
Notation frame_of := (frame_of merge dflt addPt compute tcell occRay btw tp moveScan dbl).

(** The whole program: as long as the frames stay in a square, however long it runs and
    however often the graph is optimised, the map stays within a cell of it, and it always
    shows the frames of all nodes where the graph has them now. *)
Theorem C127_program : forall r h y, (0 <= r)%Q ->
  throughout (fun h y => forall f, present h y f -> within tcell btw r f) h y ->
  (forall p, shows (y_map y) p -> inbox (r + map_res) p) /\
  (forall k f c, frame_of h (y_alg y) k = Ok f -> In c (placed tcell btw f) -> shows (y_map y) (nc_mean c)).
Proof. exact (run_map_size merge dflt addPt compute tcell occRay rawOcc btw tp noLin moveOrigin moveScan dbl radius le se2' odo dist). Qed.
(** Every run has such a square. *)
Theorem C127_bounded : forall h y, yreach h y ->
  exists r, (0 <= r)%Q /\ throughout (fun h y => forall f, present h y f -> within tcell btw r f) h y.
Proof. exact (run_bounded merge dflt addPt compute tcell occRay rawOcc btw tp noLin moveOrigin moveScan dbl radius le se2' odo dist). Qed.
End Sys.
Print Assumptions C127_program.
Print Assumptions C127_bounded.

(** A history that draws, is told that a frame moved and draws again; all cells lie within
    five metres. *)
Example C127_case : exists ops m, xreach ops m /\ length (drawn_in ops) = 2 /\
  (forall f, In f (drawn_in ops) -> within xtcell xbtw 5 f) /\ drawn_in ops <> [] /\
  (exists f c, In f (drawn_in ops) /\ In c (placed xtcell xbtw f)) /\ m_frames m <> [].
Proof.
  exists (opsC ++ [MRecalc (m_frames mC) 2]), mD. split; [eapply reach_step; [exact mC_reach|exact mD_step]|].
  split; [vm_compute; reflexivity|]. split; [|split; [discriminate|split]].
  - intros f I c IC. assert (B : forallb (fun f => forallb (fun c => Qle_bool (-5) (fst (nc_mean c)) && Qle_bool (fst (nc_mean c)) 5 && Qle_bool (-5) (snd (nc_mean c)) && Qle_bool (snd (nc_mean c)) 5) (placed xtcell xbtw f)) (drawn_in (opsC ++ [MRecalc (m_frames mC) 2])) = true) by (vm_compute; reflexivity).
    rewrite forallb_forall in B. specialize (B f I). rewrite forallb_forall in B. specialize (B c IC).
    rewrite !andb_true_iff, !Qle_bool_iff in B. unfold inbox. tauto.
  - eexists (frameA (1#10) (1#10) 0), _. split; [left; reflexivity|]. vm_compute. left. reflexivity.
  - intro Z. pose proof (f_equal (@List.length _) Z) as K. vm_compute in K. discriminate.
Qed.
