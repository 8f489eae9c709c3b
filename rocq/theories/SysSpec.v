(** Vocabulary for the whole system: what can be read off the history of calls of
    update() (newest first) with the events of AlgModel.v. *)
From Coq Require Import Reals Qreals List ZArith QArith Bool.
From Verif Require Import Base LinAlg3 GeoModel GeoSpec GraphModel LoopModel SlamModel AlgModel AlgSpec.
From Verif Require Import VoxelModel VoxelSpec GridModel GridSpec ScanSpec MapModel MapSpec SysModel.
Import ListNotations.
Open Scope nat_scope.

Section Spec.
Context {D : Type}.
Notation scan := (list (option point)).
Notation yev := (yev D).

(** All events, newest first. *)
Fixpoint events (h : list yev) : list aev :=
  match h with [] => [] | e :: r => rev (v_evs e) ++ events r end.

(** Nodes with the time of the call that made them, oldest first. *)
Fixpoint born (h : list yev) : list (nat * Q) :=
  match h with
  | [] => []
  | e :: r => born r ++ map (fun id => (id, v_time e)) (made (v_evs e))
  end.

(** A scan that was drawn: the origin of the frame, how the scan was moved inside
    the frame, the scan. *)
Notation stroke := (pose * T2 * scan)%type.
Fixpoint draws (l : list aev) : list (pose * T2) :=
  match l with
  | [] => []
  | ADraw o m :: r => (o, m) :: draws r
  | _ :: r => draws r
  end.
Definition strokes_of (e : yev) : list stroke :=
  map (fun om => (fst om, snd om, i_scan (v_in e))) (draws (v_evs e)).
(** The scans drawn into each frame: newest frame first, in each frame oldest scan
    first.  A call that makes a node begins a new frame with its scan. *)
Fixpoint strokes (h : list yev) : list (list stroke) :=
  match h with
  | [] => []
  | e :: r =>
      match made (v_evs e), strokes r with
      | [], f :: t => (f ++ strokes_of e) :: t
      | [], [] => [strokes_of e]
      | _ :: _, t => strokes_of e :: t
      end
  end.
(** Scans of frame number [k]. *)
Definition scans_of (h : list yev) (k : nat) : list stroke := nth k (rev (strokes h)) [].

(** Successful incremental matches. *)
Fixpoint matches (log : list aev) : nat :=
  match log with
  | [] => 0
  | ARep (KMatch _ _) _ :: r => S (matches r)
  | _ :: r => matches r
  end.
(** Time of the newest call whose scan went into the running window: the first one
    and those that were matched. *)
Definition windowed (l : list aev) : bool :=
  existsb (fun e => match e with ARep KFirst _ | ARep (KMatch _ _) _ => true | _ => false end) l.
Fixpoint window_time (h : list yev) : Q :=
  match h with
  | [] => 0%Q
  | e :: r => if windowed (v_evs e) then v_time e else window_time r
  end.

(** How far the robot says it has gone since the newest scan went into the window. *)
Fixpoint motion_since (h : list yev) : T2 :=
  match h with
  | [] => t2id
  | e :: r => if windowed (v_evs e) then t2id else t2mul (motion_since r) (i_motion (v_in e))
  end.

(** The matcher answers with rigid transforms whose shifts are doubles. *)
Definition sharp (dbl : R -> Q) (h : list yev) : Prop :=
  forall e t, In e h -> i_match (v_in e) = Some t ->
    rigid t /\ Q2R (dbl (tx t)) = tx t /\ Q2R (dbl (ty t)) = ty t.

(** What a frame holds after these scans were added to it one by one: the very
    first frame is initialised with its first scan, the others get all their scans
    through mergeInTraced at the origin of the frame. *)
Section Fill.
Context {X : Type}.
Variable merge : ncell X -> ncell X -> ncell X.
Variable dflt : ncell X.
Variable addPt : ncell X -> point -> ncell X.
Variable compute : ncell X -> ncell X.
Variable tcell : qtrans T2 -> ncell X -> ncell X.
Variable occRay : ncell X -> point -> ncell X -> ncell X.
Variable btw : qpose -> qpose -> qtrans T2.
Variable tp : qtrans T2 -> point -> point.
Variable moveScan : T2 -> point -> point.
Variable dbl : R -> Q.
Definition add_scan (g : ngrid X) (o : pose) (s : scan) : res (ngrid X) :=
  mergeInTracedPcl merge dflt addPt compute tcell occRay btw tp
    (n_setOrigin g (qposeOf dbl o)) s (qposeOf dbl o) true.
Definition fill (first : bool) (l : list stroke) : res (ngrid X) :=
  match l with
  | [] => Ok (newFrame dflt)
  | (o, _, s) :: t =>
      do g <- (if first
               then n_initialize merge dflt addPt compute tcell occRay btw tp (newFrame dflt) s
               else add_scan (newFrame dflt) o s);
      foldM (fun g (x : stroke) => let '(o, m, s) := x in
                                   add_scan g o (map (option_map (moveScan m)) s)) t g
  end.
(** The frame of node [id], made at time [ts], where the graph now has that node. *)
Definition frame_of (h : list yev) {B W : Type} (a : alg B W) (k : nat * Q) : res (ngrid X) :=
  do p <- getPoseLocation (a_slam a) (fst k);
  do g <- fill (fst k =? 0) (scans_of h (fst k));
  Ok (n_setTimestamp (n_setOrigin g (qposeOf dbl p)) (snd k)).
End Fill.

(** An empty map: a new one, or any map after clear(), which keeps its window. *)
Definition blank {X} (dflt : ncell X) (g : ngrid X) : Prop :=
  g = m_ndt (m_new dflt) \/
  exists g0, nwf g0 /\ n_pose g0 = world /\ n_cs g0 = map_res /\ g = n_clear g0.
(** Mean of the distribution a grid holds in a square. *)
Definition mean_at {X} (g : ngrid X) (c : pcell) : option point :=
  match content (n_vox g) c with
  | Some v => if nc_gauss v then Some (nc_mean v) else None
  | None => None
  end.

(** The calls were made one after the other. *)
Fixpoint clock (h : list yev) : Prop :=
  match h with
  | [] => True
  | e :: r => (forall e', In e' r -> (v_time e' < v_time e)%Q) /\ clock r
  end.

Section Frames.
Context {X : Type}.
Variable dflt : ncell X.
Variable addPt : ncell X -> point -> ncell X.
Variable compute : ncell X -> ncell X.
Variable btw : qpose -> qpose -> qtrans T2.
Variable tp : qtrans T2 -> point -> point.
Variable moveScan : T2 -> point -> point.
Variable dbl : R -> Q.

(** The points of a scan in the coordinates of its frame. *)
Definition in_frame (s : stroke) : scan :=
  let '(o, m, l) := s in
  let o' := qposeOf dbl o in
  map (option_map (fun p => tp (btw o' o') (moveScan m p))) l.
(** The distribution of a square of the frame: that of the newest scan with enough
    points there. *)
Definition newest_cell (l : list stroke) (c : pcell) : option (ncell X) :=
  fold_left (fun acc s => match scan_cell dflt addPt compute (1#4) (in_frame s) c with
                          | Some x => Some x
                          | None => acc
                          end) l None.
(** Where the scans of a frame were taken from, in the frame. *)
Definition sensor_of (s : stroke) : point :=
  let o := qposeOf dbl (fst (fst s)) in tp (btw o o) (0, 0)%Q.
(** One of the scans has this distribution in the square, and no later one has another
    there or a beam that goes through it. *)
Definition remains (l : list stroke) (c : pcell) (x : ncell X) : Prop :=
  exists l1 s l2, l = l1 ++ s :: l2 /\ scan_cell dflt addPt compute (1#4) (in_frame s) c = Some x /\
    forall s', In s' l2 -> scan_cell dflt addPt compute (1#4) (in_frame s') c = None /\
      ~ on_beam dflt addPt compute (1#4) (sensor_of s') (in_frame s') c.
(** No point of the scan lies exactly on a border between squares, and its
    distributions are at least a cell away from the sensor. *)
Definition clean (s : stroke) : Prop :=
  let o := qposeOf dbl (fst (fst s)) in
  (forall p, In (Some p) (in_frame s) -> off_border (1#4) p) /\
  scan_rays dflt addPt compute (1#4) (tp (btw o o) (0, 0)%Q) (in_frame s).
End Frames.

(** How the scan of a call was placed in the world when it went into the running window:
    as it is for the first one; turned as the matcher said, and moved by its shift and the
    origin of the window, for a matched one. *)
Section Window.
Variable tp : qtrans T2 -> point -> point.
Variable dbl : R -> Q.
Inductive placed_by (e : yev) : (point -> point) -> Prop :=
| placed_first p : In (ARep KFirst p) (v_evs e) -> placed_by e (fun q => q)
| placed_match o reg p : In (ARep (KMatch (poseOf o) reg) p) (v_evs e) ->
    placed_by e (fun q => let r := tp (mkTr reg 0 0) q in
                          (p_x o + dbl (tx reg) + fst r, p_y o + dbl (ty reg) + snd r)%Q).
End Window.
End Spec.

(** The point lies in every half plane that holds all of [ps]: in their convex hull. *)
Definition hull (ps : list point) (q : point) : Prop :=
  forall a b c, (forall p, In p ps -> a * fst p + b * snd p <= c)%Q -> (a * fst q + b * snd q <= c)%Q.
(** Straight lines go to straight lines, midpoints to midpoints. *)
Definition affine (f : point -> point) : Prop :=
  exists a b c d x y, forall p, peq (f p) (a * fst p + b * snd p + x, c * fst p + d * snd p + y)%Q.
(** Where a merged distribution lies: where one of the two did or between them (C17). *)
Definition blends {X} (merge : ncell X -> ncell X -> ncell X) : Prop :=
  forall a b, nc_gauss (merge a b) = true ->
    (nc_gauss a = true /\ peq (nc_mean (merge a b)) (nc_mean a)) \/
    (nc_gauss b = true /\ peq (nc_mean (merge a b)) (nc_mean b)) \/
    (nc_gauss a = true /\ nc_gauss b = true /\
     exists s, (0 <= s <= 1)%Q /\
       peq (nc_mean (merge a b))
           (s * fst (nc_mean a) + (1 - s) * fst (nc_mean b), s * snd (nc_mean a) + (1 - s) * snd (nc_mean b))%Q).
(** The doubles' frames when nothing is turned: only the origins differ. *)
Definition unturned (o : qpose) : Prop := (p_th o == 0)%Q.
Definition shifts (btw : qpose -> qpose -> qtrans T2) (tp : qtrans T2 -> point -> point) : Prop :=
  forall a b p, unturned a -> unturned b ->
    peq (tp (btw a b) p) (fst p + (p_x a - p_x b), snd p + (p_y a - p_y b))%Q.
Definition slides (noLin : T2) (moveOrigin : qpose -> qtrans T2 -> qpose) : Prop :=
  forall o x y, unturned o -> let o' := moveOrigin o (mkTr noLin x y) in
    unturned o' /\ (p_x o' == p_x o + x)%Q /\ (p_y o' == p_y o + y)%Q.
