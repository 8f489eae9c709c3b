(** Which squares a beam clears, and how often. *)
From Coq Require Import List ZArith QArith Qround Sorted.
From Verif Require Import Base VoxelModel VoxelSpec GridModel GridSpec ScanSpec.
Import ListNotations.
Open Scope nat_scope.

(** Number of half-cell steps a beam of a given length (in cells) is followed: it stops a
    cell before its end.  For beams shorter than a cell the number wraps around. *)
Definition beam_steps (len : Q) : Z := (2 * Qfloor len - 1) mod 2^64.

Section Spec.
Context {X : Type}.
Notation cell := (ncell X).

(** The beam from [s] to [e] is sampled in square [c], and none of the samples up to there
    is on the outer border of the window or beyond it. *)
Definition crosses (v : vgrid cell) (s e : point) (c : pcell) : Prop :=
  exists k, (Z.of_nat k < beam_steps (seg_len (cell_size v) s e))%Z /\
    in_cell (cell_size v) c (ray_sample (cell_size v) s e k) /\
    forall j, 0 < j <= k -> strictly_inside v (ray_sample (cell_size v) s e j).

(** [hit] tells which of the distributions are seen through square [c]. *)
Definition seen_through (v : vgrid cell) (s : point) (l : list cell) (c : pcell) (hit : cell -> bool) : Prop :=
  forall e, In e l -> (hit e = true <-> nc_gauss e = true /\ crosses v s (nc_mean e) c).

(** A cell (or none) after one update for each of the beams [bs], in turn. *)
Definition evidence (dflt : cell) (occRay : cell -> point -> cell -> cell) (s : point)
  (bs : list cell) (old : option cell) : option cell :=
  match bs with
  | [] => old
  | _ => Some (fold_left (fun x e => occRay x s e) bs (match old with Some o => o | None => dflt end))
  end.

(** Beams that have a length. *)
Definition beams_ok (cs : Q) (s : point) (l : list cell) : Prop :=
  forall e, In e l -> nc_gauss e = true -> (0 < seg_len cs s (nc_mean e))%Q.
End Spec.

(** Reading order of squares: rows from the top, each from the left. *)
Definition reads_before (a b : pcell) : Prop :=
  (snd b < snd a)%Z \/ (snd a = snd b /\ (fst a < fst b)%Z).

Section Scans.
Context {X : Type}.
Notation cell := (ncell X).
Variable dflt : cell.
Variable addPt : cell -> point -> cell.
Variable compute : cell -> cell.
(** [bs] are the distributions of a scan, in reading order of their squares. *)
Definition scan_beams (cs : Q) (pcl : list (option point)) (bs : list cell) : Prop :=
  exists w, StronglySorted reads_before w /\
    (forall c, In c w <-> scan_cell dflt addPt compute cs pcl c <> None) /\
    map (scan_cell dflt addPt compute cs pcl) w = map Some bs.
(** The beams to them have a length. *)
Definition scan_lengths (cs : Q) (start : point) (pcl : list (option point)) : Prop :=
  forall c x, scan_cell dflt addPt compute cs pcl c = Some x -> (0 < seg_len cs start (nc_mean x))%Q.
End Scans.
