(** Model of NDTCell (INC/ndt/ndt_cell.h, src/ndt/ndt_cell.cpp).

    Floats and doubles are exact reals.  Not-a-number is kept where the code can
    produce it: the occupancy is [None] when it is NaN, the inverse covariance is
    [None] when it is not finite.  The eigen solver is a parameter [eig]; its
    contract is [eigen_solver] in LinAlg3.v.  size_t arithmetic wraps ([u64]). *)
From Coq Require Import Reals List ZArith Bool.
From Verif Require Import Base LinAlg3.
Import ListNotations.
Open Scope R_scope.

(** ndt_cell.h:13-19 *)
Definition MAX_OCC : R := 1.
Definition MIN_OCC : R := -1.
Definition LOG_LIKE : R := 405465108 / 1000000000.
Definition SENSOR_NOISE : R := 1 / 100.
Definition MAX_POINTS : Z := 1000000000.
Definition NO_GAUSS_OCC : R := - (2 / 10).

(** Rigid transforms: Eigen::Transform with a rotation as linear part, for which
    rotation() returns that linear part. *)
Record trans := mkT { t_rot : M3; t_trans : V3 }.
Definition tapply (t : trans) (v : V3) : V3 := vadd (mvmul (t_rot t) v) (t_trans t).

(** ndt_cell.h:202-209 *)
Record cell := mkCell {
  c_mean : V3; c_cov : M3; c_icov : option M3; c_occ : option R; c_points : Z;
  c_gauss : bool; c_cent : V3; c_pts : list V3 }.

(** ndt_cell.cpp:4-13; Vector::Identity() is (1, 0, 0) *)
Definition cell_new : cell := mkCell vzero mid (Some mid) (Some 0) 0 false (mkV 1 0 0) [].

(** ndt_cell.cpp:207-215 *)
Definition clampOcc (x : R) : R :=
  let y := if Rlt_dec MAX_OCC x then MAX_OCC else x in
  if Rlt_dec y MIN_OCC then MIN_OCC else y.
Definition addOcc (o : option R) (x : R) : option R := option_map (fun y => clampOcc (y + x)) o.
Definition set_occ (c : cell) (o : option R) : cell :=
  mkCell (c_mean c) (c_cov c) (c_icov c) o (c_points c) (c_gauss c) (c_cent c) (c_pts c).
Definition set_gauss (c : cell) (b : bool) : cell :=
  mkCell (c_mean c) (c_cov c) (c_icov c) (c_occ c) (c_points c) b (c_cent c) (c_pts c).
(** occup_ <= 0 and occup_ < 0; false for NaN *)
Definition occ_le0 (o : option R) : bool :=
  match o with Some x => if Rle_dec x 0 then true else false | None => false end.
Definition occ_lt0 (o : option R) : bool :=
  match o with Some x => if Rlt_dec x 0 then true else false | None => false end.

(** Matrix3d::inverse(); not finite for a singular matrix *)
Definition inverse (m : M3) : option M3 :=
  if Req_EM_T (mdet m) 0 then None else Some (minv m).

Section Cell.
Variable eig : M3 -> M3 * V3.

(** ndt_cell.cpp:217-236, the new covariance *)
Definition floor_cov (m : M3) : M3 :=
  let '(q, e) := eig m in
  let lo := 1/100 * vz e in
  let e0 := if Rlt_dec (vx e) lo then lo else vx e in
  let e1 := if Rlt_dec (vy e) lo then lo else vy e in
  mmul (mmul q (mdiag e0 e1 (vz e))) (mtr q).
(** the whole function; the last line sets gaussian_ whatever the checks said *)
Definition rescaleCovar (c : cell) : cell :=
  let m := floor_cov (c_cov c) in
  mkCell (c_mean c) m (inverse m) (c_occ c) (c_points c) true (c_cent c) (c_pts c).

(** ndt_cell.cpp:15-60 *)
Definition merge (a b : cell) : cell :=
  if (c_points b <=? 2)%Z then a
  else if negb (c_gauss b) then a
  else if c_gauss a then
    let p1 := c_points a in
    let p2 := c_points b in
    let ms1 := vscale (IZR p1) (c_mean a) in
    let ms2 := vscale (IZR p2) (c_mean b) in
    let cs1 := mscale (IZR (u64 (p1 - 1))) (c_cov a) in
    let cs2 := mscale (IZR (u64 (p2 - 1))) (c_cov b) in
    let ps := u64 (p2 + p1) in
    let mean := vscale (/ IZR ps) (vadd ms2 ms1) in
    let w1 := IZR p1 / IZR (u64 (p2 * ps)) in
    let w2 := IZR p2 / IZR p1 in
    let d := vsub (vscale w2 ms1) ms2 in
    let cs3 := madd (madd cs1 cs2) (mscale w1 (outer d d)) in
    let cov := mscale (1 / IZR (u64 (ps - 1))) cs3 in
    let occ := addOcc (c_occ a) (IZR p2 * LOG_LIKE) in
    let pts := if (MAX_POINTS <? ps)%Z then MAX_POINTS else ps in
    let c := mkCell mean cov (c_icov a) occ pts (c_gauss a) (c_cent a) (c_pts a) in
    if occ_lt0 occ then set_gauss c false else rescaleCovar c
  else
    mkCell (c_mean b) (c_cov b) (c_icov b) (c_occ b) (c_points b) true (c_cent b) (c_pts b).

(** ndt_cell.cpp:76-91 *)
Definition vsum (l : list V3) : V3 := fold_left vadd l vzero.
Definition cov_sum (l : list V3) : M3 := fold_left (fun m p => madd m (outer p p)) l mid.
Definition batch_mean (l : list V3) : V3 := vscale (/ INR (length l)) (vsum l).
Definition batch_cov (l : list V3) : M3 :=
  let n := INR (length l) in
  let m2 := batch_mean l in
  let t := madd (mscale (/ n) (msub (cov_sum l) (mscale 2 (outer (vsum l) m2)))) (outer m2 m2) in
  mscale (INR (length l - 1) / n) t.

(** ndt_cell.cpp:62-132 *)
Definition computeGaussian (c0 : cell) : cell :=
  let n := length (c_pts c0) in
  let c := set_occ c0 (addOcc (c_occ c0) (INR n * LOG_LIKE)) in
  let few := mkCell (c_mean c) (c_cov c) (c_icov c) (c_occ c) (Z.of_nat n) false (c_cent c) (c_pts c) in
  if occ_le0 (c_occ c) then few
  else if (n <? 6)%nat then few
  else
    let mean2 := batch_mean (c_pts c) in
    let cov2 := batch_cov (c_pts c) in
    let clear x := mkCell (c_mean x) (c_cov x) (c_icov x) (c_occ x) (c_points x) (c_gauss x) (c_cent x) [] in
    if negb (c_gauss c) then
      clear (rescaleCovar (mkCell mean2 cov2 (c_icov c) (c_occ c) (Z.of_nat n) (c_gauss c) (c_cent c) (c_pts c)))
    else
      let p1 := IZR (c_points c) in
      let p2 := INR n in
      let ms1 := vscale p1 (c_mean c) in
      let cs1 := mscale (IZR (u64 (c_points c - 1))) (c_cov c) in
      let ms2 := vscale p2 mean2 in
      let cs2 := mscale (INR (n - 1)) cov2 in
      let w1 := p1 / (p2 * (p1 + p2)) in
      let w2 := p2 / p1 in
      let msc := vadd ms1 ms2 in
      let d := vsub (vscale w2 ms1) ms2 in
      let csc := madd (madd cs1 cs2) (mscale w1 (outer d d)) in
      let ps := u64 (c_points c + Z.of_nat n) in
      let over := (MAX_POINTS <? ps)%Z in
      let msc' := if over then vscale (IZR MAX_POINTS / IZR ps) msc else msc in
      let csc' := if over then mscale (IZR (MAX_POINTS - 1) / IZR (u64 (ps - 1))) csc else csc in
      let ps' := if over then MAX_POINTS else ps in
      clear (rescaleCovar (mkCell (vscale (/ IZR ps') msc') (mscale (/ IZR (u64 (ps' - 1))) csc')
                             (c_icov c) (c_occ c) ps' (c_gauss c) (c_cent c) (c_pts c))).

(** ndt_cell.cpp:238-258 with a finite inverse covariance and start <> end.
    [junk]: the caller's uninitialised pt_out, which stays when sigma is 0.
    Result: point, likelihood. *)
Definition maxLikOnLine (mean : V3) (icov : M3) (start end_ junk : V3) : V3 * R :=
  let l := vscale (/ vnorm (vsub end_ start)) (vsub end_ start) in
  let a := mvmul icov l in
  let b := vsub end_ mean in
  let sigma := vdot a l in
  if Req_EM_T sigma 0 then (junk, 1)
  else
    let t := - vdot a b / sigma in
    let pt := vadd (vscale t l) end_ in
    (pt, exp (- vdot (vsub pt mean) (mvmul icov (vsub pt mean)) / 2)).

(** (a - b).cwiseAbs().sum() *)
Definition l1 (v : V3) : R := Rabs (vx v) + Rabs (vy v) + Rabs (vz v).
Definition at_end (c : cell) (end_ : V3) : bool :=
  if Rlt_dec (l1 (vsub (c_mean c) end_)) (1/100) then true else false.

(** ndt_cell.cpp:151-175: log odds of one point; None: NaN *)
Definition beamLogOdd (c : cell) (start end_ junk : V3) : option R :=
  match c_icov c with
  | None => None
  | Some icov =>
      if Req_EM_T (vnorm (vsub end_ start)) 0 then None
      else
        let '(pt, lik) := maxLikOnLine (c_mean c) icov start end_ junk in
        let d := vnorm (vsub pt end_) in
        let thr := exp (- (1/2) * (d * d) / (SENSOR_NOISE * SENSOR_NOISE)) in
        let lik2 := 1/10 * (lik * (1 - thr)) + 1/2 in
        Some (ln ((1 - lik2) / lik2))
  end.

(** ndt_cell.cpp:134-183 *)
Definition updateOccupancy (c : cell) (start end_ junk : V3) (n : Z) : cell :=
  if negb (c_gauss c) then
    let c1 := set_occ c (addOcc (c_occ c) (NO_GAUSS_OCC * IZR n)) in
    if occ_le0 (c_occ c1) then set_gauss c1 false else c1
  else if at_end c end_ then set_occ c (addOcc (c_occ c) MAX_OCC)
  else
    let o := match beamLogOdd c start end_ junk with
             | Some x => addOcc (c_occ c) (IZR n * x)
             | None => None
             end in
    let c1 := set_occ c o in
    if occ_le0 o then set_gauss c1 false else c1.

(** ndt_cell.cpp:185-192 *)
Definition ctransform (t : trans) (c : cell) : cell :=
  if c_gauss c then
    rescaleCovar (mkCell (tapply t (c_mean c)) (mmul (mmul (t_rot t) (c_cov c)) (mtr (t_rot t)))
                    (c_icov c) (c_occ c) (c_points c) (c_gauss c) (c_cent c) (c_pts c))
  else c.

(** ndt_cell.h:150-153, 70-73, 90-93 *)
Definition addPoint (c : cell) (p : V3) : cell :=
  mkCell (c_mean c) (c_cov c) (c_icov c) (c_occ c) (c_points c) (c_gauss c) (c_cent c) (c_pts c ++ [p]).
Definition setMean (c : cell) (m : V3) : cell :=
  mkCell m (c_cov c) (c_icov c) (c_occ c) (c_points c) (c_gauss c) (c_cent c) (c_pts c).
Definition setCentroid (c : cell) (p : V3) : cell :=
  mkCell (c_mean c) (c_cov c) (c_icov c) (c_occ c) (c_points c) (c_gauss c) p (c_pts c).

(** ndt_cell.h:118-125; a float outside the range of int8_t does not occur there *)
Definition getOccupancy (x : R) : Z :=
  if Rle_dec MAX_OCC x then 100%Z
  else if Rlt_dec x MIN_OCC then 0%Z
  else Int_part (x * 100).

(** Cells as they come about by calls of the functions above; [B] restricts the
    beams.  A cell with more than MAX_POINTS points waiting in its vector (24 GB)
    is not considered.  setOccupancy, which nobody calls and which stores
    percentages where the rest of the class stores [-1,1], is left out. *)
Inductive reach (B : V3 -> V3 -> Prop) : cell -> Prop :=
| reach_new : reach B cell_new
| reach_add c p : reach B c -> reach B (addPoint c p)
| reach_compute c : reach B c -> (Z.of_nat (length (c_pts c)) <= MAX_POINTS)%Z ->
    reach B (computeGaussian c)
| reach_merge a b : reach B a -> reach B b -> reach B (merge a b)
| reach_beam c s e j n : reach B c -> (0 <= n)%Z -> B s e -> reach B (updateOccupancy c s e j n)
| reach_transform c t : reach B c -> rotation (t_rot t) -> reach B (ctransform t c)
| reach_mean c p : reach B c -> reach B (setMean c p)
| reach_centroid c p : reach B c -> reach B (setCentroid c p).

End Cell.

(** ** Messages *)
(** NDTCell::serialize (ndt_cell.cpp:194-203) and the loop of toNdtMapMsg over the cells
    (ndt_slam_algorithm.h:411-427): NDTCellMsg.  [None]: NaN. *)
Record cell_msg := mkCM { cm_mean : R * R * R; cm_cov : list R; cm_occ : option R; cm_n : Z }.
(** cov_(i, j) *)
Definition mat_at (m : M3) (i j : nat) : R :=
  match i, j with
  | O, O => m11 m | O, S O => m12 m | O, _ => m13 m
  | S O, O => m21 m | S O, S O => m22 m | S O, _ => m23 m
  | _, O => m31 m | _, S O => m32 m | _, _ => m33 m
  end.
Definition cellMsg (c : cell) : cell_msg :=
  mkCM (vx (c_mean c), vy (c_mean c), vz (c_mean c))
       (flat_map (fun i => map (mat_at (c_cov c) i) (seq 0 3)) (seq 0 3)) (c_occ c) (c_points c).
