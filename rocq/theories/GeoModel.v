(** Model of the planar geometry helpers: INC/utils/eigen_tools.h,
    INC/slam_optimizer/slam2d_policy.h, INC/utils/covariance_wrapper.h,
    INC/utils/covariance_inverse.h, INC/utils/msgs_conversions.h and the
    conversions of src/graph_slam2d_node.cpp.

    Scalars are exact reals; casts between float and double are dropped. *)
From Coq Require Import Reals List ZArith.
From Verif Require Import Base LinAlg3.
Import ListNotations.
Open Scope R_scope.

(** eigen_tools.h:21-22, pose2d_t *)
Record pose := mkP { px : R; py : R; pth : R }.

(** eigen_tools.h:15-16, transform2d_t: an affine transform of the plane with
    linear part [[a b] [c d]] and translation (x, y). *)
Record T2 := mkT2 { ta : R; tb : R; tc : R; td : R; tx : R; ty : R }.
Definition P2 := (R * R)%type.

(** Eigen: T * v, T * T', Transform::inverse(Affine), Identity *)
Definition t2apply (t : T2) (p : P2) : P2 :=
  (ta t * fst p + tb t * snd p + tx t, tc t * fst p + td t * snd p + ty t).
Definition t2mul (s t : T2) : T2 :=
  mkT2 (ta s * ta t + tb s * tc t) (ta s * tb t + tb s * td t)
       (tc s * ta t + td s * tc t) (tc s * tb t + td s * td t)
       (ta s * tx t + tb s * ty t + tx s) (tc s * tx t + td s * ty t + ty s).
Definition t2det (t : T2) : R := ta t * td t - tb t * tc t.
Definition t2inv (t : T2) : T2 :=
  let k := / t2det t in
  let a := k * td t in let b := k * - tb t in
  let c := k * - tc t in let d := k * ta t in
  mkT2 a b c d (- (a * tx t + b * ty t)) (- (c * tx t + d * ty t)).
Definition t2id : T2 := mkT2 1 0 0 1 0 0.

(** Transform::rotation(): the nearest rotation (polar factor, from an SVD), as
    the pair of its first column; undefined direction is (1, 0). *)
Definition t2rotation (t : T2) : R * R :=
  let u := ta t + td t in
  let v := tc t - tb t in
  let n := sqrt (u * u + v * v) in
  if Req_EM_T n 0 then (1, 0) else (u / n, v / n).

(** std::atan2(y, x); signed zeros are not distinguished *)
Definition atan2 (y x : R) : R :=
  if Rlt_dec 0 x then atan (y / x)
  else if Rlt_dec x 0 then
    if Rle_dec 0 y then atan (y / x) + PI else atan (y / x) - PI
  else if Rlt_dec 0 y then PI / 2
  else if Rlt_dec y 0 then - (PI / 2)
  else 0.

(** eigen_tools.h:202-207 *)
Definition normalizeAngle (a : R) : R := atan2 (sin a) (cos a).

(** eigen_tools.h:153-157 *)
Definition getAngle (t : T2) : R := atan2 (snd (t2rotation t)) (fst (t2rotation t)).

(** eigen_tools.h:159-164 *)
Definition getDisplacement (t : T2) : R := sqrt (tx t ^ 2 + ty t ^ 2).

(** eigen_tools.h:166-170 *)
Definition getAngleDiffrence (from to : pose) : R :=
  atan2 (sin (pth to - pth from)) (cos (pth to - pth from)).

(** eigen_tools.h:142-151 *)
Definition getPoseFromTransform (t : T2) : pose := mkP (tx t) (ty t) (getAngle t).

(** eigen_tools.h:193-200: translation * rotation *)
Definition getTransFromPose (p : pose) : T2 :=
  mkT2 (cos (pth p)) (- sin (pth p)) (sin (pth p)) (cos (pth p)) (px p) (py p).

(** eigen_tools.h:85-94 *)
Definition transBtwPoses (from to : pose) : T2 :=
  getTransFromPose (mkP (px to - px from) (py to - py from) (normalizeAngle (pth to - pth from))).

(** eigen_tools.h:96-121.  The linear parts rebuilt from their base vectors are
    the linear parts again; M2 products written out. *)
Definition transBtwFrames (from to : pose) : T2 :=
  let f := getTransFromPose from in
  let t := getTransFromPose to in
  let T1 := mkT2 (ta f * 1 + tb f * 0) (ta f * 0 + tb f * 1)
                 (tc f * 1 + td f * 0) (tc f * 0 + td f * 1) 0 0 in
  let T2' := mkT2 (ta t * 1 + tb t * 0) (ta t * 0 + tb t * 1)
                  (tc t * 1 + td t * 0) (tc t * 0 + td t * 1) 0 0 in
  let lin := t2mul T1 (t2inv T2') in
  let tr := t2apply (t2inv T2') (px from - px to, py from - py to) in
  mkT2 (ta lin) (tb lin) (tc lin) (td lin) (fst tr) (snd tr).

(** eigen_tools.h:123-133 *)
Definition transformPose (p : pose) (t : T2) : pose :=
  let inc := getPoseFromTransform t in
  mkP (px p + px inc) (py p + py inc) (normalizeAngle (pth p + pth inc)).

(** eigen_tools.h:135-140 *)
Definition transformConcat (p : pose) (t : T2) : pose :=
  getPoseFromTransform (t2mul (getTransFromPose p) t).

(** 4x4 matrices in blocks *)
Record M4 := mkM4 { q_lin : M3; q_tr : V3; q_row : V3; q_w : R }.
Definition rotz (a : R) : M3 := mkM (cos a) (- sin a) 0 (sin a) (cos a) 0 0 0 1.

(** eigen_tools.h:172-181 *)
Definition convertToTransform (m : M4) : T2 :=
  mkT2 (m11 (q_lin m)) (m12 (q_lin m)) (m21 (q_lin m)) (m22 (q_lin m)) (vx (q_tr m)) (vy (q_tr m)).

(** eigen_tools.h:183-191 *)
Definition convertFromTransform (t : T2) : M4 :=
  let p := getPoseFromTransform t in
  mkM4 (rotz (pth p)) (mkV (px p) (py p) 0) vzero 1.

(** eigen_tools.h:209-222 *)
Definition vecToMat3d (p : pose) : M4 := mkM4 (rotz (pth p)) (mkV (px p) (py p) 0) vzero 1.

(** eigen_tools.h:224-234 *)
Definition vecToMat2d (p : pose) : T2 :=
  mkT2 (cos (pth p)) (- sin (pth p)) (sin (pth p)) (cos (pth p)) (px p) (py p).

(** eigen_tools.h:236-246 *)
Definition matToVec2d (t : T2) : pose :=
  mkP (tx t) (ty t) (atan2 (snd (t2rotation t)) (fst (t2rotation t))).

(** eigen_tools.h:248-258; [polar] is rotation() of the 3x3 linear part, which
    returns rotations unchanged. *)
Definition matToVec2d4 (polar : M3 -> M3) (m : M4) : pose :=
  mkP (vx (q_tr m)) (vy (q_tr m)) (atan2 (m21 (polar (q_lin m))) (m11 (polar (q_lin m)))).

(** ** slam2d_policy.h *)
(** 66-72 *)
Definition calcError (x y z : pose) : pose :=
  getPoseFromTransform
    (t2mul (t2inv (getTransFromPose z))
           (t2mul (t2inv (getTransFromPose x)) (getTransFromPose y))).

(** 34-64 *)
Definition calcJacobianBlocks (xi xj z : pose) : M3 * M3 :=
  let angle := pth z + pth xi in
  let dx := px xj - px xi in
  let dy := py xj - py xi in
  let co := cos angle in
  let si := sin angle in
  (mkM (- co) (- si) (- si * dx + co * dy)
       si (- co) (- co * dx - si * dy)
       0 0 (-1),
   mkM co si 0 (- si) co 0 0 0 1).

(** 74-80 *)
Definition addPoses (a b : pose) : pose :=
  mkP (px a + px b) (py a + py b) (normalizeAngle (pth a + pth b)).

(** ** covariance_wrapper.h *)
(** 42-49 *)
Definition jacc1 (co si : R) (t : P2) : M3 :=
  mkM 1 0 (- si * fst t - co * snd t) 0 1 (co * fst t - si * snd t) 0 0 1.
(** 50-55 *)
Definition jacc2 (co si : R) : M3 := mkM co (- si) 0 si co 0 0 0 1.
(** 27-36 *)
Definition addToCovar (covar other : M3) (t : T2) : M3 :=
  let angle := atan2 (snd (t2rotation t)) (fst (t2rotation t)) in
  let co := cos angle in
  let si := sin angle in
  let j1 := jacc1 co si (tx t, ty t) in
  let j2 := jacc2 co si in
  madd (mmul (mmul j1 covar) (mtr j1)) (mmul (mmul j2 other) (mtr j2)).
(** 17-19 *)
Definition covar_new : M3 := mid.

(** ** covariance_inverse.h:17-48.  [eig] is the eigen solver.  [evals] is a full
    3x3 matrix: evals(i) with one index reads its first column, so it is the
    first eigenvalue for i = 0 and zero for i = 1, 2.  Result: None for false,
    else adjusted_cov and icov (None when not finite). *)
Definition covarInverse (eig : M3 -> M3 * V3) (cov : M3) : option (M3 * option M3) :=
  let '(q, e) := eig cov in
  if Rle_dec (vx e + vy e + vz e) 0 then None
  else
    let mx := Rmax 0 (Rmax (vx e) (Rmax (vy e) (vz e))) in
    let guard (read old : R) : R * bool :=
      if Rlt_dec (read * 100) mx then (mx / 100, true) else (old, false) in
    let '(e0, r0) := guard (vx e) (vx e) in
    let '(e1, r1) := guard 0 (vy e) in
    let '(e2, r2) := guard 0 (vz e) in
    let d := mdiag e0 e1 e2 in
    let adj := if (r0 || r1 || r2)%bool then mmul (mmul q d) (mtr q) else cov in
    Some (adj, if Req_EM_T (mdet d) 0 then None
               else Some (mmul (mmul q (minv d)) (mtr q))).

(** ** Conversions of the node *)
(** tf::Transform: basis and origin; product and inverse as in tf *)
Record tform := mkTF { tf_b : M3; tf_o : V3 }.
Definition tf_mul (a b : tform) : tform :=
  mkTF (mmul (tf_b a) (tf_b b)) (vadd (mvmul (tf_b a) (tf_o b)) (tf_o a)).
Definition tf_inv (a : tform) : tform :=
  mkTF (mtr (tf_b a)) (mvmul (mtr (tf_b a)) (vscale (-1) (tf_o a))).
(** tf::Matrix3x3::setRotation(quaternion) *)
Definition quat_mat (x y z w : R) : M3 :=
  let s := 2 / (x * x + y * y + z * z + w * w) in
  mkM (1 - (y * (y * s) + z * (z * s))) (x * (y * s) - w * (z * s)) (x * (z * s) + w * (y * s))
      (x * (y * s) + w * (z * s)) (1 - (x * (x * s) + z * (z * s))) (y * (z * s) - w * (x * s))
      (x * (z * s) - w * (y * s)) (y * (z * s) + w * (x * s)) (1 - (x * (x * s) + y * (y * s))).

(** graph_slam2d_node.cpp:294-305; the fields not assigned are 0 *)
Definition eigenPoseToTF (p : pose) : tform :=
  mkTF (quat_mat 0 0 (sin (pth p * (1/2))) (cos (pth p * (1/2)))) (mkV (px p) (py p) 0).

(** graph_slam2d_node.cpp:270-276 *)
Definition tfTrans (odom slam : pose) : tform :=
  tf_mul (eigenPoseToTF slam) (tf_inv (eigenPoseToTF odom)).

(** msgs_conversions.h:11-25: position and quaternion (x, y, z, w) *)
Definition eigenToPoseMsg (p : pose) : V3 * (R * R * R * R) :=
  (mkV (px p) (py p) 0, (0, 0, sin (pth p * (1/2)), cos (pth p * (1/2)))).

(** graph_slam2d_node.cpp:278-285; reading outside of the array is undefined *)
Definition arrayToMatrix (l : list R) : res M3 :=
  do a <- vget l 0; do b <- vget l 1; do c <- vget l 5;
  do d <- vget l 6; do e <- vget l 7; do f <- vget l 11;
  do g <- vget l 30; do h <- vget l 31; do i <- vget l 35;
  Ok (mkM a b c d e f g h i).
