(** Model of the NDT registrations: registration/ndt_reg_tools.h,
    registration/d2d_ndt2d.h (distribution to distribution, "D2D"),
    registration/ndt2d.h (point to distribution, "P2D") and
    registration/d2d_ndt2d_robust.h, all under ndt_gslam/include/ndt_gslam.

    Numbers are reals.  The step length search is written with [xr] numbers,
    which can also be infinite or undefined, because its interpolation formulas
    divide and take square roots.  Transforms are planar ([T2]): a 4x4 matrix
    handled here is always a rotation about z and a translation in the plane.
    Casts between float and double are dropped. *)
From Coq Require Import Reals ZArith List Bool Lra.
From Verif Require Import Base LinAlg3 GeoModel OptModel.
Import ListNotations.
Open Scope R_scope.

(** ** Score with derivatives *)
(** ndt_reg_tools.h:13-42, ScoreAndDerivatives<3, double> *)
Record sad := mkSad { sd_hess : M3; sd_grad : V3; sd_val : R }.
(** ndt_reg_tools.h:15-20 and 26-33, constructor and Zero *)
Definition sdzero : sad := mkSad mzero vzero 0.
(** ndt_reg_tools.h:35-41, operator+= *)
Definition sdadd (a b : sad) : sad :=
  mkSad (madd (sd_hess a) (sd_hess b)) (vadd (sd_grad a) (sd_grad b)) (sd_val a + sd_val b).

(** ** Fitting constants *)
(** ndt_reg_tools.h:55-79, FittingParams.  std::log of a number that is not
    positive is not represented; with an outlier ratio in (0, 1) and a positive
    resolution it does not occur. *)
Record fparams := mkFP { g_d1 : R; g_d2 : R; g_half : R }.
Definition calcParams (outlier_ratio resolution : R) : fparams :=
  let c1 := 10 * (1 - outlier_ratio) in
  let c2 := outlier_ratio / resolution ^ 2 in
  let d3 := - ln c2 in
  let d1 := - ln (c1 + c2) - d3 in
  let d2 := - 2 * ln ((- ln (c1 * exp (- (1 / 2)) + c2) - d3) / d1) in
  mkFP d1 d2 (d2 / 2).

(** ** D2D score of one pair of cells *)
(** A gaussian cell as the registrations see it: getMean() and getCov(). *)
Record gcell := mkG { gc_mean : V3; gc_cov : M3 }.

(** ndt_reg_tools.h:81-104, JacobianHessianDerivatives, restricted to the blocks
    calcSourceCellScore reads: Jest, Zest.block<3,3>(0,3j), Hest.block<3,1>(6,j)
    and ZHest.block<3,3>(6,3j) for j = 0, 1, 2. *)
Record derivs := mkD { dv_J : M3; dv_Z : nat -> M3; dv_H : nat -> V3; dv_ZH : nat -> M3 }.

(** d2d_ndt2d.h:583-605, computeDerivatives *)
Definition computeDerivatives (x : V3) (cov : M3) (calc_hessian : bool) : derivs :=
  let J := mkM 1 0 (- vy x) 0 1 (vx x) 0 0 0 in
  let Z := mkM (- 2 * m12 cov) (- m22 cov + m11 cov) (- m23 cov)
               (- m22 cov + m11 cov) (2 * m12 cov) (m13 cov)
               (- m23 cov) (m13 cov) 0 in
  let H := mkV (- vx x) (- vy x) 0 in
  let ZH := mkM (2 * m22 cov - 2 * m11 cov) (- 4 * m12 cov) (- m13 cov)
                (- 4 * m12 cov) (2 * m11 cov - 2 * m22 cov) (- m23 cov)
                (- m13 cov) (- m23 cov) 0 in
  mkD J (fun j => if (j =? 2)%nat then Z else mzero)
      (fun j => if calc_hessian && (j =? 2)%nat then H else vzero)
      (fun j => if calc_hessian && (j =? 2)%nat then ZH else mzero).

(** row vector times matrix *)
Definition vmmul (v : V3) (a : M3) : V3 := mvmul (mtr a) v.
Definition col2 (v : V3) : M3 := mkM 0 0 (vx v) 0 0 (vy v) 0 0 (vz v).
Definition row2 (v : V3) : M3 := mkM 0 0 0 0 0 0 (vx v) (vy v) (vz v).

(** Eigen's Matrix3d::computeInverseAndDetWithCheck: "exists" when
    |det| > 1e-12, the default threshold of double. *)
Definition inverseExists (a : M3) : bool :=
  if Rlt_dec (/ 10 ^ 12) (Rabs (mdet a)) then true else false.

(** d2d_ndt2d.h:607-681, calcSourceCellScore.  The test dist * 0 != 0 of line 649
    is false for every real number. *)
Definition calcSourceCellScore (mean_source : V3) (cov_source : M3) (cell_t : gcell)
  (d : derivs) (param : fparams) (calc_hessian : bool) : sad :=
  let diff_mean := vsub mean_source (gc_mean cell_t) in
  let cov_sum := madd (gc_cov cell_t) cov_source in
  if negb (inverseExists cov_sum) then sdzero else
  let icov := minv cov_sum in
  let dist := vdot diff_mean (mvmul icov diff_mean) in
  let value := - g_d1 param * exp (- g_half param * dist) in
  let xtB := vmmul diff_mean icov in
  let xtBJ := vmmul xtB (dv_J d) in
  let TMP1 := vmmul (vmmul xtB (dv_Z d 2)) icov in
  let xtBZBx := mkV 0 0 (vdot TMP1 diff_mean) in
  let per_j (f : nat -> R) := mkV (f 0%nat) (f 1%nat) (f 2%nat) in
  let xtBZBJ := if calc_hessian then col2 (vmmul TMP1 (dv_J d)) else mzero in
  let xtBH := if calc_hessian then row2 (per_j (fun j => vdot xtB (dv_H d j))) else mzero in
  let xtBZBZBx := if calc_hessian then
      row2 (per_j (fun j => vdot (vmmul (vmmul TMP1 (dv_Z d j)) icov) diff_mean)) else mzero in
  let xtBZhBx := if calc_hessian then
      row2 (per_j (fun j => vdot (vmmul (vmmul xtB (dv_ZH d j)) icov) diff_mean)) else mzero in
  let Q := vsub (vscale 2 xtBJ) xtBZBx in
  let factor := - g_half param * value in
  let gradient := vscale factor Q in
  let hessian :=
    if calc_hessian then
      mscale factor
        (msub (madd (madd (msub (msub (msub (madd
           (mscale 2 (mmul (mmul (mtr (dv_J d)) icov) (dv_J d)))
           (mscale 2 xtBH)) xtBZhBx) (mscale 2 (mtr xtBZBJ))) (mscale 2 xtBZBJ)) xtBZBZBx)
           (mtr xtBZBZBx)) (mscale (g_half param) (outer Q Q)))
    else mzero in
  mkSad hessian gradient value.

(** ** D2D score of two grids *)
Definition poseOf (v : V3) : pose := mkP (vx v) (vy v) (vz v).
Definition vecOfT (t : T2) : V3 :=
  let p := getPoseFromTransform t in mkV (px p) (py p) (pth p).
(** ndt_reg_tools.h:278-291, vecToMat *)
Definition vecToMat (v : V3) : T2 := getTransFromPose (poseOf v).
(** ndt_reg_tools.h:303-312, matToVec *)
Definition matToVec (t : T2) : V3 := vecOfT t.

(** the rotation part of vecToMat as a 3x3 matrix (Transform::rotation() of a
    rigid transform is its linear part) *)
Definition rotM (a : R) : M3 := mkM (cos a) (- sin a) 0 (sin a) (cos a) 0 0 0 1.
(** trans_mat * cell_mean, d2d_ndt2d.h:553 *)
Definition moveMean (trans m : V3) : V3 :=
  vadd (mvmul (rotM (vz trans)) m) (mkV (vx trans) (vy trans) 0).
(** rotation * cov * rotation^T, d2d_ndt2d.h:554-555 *)
Definition moveCov (trans : V3) (c : M3) : M3 :=
  mmul (mmul (rotM (vz trans)) c) (mtr (rotM (vz trans))).

Section D2D.
  (** target grid: getKNearestNeighbors(point, k) *)
  Variable nearest : P2 -> nat -> list gcell.

  (** d2d_ndt2d.h:545-572, the work for one source cell *)
  Definition cellScore (param : fparams) (trans : V3) (calc_hessian : bool) (c : gcell) : sad :=
    let mean_source := moveMean trans (gc_mean c) in
    let cov_source := moveCov trans (gc_cov c) in
    let d := computeDerivatives mean_source cov_source calc_hessian in
    fold_left (fun acc nb => sdadd acc (calcSourceCellScore mean_source cov_source nb d param calc_hessian))
      (nearest (vx mean_source, vy mean_source) 2) sdzero.

  (** d2d_ndt2d.h:516-580, calcScore.  A schedule is the order in which source
      cells are finished together with the thread that adds each of them to its
      entry of omp_ret, which has 2 * threads_ entries (resize and push_back). *)
  Definition calcScoreSched (threads : nat) (sched : list (nat * nat)) (param : fparams)
    (source : list gcell) (trans : V3) (calc_hessian : bool) : res sad :=
    do omp_ret <- foldM (fun omp_ret (e : nat * nat) =>
        do c <- vget source (snd e);
        do old <- vget omp_ret (fst e);
        vset omp_ret (fst e) (sdadd old (cellScore param trans calc_hessian c)))
      sched (repeat sdzero (2 * threads));
    Ok (fold_left sdadd omp_ret sdzero).

  (** the same with one thread that goes through the cells in order *)
  Definition calcScore (param : fparams) (source : list gcell) (trans : V3) (calc_hessian : bool) : sad :=
    fold_left (fun acc c => sdadd acc (cellScore param trans calc_hessian c)) source sdzero.
End D2D.

(** ** P2D score *)
(** ndt2d.h:497-555, calcPointScore.  [icov] is the inverse covariance of the
    cell (its upper left 2x2 block is used), [mean] its mean. *)
Definition calcPointScore (pt : P2) (icov : M3) (mean : P2) (trans_pt : P2) (co si : R)
  (param : fparams) : sad :=
  let x := fst pt in let y := snd pt in
  (* columns of the jacobian *)
  let jac (i : nat) : P2 := match i with
    | 0%nat => (1, 0) | 1%nat => (0, 1) | _ => (- x * si - y * co, x * co - y * si) end in
  let hess_derivative : P2 := (- x * co + y * si, - x * si - y * co) in
  let hess_derivatives2 : P2 := (0, 0) in
  let dot (a b : P2) := fst a * fst b + snd a * snd b in
  let icv (v : P2) : P2 := (m11 icov * fst v + m12 icov * snd v, m21 icov * fst v + m22 icov * snd v) in
  let diff : P2 := (fst trans_pt - fst mean, snd trans_pt - snd mean) in
  let diff_icov : P2 := (fst diff * m11 icov + snd diff * m21 icov,
                         fst diff * m12 icov + snd diff * m22 icov) in
  let e := exp (- g_half param * dot diff_icov diff) in
  let d2e := g_d2 param * e in
  let d1d2e := g_d1 param * d2e in
  if Rlt_dec 1 d2e then sdzero else if Rlt_dec d2e 0 then sdzero else
  let grad (i : nat) := dot diff_icov (jac i) * d1d2e in
  let hess (i j : nat) :=
    let hess_part := if (i =? 2)%nat && (j =? 2)%nat then hess_derivatives2 else hess_derivative in
    d1d2e * (- g_d2 param * dot diff_icov (jac i) * dot diff_icov (jac j)
             + dot diff_icov hess_part + dot (jac j) (icv (jac i))) in
  mkSad (mkM (hess 0 0) (hess 0 1) (hess 0 2) (hess 1 0) (hess 1 1) (hess 1 2)
             (hess 2 0) (hess 2 1) (hess 2 2))%nat
        (mkV (grad 0%nat) (grad 1%nat) (grad 2%nat)) (- g_d1 param * e).

(** ndt2d.h:470-476: sine and cosine of a small angle are replaced by 0 and 1 *)
Definition smallAngle (th : R) : bool := if Rlt_dec (Rabs th) (/ 10000) then true else false.
Definition cosOf (th : R) : R := if smallAngle th then 1 else cos th.
Definition sinOf (th : R) : R := if smallAngle th then 0 else sin th.

(** a cell of the target of P2D: getICov() and getMean() *)
Record icell := mkI { ic_icov : M3; ic_mean : P2 }.
(** ndt2d.h:459-494, calcScore; [near] is getKNearestNeighbors of the target *)
Definition calcScoreP (near : P2 -> nat -> list icell) (source : list P2) (trans : V3)
  (param : fparams) : sad :=
  fold_left (fun res pt =>
      let tp := t2apply (vecToMat trans) pt in
      fold_left (fun r nb => sdadd r (calcPointScore pt (ic_icov nb) (ic_mean nb) tp
                                        (cosOf (vz trans)) (sinOf (vz trans)) param))
        (near tp 4%nat) res)
    source sdzero.

(** ** Step length *)
Definition xlt (a b : xr) : bool := xgt b a.
Definition xle (a b : xr) : bool :=
  match a, b with
  | NaN, _ | _, NaN => false
  | _, _ => negb (xgt a b)
  end.
Definition xsub (a b : xr) : xr := xadd a (xopp b).
(** sign of a product with an infinite factor *)
Definition xinf (s : R) : xr := if Rlt_dec 0 s then PInf else if Rlt_dec s 0 then MInf else NaN.
Definition xmul (a b : xr) : xr :=
  match a, b with
  | NaN, _ | _, NaN => NaN
  | Fin x, Fin y => Fin (x * y)
  | Fin x, PInf | PInf, Fin x => xinf x
  | Fin x, MInf | MInf, Fin x => xinf (- x)
  | PInf, PInf | MInf, MInf => PInf
  | _, _ => MInf
  end.
(** division; a zero divisor counts as positive *)
Definition xdiv (a b : xr) : xr :=
  match a, b with
  | NaN, _ | _, NaN => NaN
  | Fin x, Fin y => if Req_EM_T y 0 then xinf x else Fin (x / y)
  | Fin _, _ => Fin 0
  | PInf, Fin y => if Rlt_dec y 0 then MInf else PInf
  | MInf, Fin y => if Rlt_dec y 0 then PInf else MInf
  | _, _ => NaN
  end.
Definition xsqrt (a : xr) : xr :=
  match a with
  | Fin x => if Rlt_dec x 0 then NaN else Fin (sqrt x)
  | PInf => PInf
  | _ => NaN
  end.
Definition xabs (a : xr) : xr :=
  match a with Fin x => Fin (Rabs x) | PInf | MInf => PInf | NaN => NaN end.
(** std::min(a, b) = b < a ? b : a and std::max(a, b) = a < b ? b : a *)
Definition xmin (a b : xr) : xr := if xlt b a then b else a.
Definition xmax (a b : xr) : xr := if xlt a b then b else a.

(** an end point of the search interval: step, value, slope *)
Record endpt := mkE { e_a : xr; e_f : xr; e_g : xr }.

(** ndt_reg_tools.h:106-144, updateIntervalMT: new end points and the result *)
Definition updateIntervalMT (l u t : endpt) : endpt * endpt * bool :=
  let s := xmul (e_g t) (xsub (e_a l) (e_a t)) in
  if xgt (e_f t) (e_f l) then (l, t, false)
  else if xgt s (Fin 0) then (t, u, false)
  else if xlt s (Fin 0) then (t, l, false)
  else (l, u, true).

(** the minimizer of the interpolating cubic, ndt_reg_tools.h:156-159,178-181,
    199-201 (from [l]) and 225-228 (from [u]) *)
Definition cubicMin (l t : endpt) : xr :=
  let z := xsub (xsub (xdiv (xmul (Fin 3) (xsub (e_f t) (e_f l))) (xsub (e_a t) (e_a l))) (e_g t)) (e_g l) in
  let w := xsqrt (xsub (xmul z z) (xmul (e_g t) (e_g l))) in
  xadd (e_a l) (xdiv (xmul (xsub (e_a t) (e_a l)) (xsub (xsub w (e_g l)) z))
                     (xadd (xsub (e_g t) (e_g l)) (xmul (Fin 2) w))).
(** ndt_reg_tools.h:186 and 205 *)
Definition secantMin (l t : endpt) : xr :=
  xsub (e_a l) (xmul (xdiv (xsub (e_a l) (e_a t)) (xsub (e_g l) (e_g t))) (e_g l)).
(** ndt_reg_tools.h:164-165 *)
Definition quadMin (l t : endpt) : xr :=
  xsub (e_a l)
    (xdiv (xmul (xmul (Fin (1 / 2)) (xsub (e_a l) (e_a t))) (e_g l))
          (xsub (e_g l) (xdiv (xsub (e_f l) (e_f t)) (xsub (e_a l) (e_a t))))).

(** ndt_reg_tools.h:146-230, trialValueSelectionMT *)
Definition trialValueSelectionMT (l u t : endpt) : xr :=
  if xgt (e_f t) (e_f l) then
    let a_c := cubicMin l t in
    let a_q := quadMin l t in
    if xlt (xabs (xsub a_c (e_a l))) (xabs (xsub a_q (e_a l))) then a_c
    else xmul (Fin (1 / 2)) (xadd a_q a_c)
  else if xlt (xmul (e_g t) (e_g l)) (Fin 0) then
    let a_c := cubicMin l t in
    let a_s := secantMin l t in
    if xle (xabs (xsub a_s (e_a t))) (xabs (xsub a_c (e_a t))) then a_c else a_s
  else if xle (xabs (e_g t)) (xabs (e_g l)) then
    let a_c := cubicMin l t in
    let a_s := secantMin l t in
    let a_t_next := if xlt (xabs (xsub a_c (e_a t))) (xabs (xsub a_s (e_a t))) then a_c else a_s in
    let b := xadd (e_a t) (xmul (Fin (66 / 100)) (xsub (e_a u) (e_a t))) in
    if xgt (e_a t) (e_a l) then xmin b a_t_next else xmax b a_t_next
  else cubicMin u t.

(** ndt_reg_tools.h:245-249 and 263-266 *)
Definition psiMT (a f_a f_0 g_0 mu : xr) : xr := xsub (xsub f_a f_0) (xmul (xmul mu g_0) a).
Definition dPsiMT (g_a g_0 mu : xr) : xr := xsub g_a (xmul mu g_0).

(** phi and phi' at step length [a] from [x] in direction [dir]: line 754-759 of
    d2d_ndt2d.h.  At a step length that is not a number the score is not either. *)
Definition phiAt (sc : V3 -> sad) (x dir : V3) (a : xr) : xr * xr :=
  match a with
  | Fin t => let s := sc (vadd x (vscale t dir)) in (Fin (- sd_val s), Fin (- vdot (sd_grad s) dir))
  | _ => (NaN, NaN)
  end.

Record mtst := mkMT { mt_l : endpt; mt_u : endpt; mt_a : xr; mt_phi : xr; mt_dphi : xr;
                      mt_psi : xr; mt_dpsi : xr; mt_conv : bool; mt_open : bool }.

Definition mtMu : xr := Fin (/ 10000).
Definition mtNu : R := 9 / 10.

(** the body of the while loop, d2d_ndt2d.h:770-826 *)
Definition mtRound (sc : V3 -> sad) (x dir : V3) (smax smin : xr) (phi0 dphi0 : xr) (s : mtst) : mtst :=
  let a0 := if mt_open s
            then trialValueSelectionMT (mt_l s) (mt_u s) (mkE (mt_a s) (mt_psi s) (mt_dpsi s))
            else trialValueSelectionMT (mt_l s) (mt_u s) (mkE (mt_a s) (mt_phi s) (mt_dphi s)) in
  let a := xmax (xmin a0 smax) smin in
  let phi := fst (phiAt sc x dir a) in
  let dphi := snd (phiAt sc x dir a) in
  let psi := psiMT a phi phi0 dphi0 mtMu in
  let dpsi := dPsiMT dphi dphi0 mtMu in
  let close := mt_open s && (xle psi (Fin 0) && xle (Fin 0) dpsi) in
  let toPhi (e : endpt) := mkE (e_a e) (xsub (xadd (e_f e) phi0) (xmul (xmul mtMu dphi0) (e_a e)))
                               (xadd (e_g e) (xmul mtMu dphi0)) in
  let l := if close then toPhi (mt_l s) else mt_l s in
  let u := if close then toPhi (mt_u s) else mt_u s in
  let open := mt_open s && negb close in
  let '(l', u', conv) :=
    if open then updateIntervalMT l u (mkE a psi dpsi) else updateIntervalMT l u (mkE a phi dphi) in
  mkMT l' u' a phi dphi psi dpsi conv open.

(** the condition of the while loop, without the count: 770-772 *)
Definition mtGoOn (dphi0 : xr) (s : mtst) : bool :=
  negb (mt_conv s) && negb (xle (mt_psi s) (Fin 0) && xle (mt_dphi s) (xmul (Fin (- mtNu)) dphi0)).
Fixpoint mtLoop (rounds : nat) (sc : V3 -> sad) (x dir : V3) (smax smin phi0 dphi0 : xr) (s : mtst) : mtst :=
  match rounds with
  | O => s
  | S k => if mtGoOn dphi0 s
           then mtLoop k sc x dir smax smin phi0 dphi0 (mtRound sc x dir smax smin phi0 dphi0 s)
           else s
  end.

(** d2d_ndt2d.h:683-828 and ndt2d.h:557-709, computeStepLengthMT: the direction
    (which may be reversed in place) and the step length.  [sc] is the score the
    search evaluates: in D2D that of the two grids, in P2D that of the cloud
    handed over as [input], which is the output cloud of the registration. *)
Definition computeStepLengthMT (sc : V3 -> sad) (x step_dir : V3) (step_init step_max step_min : R)
  (score : sad) : V3 * xr :=
  let phi0 := - sd_val score in
  let d0 := - vdot (sd_grad score) step_dir in
  if Req_EM_T d0 0 then (step_dir, Fin 0) else
  let rev := if Rle_dec 0 d0 then true else false in
  let dphi0 := if rev then d0 * -1 else d0 in
  let dir := if rev then vscale (-1) step_dir else step_dir in
  let smax := Fin step_max in
  let smin := Fin step_min in
  let e0 := mkE (Fin 0) (psiMT (Fin 0) (Fin phi0) (Fin phi0) (Fin dphi0) mtMu)
                (dPsiMT (Fin dphi0) (Fin dphi0) mtMu) in
  let conv := if Rlt_dec 0 (step_max - step_min) then true else false in
  let a := xmax (xmin (Fin step_init) smax) smin in
  let phi := fst (phiAt sc x dir a) in
  let dphi := snd (phiAt sc x dir a) in
  let s := mkMT e0 e0 a phi dphi (psiMT a phi (Fin phi0) (Fin dphi0) mtMu)
                (dPsiMT dphi (Fin dphi0) mtMu) conv true in
  (dir, mt_a (mtLoop 10 sc x dir smax smin (Fin phi0) (Fin dphi0) s)).

(** ** The Newton iteration *)
(** What a registration object shows after a run: hasConverged(),
    getFinalTransformation(), getFinalNumIteration(), getCovariance(),
    getInformMatrix(). *)
Record rstate := mkRS { rs_conv : bool; rs_final : T2; rs_iter : nat; rs_cov : M3; rs_inf : M3 }.

(** one layer: the score of the two grids of this layer as a function of the
    pose (calcScore), and the score the step search evaluates *)
Record layer := mkL { ly_score : V3 -> sad; ly_search : V3 -> sad }.

Section Newton.
  (** Eigen::JacobiSVD::solve(-gradient); None: a component is not a number *)
  Variable solve : M3 -> V3 -> option V3.
  (** transformation_epsilon_, step_size_, max_iterations_ *)
  Variable eps step : R.
  Variable max_iter : Z.

  (** One round of the loop, d2d_ndt2d.h:454-487 / ndt2d.h:397-438 without the
      convergence test: None when there is no usable direction (lines 463-472 /
      408-417), otherwise the new pose and the step length.  A step length that
      is not a number makes the pose not a number: [None] in the second place. *)
  Definition newtonStep (ly : layer) (xy : V3) : option (option (V3 * R)) :=
    let score := ly_score ly xy in
    match solve (sd_hess score) (vscale (-1) (sd_grad score)) with
    | None => None
    | Some d =>
        if Req_EM_T (vnorm d) 0 then None else
        let r := computeStepLengthMT (ly_search ly) xy (vscale (/ vnorm d) d) (vnorm d) step (eps / 2) score in
        match snd r with
        | Fin a => Some (Some (vadd xy (vscale a (fst r)), a))
        | _ => Some None
        end
    end.

  (** Outcome of one layer: [LFail] is "return false", [LOk] the new transform,
      the iteration count and the score of the last round.  [LLost]: the pose
      is no longer a number, nothing is said about what follows. *)
  Inductive lres := LFail (iter : nat) | LOk (p : V3) (iter : nat) (score : sad) | LLost.

  (** d2d_ndt2d.h:434-514, computeSingleGrid; [None]: more than [fuel] rounds *)
  Fixpoint d2dLoop (fuel : nat) (ly : layer) (xy : V3) (iter : nat) : option lres :=
    match fuel with
    | O => None
    | S k =>
        match newtonStep ly xy with
        | None => Some (LFail iter)
        | Some None => Some LLost
        | Some (Some (xy', a)) =>
            let iter' := S iter in
            if (max_iter <=? Z.of_nat iter')%Z || (if Rlt_dec (Rabs a) eps then true else false)
            then Some (LOk xy' iter' (ly_score ly xy))
            else d2dLoop k ly xy' iter'
        end
    end.

  (** ndt2d.h:378-456, computeSingleGrid *)
  Fixpoint p2dLoop (fuel : nat) (ly : layer) (xy : V3) (iter : nat) : option lres :=
    match fuel with
    | O => None
    | S k =>
        match newtonStep ly xy with
        | None => Some (LFail iter)
        | Some None => Some LLost
        | Some (Some (xy', a)) =>
            if (max_iter <? Z.of_nat iter)%Z
               || (negb (iter =? 0)%nat && (if Rlt_dec (Rabs a) eps then true else false))
            then Some (LOk xy' (S iter) (ly_score ly xy))
            else p2dLoop k ly xy' (S iter)
        end
    end.

  (** d2d_ndt2d.h:418-431 and ndt2d.h:364-375: the layers one after the other.
      [s] is the state left by the layers before; a failing layer leaves its
      own guess in final_transformation_ and identity matrices (464-471). *)
  Fixpoint runLayers (loop : layer -> V3 -> nat -> option lres) (ls : list layer) (trans : T2)
    (s : rstate) : option (option rstate) :=
    match ls with
    | [] => Some (Some (mkRS true trans (rs_iter s) (rs_cov s) (rs_inf s)))
    | ly :: rest =>
        match loop ly (matToVec trans) 0%nat with
        | None => None
        | Some LLost => Some None
        | Some (LFail i) => Some (Some (mkRS false trans i mid mid))
        | Some (LOk p i sc) =>
            runLayers loop rest (vecToMat p)
              (mkRS false (vecToMat p) i (sd_hess sc) (minv (sd_hess sc)))
        end
    end.

  (** pcl::Registration::align resets final_transformation_ and converged_, then
      computeTransformation (d2d_ndt2d.h:403-432, ndt2d.h:348-376).  [ready]:
      both grids (P2D: target grid and source cloud) were set. *)
  Definition d2dAlign (fuel : nat) (ready : bool) (ls : list layer) (guess : T2) (s : rstate)
    : option (option rstate) :=
    let s0 := mkRS false t2id (rs_iter s) (rs_cov s) (rs_inf s) in
    if ready then runLayers (d2dLoop fuel) ls guess s0 else Some (Some s0).
  Definition p2dAlign (fuel : nat) (ready : bool) (ls : list layer) (guess : T2) (s : rstate)
    : option (option rstate) :=
    let s0 := mkRS false t2id (rs_iter s) (rs_cov s) (rs_inf s) in
    if ready then runLayers (p2dLoop fuel) ls guess s0 else Some (Some s0).
End Newton.

(** ** Settings: the resolution pyramid *)
(** layer_count_, cell_sizes_, outlier_ratio_, params_ *)
Record regcfg := mkCfg { cf_layers : nat; cf_sizes : list R; cf_ratio : R; cf_params : list fparams }.
(** std::vector::back(); undefined on an empty vector *)
Definition vback (l : list R) : res R := vget l (length l - 1).

(** d2d_ndt2d.h:298-305, ndt2d.h:268-275, initParams *)
Definition initParams (c : regcfg) : regcfg :=
  mkCfg (cf_layers c) (cf_sizes c) (cf_ratio c)
        (map (fun s => calcParams (cf_ratio c) (1 / s)) (cf_sizes c)).
(** d2d_ndt2d.h:317-328, ndt2d.h:277-288, initCellSizes; the layer count is taken
    to fit an int (line 324) *)
Definition initCellSizes (c : regcfg) (base : R) : res (regcfg * bool) :=
  do same <- (if (length (cf_sizes c) =? 0)%nat then Ok false
              else do b <- vback (cf_sizes c);
                   Ok ((if Req_EM_T b base then true else false)
                       && (length (cf_sizes c) =? cf_layers c)%nat));
  if (same : bool) then Ok (c, false)
  else Ok (mkCfg (cf_layers c) (map (fun i => base * 2 ^ i) (rev (seq 0 (cf_layers c))))
                 (cf_ratio c) (cf_params c), true).
(** d2d_ndt2d.h:66-71, setNumLayers *)
Definition setNumLayers (c : regcfg) (num : nat) : res regcfg :=
  do b <- vback (cf_sizes c);
  do r <- initCellSizes (mkCfg num (cf_sizes c) (cf_ratio c) (cf_params c)) b;
  Ok (initParams (fst r)).
(** d2d_ndt2d.h:83-88, setCellSize *)
Definition setCellSize (c : regcfg) (size : R) : res regcfg :=
  do r <- initCellSizes c size;
  Ok (if snd r then initParams (fst r) else fst r).
(** d2d_ndt2d.h:135-139, setOulierRatio *)
Definition setOutlierRatio (c : regcfg) (ratio : R) : regcfg :=
  initParams (mkCfg (cf_layers c) (cf_sizes c) ratio (cf_params c)).
(** d2d_ndt2d.h:95-98, getCellSize *)
Definition getCellSize (c : regcfg) : res R := vback (cf_sizes c).
(** d2d_ndt2d.h:381-400, constructor (outlier ratio 0.55; P2D: 0.30, ndt2d.h:332-346) *)
Definition newReg (ratio : R) : res regcfg :=
  do r <- initCellSizes (mkCfg 4 [] ratio []) (1 / 4);
  Ok (initParams (fst r)).
Inductive cfgop := SetLayers (n : nat) | SetCell (s : R) | SetRatio (r : R) | AskCell.
Definition cfgstep (c : regcfg) (o : cfgop) : res regcfg :=
  match o with
  | SetLayers n => setNumLayers c n
  | SetCell s => setCellSize c s
  | SetRatio r => Ok (setOutlierRatio c r)
  | AskCell => do _ <- getCellSize c; Ok c
  end.

(** ** The robust registration *)
Record robst := mkRob { rb_conv : bool; rb_final : T2; rb_quality : R }.
(** d2d_ndt2d_robust.h:325-379, computeTransformation.  [d2d] and [corr] are the
    two component registrations, align(guess) to hasConverged() and
    getFinalTransformation(); [proof] is proofTransform.  first_trans is not
    initialised when the first match is good. *)
Definition robustAlign (d2d corr : T2 -> bool * T2) (proof : T2 -> R) (limit : R) (guess : T2)
  : res robst :=
  let r1 := d2d guess in
  let score := proof (snd r1) in
  let good := fst r1 && (if Rlt_dec (7 / 10) score then true else false) in
  let finish (first : option T2) (t : T2) : res robst :=
    let score2 := proof t in
    if Rlt_dec score2 limit then
      if Rlt_dec (6 / 10) score then
        match first with Some f => Ok (mkRob true f score) | None => UB end
      else Ok (mkRob false t score)
    else Ok (mkRob true t score2) in
  if good then finish None (snd r1)
  else
    let rc := corr guess in
    if negb (fst rc) then Ok (mkRob false t2id 0)
    else
      let r2 := d2d (snd rc) in
      if negb (fst r2) then Ok (mkRob false (snd rc) 0)
      else finish (Some (snd r1)) (snd r2).

(** d2d_ndt2d_robust.h:115-122, setRejectionLimit *)
Definition setRejectionLimit (limit : R) : res R :=
  if Rlt_dec limit 1 then if Rlt_dec 0 limit then Ok limit else Throw else Throw.
