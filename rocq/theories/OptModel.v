(** Model of the two g2o plug-ins in ndt_gslam/src/slam_optimizer: max_mixture
    (edge_se2_mixture.cpp) and switchable_constraints (vertex_switchLinear.cpp,
    edge_se2Switchable.cpp, edge_switchPrior.cpp).

    Numbers are reals; what a double can be besides a number is kept where the
    code can meet it: [NaN], [PInf], [MInf].  A g2o::SE2 is a pose; its product
    and inverse are those of rigid transforms, and toVector() normalises the
    angle, as in [getPoseFromTransform]. *)
From Coq Require Import Reals ZArith List Lra.
From Verif Require Import Base LinAlg3 GeoModel.
Import ListNotations.
Open Scope R_scope.

(** ** Numbers that can be infinite or undefined *)
Inductive xr := Fin (r : R) | PInf | MInf | NaN.
(** a > b on doubles; false as soon as one of them is undefined *)
Definition xgt (a b : xr) : bool :=
  match a, b with
  | NaN, _ | _, NaN => false
  | Fin x, Fin y => if Rlt_dec y x then true else false
  | PInf, PInf => false | PInf, _ => true | _, PInf => false
  | MInf, _ => false | _, MInf => true
  end.
Definition xadd (a b : xr) : xr :=
  match a, b with
  | Fin x, Fin y => Fin (x + y)
  | NaN, _ | _, NaN => NaN
  | PInf, MInf | MInf, PInf => NaN
  | PInf, _ | _, PInf => PInf
  | MInf, _ | _, MInf => MInf
  end.
Definition xopp (a : xr) : xr :=
  match a with Fin x => Fin (- x) | PInf => MInf | MInf => PInf | NaN => NaN end.
Definition xhalf (a : xr) : xr := match a with Fin x => Fin (1 / 2 * x) | _ => a end.
(** std::log *)
Definition xlog (x : R) : xr :=
  if Rlt_dec 0 x then Fin (ln x) else if Req_EM_T x 0 then MInf else NaN.

(** ** Max mixture *)
(** A g2o::EdgeSE2: the two vertices (their ids), the measurement, the
    information matrix and the last computed error. *)
Record sedge := mkSE { se_v0 : nat; se_v1 : nat; se_meas : pose; se_info : M3; se_err : pose }.

(** g2o::EdgeSE2::computeError (g2o, not in the repository):
    inverseMeasurement * (v1^-1 * v2) as a vector.  [est] gives the estimates of
    the vertices. *)
Definition seError (est : nat -> pose) (e : sedge) : sedge :=
  mkSE (se_v0 e) (se_v1 e) (se_meas e) (se_info e)
       (calcError (est (se_v0 e)) (est (se_v1 e)) (se_meas e)).
Definition vecOf (p : pose) : V3 := mkV (px p) (py p) (pth p).
(** g2o chi2(): error^T * information * error *)
Definition chi2 (e : sedge) : R := quad (se_info e) (vecOf (se_err e)).

(** Members of EdgeSE2Mixture (max_mixture/edge_se2_mixture.h:44-100): the edge
    itself, numberComponents, bestComponent (not set by the default constructor,
    whose line 43 declares a local variable instead), allEdges, weights and
    determinants. *)
Record mixture := mkMix {
  mx_self : sedge; mx_n : nat; mx_best : option Z;
  mx_edges : list sedge; mx_w : list R; mx_det : list R }.

(** edge_se2_mixture.cpp:40-44, default constructor *)
Definition newMixture (self : sedge) : mixture := mkMix self 0 None [] [] [].

(** edge_se2_mixture.cpp:72-83, UpdateBelief; [i] is an index into allEdges and
    -1 when no component was chosen.  g2o's SE2(x, y, theta) keeps the angle. *)
Definition updateBelief (m : mixture) (i : Z) : res mixture :=
  do c <- (if (i <? 0)%Z then UB else vget (mx_edges m) (Z.to_nat i));
  Ok (mkMix (mkSE (se_v0 c) (se_v1 c) (se_meas c) (se_info c) (se_err (mx_self m)))
            (mx_n m) (mx_best m) (mx_edges m) (mx_w m) (mx_det m)).

(** edge_se2_mixture.cpp:106-112, getNegLogProb: the component's error is
    recomputed and kept in the component *)
Definition getNegLogProb (est : nat -> pose) (m : mixture) (c : nat) : res (mixture * xr) :=
  do e <- vget (mx_edges m) c;
  do w <- vget (mx_w m) c;
  do d <- vget (mx_det m) c;
  let e' := seError est e in
  do es <- vset (mx_edges m) c e';
  Ok (mkMix (mx_self m) (mx_n m) (mx_best m) es (mx_w m) (mx_det m),
      xadd (xadd (xopp (xlog w)) (xhalf (xlog d))) (Fin (1 / 2 * chi2 e'))).

(** edge_se2_mixture.cpp:86-104, computeError.  minError starts at the largest
    double; here it starts at [PInf], that is, a finite value never reaches the
    largest double. *)
Definition bestStep (est : nat -> pose) (s : mixture * Z * xr) (i : nat) : res (mixture * Z * xr) :=
  let '(m, best, minError) := s in
  do r <- getNegLogProb est m i;
  let '(m', p) := r in
  Ok (if xgt minError p then (m', Z.of_nat i, p) else (m', best, minError)).
Definition computeErrorMix (est : nat -> pose) (m : mixture) : res mixture :=
  do s <- foldM (bestStep est) (seq 0 (mx_n m)) (m, (-1)%Z, PInf);
  let '(m1, best, _) := s in
  do m2 <- updateBelief (mkMix (mx_self m1) (mx_n m1) (Some best) (mx_edges m1) (mx_w m1) (mx_det m1)) best;
  Ok (mkMix (seError est (mx_self m2)) (mx_n m2) (mx_best m2) (mx_edges m2) (mx_w m2) (mx_det m2)).

(** edge_se2_mixture.cpp:57-70, initializeComponents: the determinants are
    appended to those already there *)
Definition initComponents (est : nat -> pose) (m : mixture) (es : list sedge) (ws : list R) : res mixture :=
  computeErrorMix est
    (mkMix (mx_self m) (length es) (mx_best m) es ws
           (mx_det m ++ map (fun e => mdet (minv (se_info e))) es)).

(** ** Switchable constraints *)
(** Members of VertexSwitchLinear: _x and the _estimate of the base class.
    [None] is a double that is not a number. *)
Record switch := mkSw { sw_x : option R; sw_est : option R }.
Inductive swop :=
  | SwOrigin                      (* setToOriginImpl, 30-34 *)
  | SwSet (v : option R)          (* setEstimate, 36-40; read, 15-21 *)
  | SwOplus (u : option R).       (* oplusImpl, 42-52 *)
(** x < 0 and x > 1 are false for a number that is not one *)
Definition sw_lt0 (x : option R) : bool :=
  match x with Some r => if Rlt_dec r 0 then true else false | None => false end.
Definition sw_gt1 (x : option R) : bool :=
  match x with Some r => if Rlt_dec 1 r then true else false | None => false end.
Definition swstep (s : switch) (o : swop) : switch :=
  match o with
  | SwOrigin => mkSw (Some 0) (Some 0)
  | SwSet v => mkSw v v
  | SwOplus u =>
      let x := match sw_x s, u with Some a, Some b => Some (a + b) | _, _ => None end in
      let x := if sw_lt0 x then Some 0 else x in
      let x := if sw_gt1 x then Some 1 else x in
      mkSw x x
  end.
(** vertex_switchLinear.h:21-24, the constructor calls setToOrigin *)
Definition newSwitch : switch := mkSw (Some 0) (Some 0).
Definition swrun (ops : list swop) : switch := fold_left swstep ops newSwitch.

(** edge_se2Switchable.cpp:108-118, computeError: [z] is the measurement, [s]
    the estimate of the switch vertex *)
Definition switchError (vi vj z : pose) (s : R) : pose :=
  let d := calcError vi vj z in mkP (px d * s) (py d * s) (pth d * s).

(** edge_se2Switchable.cpp:58-104, linearizeOplus: the three blocks *)
Definition switchJacobians (vi vj z : pose) (s : R) : M3 * M3 * V3 :=
  let thetai := pth vi in
  let dx := px vj - px vi in
  let dy := py vj - py vi in
  let si := sin thetai in
  let ci := cos thetai in
  let j0 := mkM (- ci) (- si) (- si * dx + ci * dy)
                si (- ci) (- ci * dx - si * dy)
                0 0 (-1) in
  let j1 := mkM ci si 0 (- si) ci 0 0 0 1 in
  let iz := getPoseFromTransform (t2inv (getTransFromPose z)) in
  let zz := mkM (cos (pth iz)) (- sin (pth iz)) 0 (sin (pth iz)) (cos (pth iz)) 0 0 0 1 in
  let d := calcError vi vj z in
  (mscale s (mmul zz j0), mscale s (mmul zz j1), vscale 1 (vecOf d)).

(** edge_switchPrior.cpp:26-32, computeError and linearizeOplus (21-24) *)
Definition priorError (meas x : R) : R := meas - x.
Definition priorJacobian : R := -1.
