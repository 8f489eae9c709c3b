(** Model of the rest of the g2o plug-ins in ndt_gslam/src/slam_optimizer: the text
    format of all edges and vertices, switchable_constraints/edge_se2MaxMixture.cpp,
    the 3-D and landmark variants of the mixture edge, and the way g2o takes back a
    step.

    A text is a list of tokens: numbers are written and read back exactly (the
    rounding to six digits of operator<< is not modelled). *)
From Coq Require Import Reals ZArith List Lra.
From Verif Require Import Base LinAlg3 GeoModel OptModel.
Import ListNotations.
Open Scope R_scope.

(** ** Text *)
Inductive tok := TNum (x : R) | TInt (n : Z) | TTag.
(** An input stream: what is left to read, or the failed state. *)
Definition stream := option (list tok).
(** operator>> into a double that holds [old]: a failed stream and the end of the
    text leave it as it is, a word makes it 0 *)
Definition rdNum (s : stream) (old : R) : R * stream :=
  match s with
  | None => (old, None)
  | Some [] => (old, None)
  | Some (TNum x :: t) => (x, Some t)
  | Some (TInt n :: t) => (IZR n, Some t)
  | Some (TTag :: _) => (0, None)
  end.
(** operator>> into an int; a number with a fraction part is not followed further *)
Definition rdInt (s : stream) (old : Z) : Z * stream :=
  match s with
  | Some (TInt n :: t) => (n, Some t)
  | Some (TNum _ :: _) | Some (TTag :: _) => (0%Z, None)
  | _ => (old, None)
  end.
(** operator>> into a std::string takes anything *)
Definition rdWord (s : stream) : stream :=
  match s with Some (_ :: t) => Some t | _ => None end.

(** The loops over i and j >= i that write and read the upper triangle *)
Definition wrInfo (m : M3) : list tok :=
  map TNum [m11 m; m12 m; m13 m; m22 m; m23 m; m33 m].
Definition rdInfo (s : stream) (m : M3) : M3 * stream :=
  let (a, s) := rdNum s (m11 m) in
  let (b, s) := rdNum s (m12 m) in
  let (c, s) := rdNum s (m13 m) in
  let (d, s) := rdNum s (m22 m) in
  let (e, s) := rdNum s (m23 m) in
  let (f, s) := rdNum s (m33 m) in
  (mkM a b c b d e c e f, s).
Definition wrPose (p : pose) : list tok := [TNum (px p); TNum (py p); TNum (pth p)].
(** Vector3d p; is >> p[0] >> p[1] >> p[2].  [junk] is what the local variable holds. *)
Definition rdPose (s : stream) (junk : pose) : pose * stream :=
  let (a, s) := rdNum s (px junk) in
  let (b, s) := rdNum s (py junk) in
  let (c, s) := rdNum s (pth junk) in
  (mkP a b c, s).

(** vertex_switchLinear.cpp:15-27, read and write *)
Definition swWrite (v : R) : list tok := [TNum v].
Definition swRead (s : stream) (old : R) : switch * stream :=
  let (x, s) := rdNum s old in (mkSw (Some x) (Some x), s).
(** edge_switchPrior.cpp:4-19: measurement and information(0, 0) *)
Definition priorWrite (e : R * R) : list tok := [TNum (fst e); TNum (snd e)].
Definition priorRead (s : stream) (junk : R) (e : R * R) : (R * R) * stream :=
  let (m, s) := rdNum s junk in
  let (i, s) := rdNum s (snd e) in
  ((m, i), s).
(** edge_se2Switchable.cpp:29-54; the inverse measurement is always that of the
    measurement *)
Definition switchableWrite (e : pose * M3) : list tok := wrPose (fst e) ++ wrInfo (snd e).
Definition switchableRead (s : stream) (junk : pose) (e : pose * M3) : (pose * M3) * stream :=
  let (p, s) := rdPose s junk in
  let (i, s) := rdInfo s (snd e) in
  ((p, i), s).

(** edge_se2_mixture.cpp:190-217, write: a component is the tag of its type, its
    weight, the ids of its vertices, measurement and information *)
Definition compWrite (ew : sedge * R) : list tok :=
  [TTag; TNum (snd ew); TInt (Z.of_nat (se_v0 (fst ew))); TInt (Z.of_nat (se_v1 (fst ew)))] ++
  wrPose (se_meas (fst ew)) ++ wrInfo (se_info (fst ew)).
Definition mixWrite (m : mixture) : res (list tok) :=
  do cs <- foldM (fun acc c =>
      do e <- vget (mx_edges m) c;
      do w <- vget (mx_w m) c;
      Ok (acc ++ compWrite (e, w))) (seq 0 (mx_n m)) [];
  Ok (TInt (Z.of_nat (mx_n m)) :: cs).

(** edge_se2_mixture.cpp:137-188, read.  New components are appended, but it is
    component number c that gets the values read: those are the same only if there
    was none before.  [fresh] is a new g2o::EdgeSE2 (unset vertices); [verts] are the
    ids of the vertices of the graph (a missing one fails the assertion). *)
Definition setComp (es : list sedge) (c : nat) (v0 v1 : nat) (p : pose) (i : M3) : res (list sedge) :=
  do e <- vget es c;
  vset es c (mkSE v0 v1 p i (se_err e)).
Definition readComp (fresh : sedge) (junk : pose) (junkM : M3) (verts : list nat)
  (st : list sedge * list R * R * stream) (c : nat) : res (list sedge * list R * R * stream) :=
  let '(es, ws, w0, s) := st in
  let es := es ++ [fresh] in
  let s := rdWord s in
  let (w, s) := rdNum s w0 in
  let ws := ws ++ [w] in
  let (na, s) := rdInt s 0%Z in
  let (nb, s) := rdInt s 0%Z in
  if negb (existsb (Nat.eqb (Z.to_nat na)) verts && existsb (Nat.eqb (Z.to_nat nb)) verts) then Throw
  else
    let (p, s) := rdPose s junk in
    let (i, s) := rdInfo s junkM in
    do es' <- setComp es c (Z.to_nat na) (Z.to_nat nb) p i;
    Ok (es', ws, w, s).
Definition mixRead (fresh : sedge) (junk : pose) (junkM : M3) (verts : list nat) (est : nat -> pose)
  (m : mixture) (s : stream) : res (mixture * stream) :=
  let (n, s) := rdInt s (Z.of_nat (mx_n m)) in
  let n := Z.to_nat n in
  do r <- foldM (readComp fresh junk junkM verts) (seq 0 n) (mx_edges m, mx_w m, px junk, s);
  let '(es, ws, _, s) := r in
  do ds <- foldM (fun ds i => do e <- vget es i; Ok (ds ++ [mdet (minv (se_info e))])) (seq 0 n) (mx_det m);
  do m' <- computeErrorMix est (mkMix (mx_self m) n (mx_best m) es ws ds);
  Ok (m', s).

(** ** The edge with a null hypothesis *)
(** Members of EdgeSE2MaxMixture (edge_se2MaxMixture.h:14-33): the edge itself, and
    what only read() sets: weight, the two information matrices and factors. *)
Record nhset := mkNS { ns_w : R; ns_infoC : M3; ns_nuC : R; ns_infoN : M3; ns_nuN : R }.
Record nhedge := mkNH { nh_edge : sedge; nh_null : bool; nh_set : option nhset }.
(** edge_se2MaxMixture.cpp:18-21 *)
Definition newNH (e : sedge) : nhedge := mkNH e false None.
(** edge_se2MaxMixture.cpp:24-44; division by a vanishing determinant is not
    modelled.  [old] is what the weight holds before. *)
Definition nhRead (s : stream) (old : R) (junk : pose) (h : nhedge) : nhedge * stream :=
  let e := nh_edge h in
  let (w, s) := rdNum s old in
  let (p, s) := rdPose s junk in
  let (i, s) := rdInfo s (se_info e) in
  let iN := mscale w i in
  (mkNH (mkSE (se_v0 e) (se_v1 e) p i (se_err e)) (nh_null h)
        (Some (mkNS w i (1 / sqrt (mdet (minv i))) iN (1 / sqrt (mdet (minv iN))))), s).
(** edge_se2MaxMixture.cpp:46-54 *)
Definition nhWrite (h : nhedge) : list tok := wrPose (se_meas (nh_edge h)) ++ wrInfo (se_info (nh_edge h)).
(** edge_se2MaxMixture.cpp:67-91, computeError *)
Definition nhError (est : nat -> pose) (h : nhedge) : res nhedge :=
  match nh_set h with
  | None => UB
  | Some n =>
      let e := seError est (nh_edge h) in
      let v := vecOf (se_err e) in
      let likeC := ns_nuC n * exp (- quad (ns_infoC n) v) in
      let likeN := ns_nuN n * exp (- quad (ns_infoN n) v) in
      let null := if Rlt_dec likeC likeN then true else false in
      Ok (mkNH (mkSE (se_v0 e) (se_v1 e) (se_meas e) (if null then ns_infoN n else ns_infoC n) (se_err e))
               null (nh_set h))
  end.
(** g2o::EdgeSE2::linearizeOplus (g2o, not in the repository): the blocks of the
    switchable constraint with the switch at 1 *)
Definition plainJacobians (vi vj z : pose) : M3 * M3 := fst (switchJacobians vi vj z 1).
(** edge_se2MaxMixture.cpp:57-64, linearizeOplus *)
Definition nhJacobians (est : nat -> pose) (h : nhedge) : res (M3 * M3) :=
  let e := nh_edge h in
  let j := plainJacobians (est (se_v0 e)) (est (se_v1 e)) (se_meas e) in
  if nh_null h then
    match nh_set h with
    | None => UB
    | Some n => Ok (mscale (ns_w n) (fst j), mscale (ns_w n) (snd j))
    end
  else Ok j.

(** ** The mixture edge over any kind of component *)
(** edge_se3_mixture.cpp:40-126 and edge_se2_pointxy_mixture.cpp:40-128 are the code
    of edge_se2_mixture.cpp for g2o::EdgeSE3 and g2o::EdgeSE2PointXY.  A component
    [C] (vertices, measurement, information) has a squared error at an estimate
    [S] and the determinant of its covariance.  What the components keep of their
    last error is left out: it is not read again. *)
Section GenericMixture.
  Context {C S : Type}.
  Variable chi : S -> C -> R.
  Variable det : C -> R.
  (** the edge itself shows a component ([None]: what it was made with) *)
  Record gmix := mkGM { gm_self : option C; gm_best : option Z; gm_n : nat;
                        gm_all : list C; gm_w : list R; gm_det : list R }.
  Definition newG : gmix := mkGM None None 0 [] [] [].
  (** edge_se3_mixture.cpp:103-109, edge_se2_pointxy_mixture.cpp:105-111 *)
  Definition gNegLog (s : S) (m : gmix) (c : nat) : res xr :=
    do e <- vget (gm_all m) c;
    do w <- vget (gm_w m) c;
    do d <- vget (gm_det m) c;
    Ok (xadd (xadd (xopp (xlog w)) (xhalf (xlog d))) (Fin (1 / 2 * chi s e))).
  (** edge_se3_mixture.cpp:70-101, edge_se2_pointxy_mixture.cpp:70-103 *)
  Definition gStep (s : S) (m : gmix) (st : Z * xr) (i : nat) : res (Z * xr) :=
    do p <- gNegLog s m i;
    Ok (if xgt (snd st) p then (Z.of_nat i, p) else st).
  Definition gError (s : S) (m : gmix) : res gmix :=
    do b <- foldM (gStep s m) (seq 0 (gm_n m)) ((-1)%Z, PInf);
    do c <- (if (fst b <? 0)%Z then UB else vget (gm_all m) (Z.to_nat (fst b)));
    Ok (mkGM (Some c) (Some (fst b)) (gm_n m) (gm_all m) (gm_w m) (gm_det m)).
  (** edge_se3_mixture.cpp:57-68, edge_se2_pointxy_mixture.cpp:57-68 *)
  Definition gInit (s : S) (m : gmix) (es : list C) (ws : list R) : res gmix :=
    gError s (mkGM (gm_self m) (gm_best m) (length es) es ws (gm_det m ++ map det es)).
  (** edge_se3_mixture.cpp:111-115: chooses again, then the Jacobian of the shown
      component is computed *)
  Definition gLinearize3 (s : S) (m : gmix) : res gmix := gError s m.
  (** edge_se2_pointxy_mixture.cpp:113-117: calls the error of the base class, which
      chooses nothing *)
  Definition gLinearizeXY (s : S) (m : gmix) : res gmix := Ok m.
End GenericMixture.

(** g2o::EdgeSE2PointXY (g2o, not in the repository): robot and landmark vertex,
    measurement, diagonal information; chi2 of the error
    (robot^-1 * landmark) - measurement *)
Record xyedge := mkXY { xy_v0 : nat; xy_v1 : nat; xy_mx : R; xy_my : R; xy_ix : R; xy_iy : R }.
Definition xyChi (s : (nat -> pose) * (nat -> P2)) (e : xyedge) : R :=
  let q := t2apply (t2inv (getTransFromPose (fst s (xy_v0 e)))) (snd s (xy_v1 e)) in
  xy_ix e * (fst q - xy_mx e) * (fst q - xy_mx e) + xy_iy e * (snd q - xy_my e) * (snd q - xy_my e).
Definition xyDet (e : xyedge) : R := / (xy_ix e * xy_iy e).

(** ** Taking back a step *)
(** g2o::BaseVertex::push, pop and discardTop (g2o, not in the repository) keep
    copies of _estimate only *)
Inductive vop := VOp (o : swop) | VPush | VPop | VDiscard.
Record stacked := mkSt { st_sw : switch; st_stack : list (option R) }.
Definition vstep (v : stacked) (o : vop) : res stacked :=
  match o with
  | VOp o => Ok (mkSt (swstep (st_sw v) o) (st_stack v))
  | VPush => Ok (mkSt (st_sw v) (sw_est (st_sw v) :: st_stack v))
  | VPop => match st_stack v with
            | [] => UB
            | e :: t => Ok (mkSt (mkSw (sw_x (st_sw v)) e) t)
            end
  | VDiscard => match st_stack v with [] => UB | _ :: t => Ok (mkSt (st_sw v) t) end
  end.
Definition newStacked : stacked := mkSt newSwitch [].
