(** What the registrations promise, in terms of their inputs and of what a caller
    reads from them. *)
From Coq Require Import Reals ZArith List Permutation.
From Verif Require Import Base LinAlg3 GeoModel GeoSpec OptModel RegModel.
Import ListNotations.
Open Scope R_scope.

(** [x] moved into the interval from [lo] to [hi]; [lo] wins if they cross. *)
Definition clamped (lo hi x y : R) : Prop :=
  (y = x /\ lo <= x <= hi) \/ (y = lo /\ (x < lo \/ hi < lo)) \/ (y = hi /\ hi < x /\ lo <= hi).

(** ** Densities *)
(** squared Mahalanobis distance for covariance [c] *)
Definition mahal (c : M3) (x : V3) : R := quad (minv c) x.
(** the score of a squared distance *)
Definition fitted (p : fparams) (d : R) : R := - g_d1 p * exp (- g_half p * d).

(** ** Derivatives of functions of a pose vector (x, y, angle) *)
Definition is_gradient (f : V3 -> R) (g : V3) (p : V3) : Prop :=
  derivable_pt_lim (fun s => f (mkV s (vy p) (vz p))) (vx p) (vx g) /\
  derivable_pt_lim (fun s => f (mkV (vx p) s (vz p))) (vy p) (vy g) /\
  derivable_pt_lim (fun s => f (mkV (vx p) (vy p) s)) (vz p) (vz g).
Definition near (r : R) (p q : V3) : Prop :=
  Rabs (vx q - vx p) < r /\ Rabs (vy q - vy p) < r /\ Rabs (vz q - vz p) < r.
(** [h] holds the second partial derivatives of [f] at [p]: around [p] there is a
    gradient, and [h] holds the partial derivatives of its components. *)
Definition is_hessian (f : V3 -> R) (h : M3) (p : V3) : Prop :=
  exists (G : V3 -> V3) (r : R), 0 < r /\ (forall q, near r p q -> is_gradient f (G q) q) /\
    is_gradient (fun q => vx (G q)) (mkV (m11 h) (m12 h) (m13 h)) p /\
    is_gradient (fun q => vy (G q)) (mkV (m21 h) (m22 h) (m23 h)) p /\
    is_gradient (fun q => vz (G q)) (mkV (m31 h) (m32 h) (m33 h)) p.

(** ** D2D *)
(** the turn by an angle about z *)
Definition turn (a : R) : M3 := mkM (cos a) (- sin a) 0 (sin a) (cos a) 0 0 0 1.
(** a distribution after the planar motion (x, y, angle) *)
Definition moved (u : V3) (c : gcell) : gcell :=
  mkG (vadd (mvmul (turn (vz u)) (gc_mean c)) (mkV (vx u) (vy u) 0))
      (mmul (mmul (turn (vz u)) (gc_cov c)) (mtr (turn (vz u)))).
(** score of two distributions: of the distance of the means under the sum of
    the covariances *)
Definition pair_score (p : fparams) (s t : gcell) : R :=
  fitted p (mahal (madd (gc_cov t) (gc_cov s)) (vsub (gc_mean s) (gc_mean t))).
(** the sum of covariances is far enough from singular for the code *)
Definition regular_pair (s t : gcell) : Prop :=
  sym (gc_cov s) /\ sym (gc_cov t) /\ / 10 ^ 12 < Rabs (mdet (madd (gc_cov t) (gc_cov s))).
(** covariances are symmetric *)
Definition sym_pair (m : gcell * gcell) : Prop := sym (gc_cov (fst m)) /\ sym (gc_cov (snd m)).
(** the pairs whose sum of covariances can be inverted; the others are left out *)
Definition usable (ms : list (gcell * gcell)) : list (gcell * gcell) :=
  filter (fun m => if Rlt_dec (/ 10 ^ 12) (Rabs (mdet (madd (gc_cov (snd m)) (gc_cov (fst m)))))
                   then true else false) ms.
Definition Rsum (l : list R) : R := fold_right Rplus 0 l.
(** The source cells at pose [p], each with the target cells chosen for it. *)
Definition matches (nearest : P2 -> nat -> list gcell) (source : list gcell) (p : V3)
  : list (gcell * gcell) :=
  flat_map (fun c => let c' := moved p c in
                     map (fun t => (c', t)) (nearest (vx (gc_mean c'), vy (gc_mean c')) 2%nat)) source.
(** the same with the source cells where they were *)
Definition matched (nearest : P2 -> nat -> list gcell) (source : list gcell) (p : V3)
  : list (gcell * gcell) :=
  flat_map (fun c => let m := gc_mean (moved p c) in
                     map (fun t => (c, t)) (nearest (vx m, vy m) 2%nat)) source.
(** total score when the source is moved by a further [u], matches kept *)
Definition total_score (p : fparams) (ms : list (gcell * gcell)) (u : V3) : R :=
  Rsum (map (fun m => pair_score p (moved u (fst m)) (snd m)) ms).

(** ** P2D *)
Definition quad2 (c : M3) (v : P2) : R :=
  m11 c * fst v * fst v + (m12 c + m21 c) * fst v * snd v + m22 c * snd v * snd v.
Definition point_score (p : fparams) (c : icell) (pt : P2) (q : V3) : R :=
  let w := t2apply (getTransFromPose (mkP (vx q) (vy q) (vz q))) pt in
  fitted p (quad2 (ic_icov c) (fst w - fst (ic_mean c), snd w - snd (ic_mean c))).
Definition sym2 (c : M3) : Prop := m12 c = m21 c.
(** a cell whose inverse covariance is one: symmetric, no negative distances *)
Definition proper (c : icell) : Prop :=
  sym2 (ic_icov c) /\ forall v, 0 <= quad2 (ic_icov c) v.
(** the cloud at pose [q], each point with the cells chosen for it *)
Definition pmatches (near : P2 -> nat -> list icell) (source : list P2) (q : V3) : list (P2 * icell) :=
  flat_map (fun pt => map (fun c => (pt, c))
              (near (t2apply (getTransFromPose (mkP (vx q) (vy q) (vz q))) pt) 4%nat)) source.
Definition total_points (p : fparams) (ms : list (P2 * icell)) (q : V3) : R :=
  Rsum (map (fun m => point_score p (snd m) (fst m) q) ms).
(** what the second derivative of the turned point adds to the second derivative
    of the score in the angle *)
Definition bend (p : fparams) (c : icell) (pt : P2) (q : V3) : R :=
  let w := t2apply (getTransFromPose (mkP (vx q) (vy q) (vz q))) pt in
  let d := (fst w - fst (ic_mean c), snd w - snd (ic_mean c)) in
  let r := (fst w - vx q, snd w - vy q) in
  let i := ic_icov c in
  - g_d1 p * g_d2 p * exp (- g_half p * quad2 i d) *
  (fst d * (m11 i * fst r + m12 i * snd r) + snd d * (m21 i * fst r + m22 i * snd r)).

(** one everywhere, minus one for the angle with itself *)
Definition all_but_angle : M3 := mkM 1 1 1 1 1 1 1 1 (-1).
(** an angle whose sine and cosine are not replaced by 0 and 1 *)
Definition exact_angle (a : R) : Prop := a = 0 \/ / 10000 <= Rabs a.

(** how far a point and its weighted distance to the mean can turn an error of the
    direction into one of the slope in the angle *)
Definition extent (v : P2) : R := Rabs (fst v) + Rabs (snd v).
Definition lever (p : fparams) (c : icell) (pt : P2) (q : V3) : R :=
  let w := t2apply (getTransFromPose (mkP (vx q) (vy q) (vz q))) pt in
  let d := (fst w - fst (ic_mean c), snd w - snd (ic_mean c)) in
  let i := ic_icov c in
  Rabs (g_d1 p * g_d2 p) * exp (- g_half p * quad2 i d) *
  (extent (fst d * m11 i + snd d * m21 i, fst d * m12 i + snd d * m22 i) * extent pt).

(** ** Work distribution *)
(** every cell of [n] is worked on exactly once, by one of the threads *)
Definition schedule (threads n : nat) (sched : list (nat * nat)) : Prop :=
  Permutation (map snd sched) (seq 0 n) /\ Forall (fun e => (fst e < threads)%nat) sched.

(** ** Settings *)
Definition asked_layers (ops : list cfgop) : nat :=
  fold_left (fun n o => match o with SetLayers m => m | _ => n end) ops 4%nat.
Definition asked_cell (ops : list cfgop) : R :=
  fold_left (fun c o => match o with SetCell s => s | _ => c end) ops (1 / 4).
Definition asked_ratio (r : R) (ops : list cfgop) : R :=
  fold_left (fun c o => match o with SetRatio s => s | _ => c end) ops r.
(** from the coarsest layer to the finest, halving each time *)
Definition pyramid (layers : nat) (cell : R) (sizes : list R) : Prop :=
  length sizes = layers /\
  (forall i, (i < layers)%nat -> nth_error sizes i = Some (cell * 2 ^ (layers - 1 - i))).

(** ** Newton iteration *)
Definition dist3 (a b : V3) : R := vnorm (vsub a b).
(** rounds a layer can take *)
Definition d2d_rounds (max_iter : Z) : nat := Z.to_nat (Z.max 1 max_iter).
Definition p2d_rounds (max_iter : Z) : nat := Z.to_nat (Z.max 1 (max_iter + 2)).
(** at pose [q] the linear solver gives no usable direction for this layer *)
Definition no_direction (solve : M3 -> V3 -> option V3) (ly : layer) (q : V3) : Prop :=
  match solve (sd_hess (ly_score ly q)) (vscale (-1) (sd_grad (ly_score ly q))) with
  | None => True
  | Some d => vnorm d = 0
  end.
(** what a solver of linear equations promises *)
Definition solves (solve : M3 -> V3 -> option V3) : Prop :=
  forall h b, mdet h <> 0 -> exists d, solve h b = Some d /\ mvmul h d = b.
(** the minimum norm solution for a zero right hand side is zero *)
Definition solves_zero (solve : M3 -> V3 -> option V3) : Prop :=
  forall h, solve h vzero = Some vzero.

(** What a run of a registration started at pose [g] leaves behind, when every
    layer takes at most [rounds] rounds. *)
Definition run_result (solve : M3 -> V3 -> option V3) (eps step : R) (rounds : nat)
  (ls : list layer) (g : V3) (r : rstate) : Prop :=
  (exists v, rs_final r = vecToMat v /\
     dist3 v g <= INR (length ls) * (INR rounds * Rmax step (eps / 2))) /\
  (rs_conv r = false -> rs_cov r = mid /\ rs_inf r = mid /\
     exists ly q, In ly ls /\ no_direction solve ly q) /\
  (rs_conv r = true -> forall pre ly, ls = pre ++ [ly] ->
     (rs_iter r <= rounds)%nat /\
     exists q, rs_cov r = sd_hess (ly_score ly q) /\ rs_inf r = minv (rs_cov r)).
