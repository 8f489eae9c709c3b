(** Vocabulary for the geometry properties. *)
From Coq Require Import Reals ZArith.
From Verif Require Import LinAlg3 GeoModel.
Open Scope R_scope.

(** A proper rigid motion of the plane. *)
Definition rigid (t : T2) : Prop :=
  ta t = td t /\ tc t = - tb t /\ ta t * ta t + tc t * tc t = 1.

(** The angle [b] is [a] brought into (-pi, pi]. *)
Definition wrapped (a b : R) : Prop :=
  - PI < b <= PI /\ exists k : Z, b = a + IZR k * (2 * PI).

(** Where the robot at pose [p] sees the point [w] of the plane: rotate the
    offset back. *)
Definition seen_from (p : pose) (w : P2) : P2 :=
  (cos (pth p) * (fst w - px p) + sin (pth p) * (snd w - py p),
   - sin (pth p) * (fst w - px p) + cos (pth p) * (snd w - py p)).

(** Pose reached from [p] by the motion [d] expressed in the frame of [p]. *)
Definition compose (p d : pose) : pose :=
  mkP (px p + cos (pth p) * px d - sin (pth p) * py d)
      (py p + sin (pth p) * px d + cos (pth p) * py d)
      (pth p + pth d).

(** Same position, angles equal up to whole turns. *)
Definition same_pose (p q : pose) : Prop :=
  px p = px q /\ py p = py q /\ exists k : Z, pth p = pth q + IZR k * (2 * PI).

(** positive semi-definite *)
Definition psd (m : M3) : Prop := sym m /\ forall v, 0 <= quad m v.

(** The covariance obtained by first-order propagation through the function with
    Jacobians [j1], [j2]. *)
Definition propagate (j1 j2 c1 c2 : M3) : M3 :=
  madd (mmul (mmul j1 c1) (mtr j1)) (mmul (mmul j2 c2) (mtr j2)).

(** [j] is the matrix of partial derivatives of [f] at [p]: entry by entry. *)
Definition is_jacobian (f : pose -> pose) (p : pose) (j : M3) : Prop :=
  derivable_pt_lim (fun x => px (f (mkP x (py p) (pth p)))) (px p) (m11 j) /\
  derivable_pt_lim (fun x => px (f (mkP (px p) x (pth p)))) (py p) (m12 j) /\
  derivable_pt_lim (fun x => px (f (mkP (px p) (py p) x))) (pth p) (m13 j) /\
  derivable_pt_lim (fun x => py (f (mkP x (py p) (pth p)))) (px p) (m21 j) /\
  derivable_pt_lim (fun x => py (f (mkP (px p) x (pth p)))) (py p) (m22 j) /\
  derivable_pt_lim (fun x => py (f (mkP (px p) (py p) x))) (pth p) (m23 j) /\
  derivable_pt_lim (fun x => pth (f (mkP x (py p) (pth p)))) (px p) (m31 j) /\
  derivable_pt_lim (fun x => pth (f (mkP (px p) x (pth p)))) (py p) (m32 j) /\
  derivable_pt_lim (fun x => pth (f (mkP (px p) (py p) x))) (pth p) (m33 j).

(** What a unit quaternion (x, y, z, w) does to a vector: v + 2w(u x v) + 2u x (u x v). *)
Definition quat_rotate (q : R * R * R * R) (v : V3) : V3 :=
  let '(x, y, z, w) := q in
  let u := mkV x y z in
  vadd v (vadd (vscale (2 * w) (vcross u v)) (vscale 2 (vcross u (vcross u v)))).
Definition quat_unit (q : R * R * R * R) : Prop :=
  let '(x, y, z, w) := q in x * x + y * y + z * z + w * w = 1.
