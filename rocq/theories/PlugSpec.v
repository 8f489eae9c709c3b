(** What is promised about the text of robust edges, the edge with a null hypothesis,
    the other mixture edges and taking back a step. *)
From Coq Require Import Reals ZArith List.
From Verif Require Import Base LinAlg3 GeoModel OptModel OptSpec PlugModel.
Import ListNotations.
Open Scope R_scope.

Definition symmetric (m : M3) : Prop := m12 m = m21 m /\ m13 m = m31 m /\ m23 m = m32 m.
(** Two components agree: vertices, measurement, information. *)
Definition same_component (e e' : sedge) : Prop :=
  se_v0 e' = se_v0 e /\ se_v1 e' = se_v1 e /\ se_meas e' = se_meas e /\ se_info e' = se_info e.
(** The components of [es] can be written: their vertices are in the graph and
    their information matrices are symmetric. *)
Definition storable (verts : list nat) (es : list sedge) : Prop :=
  forall e, In e es -> In (se_v0 e) verts /\ In (se_v1 e) verts /\ symmetric (se_info e).

(** Density of the normal distribution with information [i] at residual [v]. *)
Definition gauss (i : M3) (v : V3) : R :=
  sqrt (mdet i / (2 * PI) ^ 3) * exp (- (quad i v / 2)).
(** The null hypothesis with weight [w] is more likely than the constraint when the
    residual is [v]. *)
Definition null_likelier (w : R) (i : M3) (v : V3) : Prop := gauss i v < gauss (mscale w i) v.
(** The text from which an edge with a null hypothesis is read: weight, measurement,
    upper triangle of the information matrix. *)
Definition nhText (w : R) (z : pose) (i : M3) : list tok := TNum w :: wrPose z ++ wrInfo i.

(** The edge after being read from a text and asked for its error at [ests], then [est]. *)
Definition nhrun (e : sedge) (w : R) (old : R) (junk : pose) (ests : list (nat -> pose)) (est : nat -> pose) : res nhedge :=
  foldM (fun h est => nhError est h) (ests ++ [est]) (fst (nhRead (Some (nhText w (se_meas e) (se_info e))) old junk (newNH e))).

(** Negative log likelihood of a component, in terms of its squared error [chi] and
    the determinant [det] of its covariance. *)
Definition gnll {C S} (chi : S -> C -> R) (det : C -> R) (s : S) (c : C) (w : R) : R :=
  - ln w + 1 / 2 * ln (det c) + 1 / 2 * chi s c.
Definition gproper {C} (det : C -> R) (cs : list C) (ws : list R) : Prop :=
  cs <> [] /\ length ws = length cs /\ (forall w, In w ws -> 0 < w) /\ (forall c, In c cs -> 0 < det c).
(** Shown component number [i], which is [c]. *)
Definition gshows {C} (m : @gmix C) (i : nat) (c : C) : Prop :=
  gm_best m = Some (Z.of_nat i) /\ gm_self m = Some c.
(** [c], with weight [w], is a most likely one of the components at [s]. *)
Definition likeliest {C S} (chi : S -> C -> R) (det : C -> R) (s : S) (cs : list C) (ws : list R)
  (i : nat) (c : C) : Prop :=
  exists w, nth_error cs i = Some c /\ nth_error ws i = Some w /\
    forall j d v, nth_error cs j = Some d -> nth_error ws j = Some v ->
      gnll chi det s c w <= gnll chi det s d v.
(** The mixture is made, given its components, and asked for its error at each of a
    sequence of estimates. *)
Definition grun {C S} (chi : S -> C -> R) (det : C -> R) (cs : list C) (ws : list R) (s0 : S)
  (l : list S) : res (@gmix C) :=
  do m <- gInit chi det s0 newG cs ws;
  foldM (fun m s => gError chi s m) l m.

(** What an optimiser does between keeping an estimate and taking it back (or
    deciding to stay): every VPush is followed by its VPop or VDiscard. *)
Inductive balanced : list vop -> Prop :=
| b_nil : balanced []
| b_op o l : balanced l -> balanced (VOp o :: l)
| b_pop l l' : balanced l -> balanced l' -> balanced (VPush :: l ++ VPop :: l')
| b_stay l l' : balanced l -> balanced l' -> balanced (VPush :: l ++ VDiscard :: l').
Definition vrun (ops : list vop) (v : stacked) : res stacked := foldM vstep ops v.
(** What a reader of the vertex sees: estimate() and x(). *)
Definition vEst (v : stacked) : option R := sw_est (st_sw v).
Definition vX (v : stacked) : option R := sw_x (st_sw v).
