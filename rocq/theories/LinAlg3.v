(** 3-vectors and 3x3 matrices over the reals, with the facts about symmetric
    matrices the cell proofs need.  No code is modelled here; the operations are
    those of Eigen's Vector3d and Matrix3d in exact arithmetic. *)
From Coq Require Import Reals Lra Psatz List.
Import ListNotations.
Open Scope R_scope.

Record V3 := mkV { vx : R; vy : R; vz : R }.
Record M3 := mkM { m11 : R; m12 : R; m13 : R;
                   m21 : R; m22 : R; m23 : R;
                   m31 : R; m32 : R; m33 : R }.

Definition vzero := mkV 0 0 0.
Definition vadd a b := mkV (vx a + vx b) (vy a + vy b) (vz a + vz b).
Definition vsub a b := mkV (vx a - vx b) (vy a - vy b) (vz a - vz b).
Definition vscale k a := mkV (k * vx a) (k * vy a) (k * vz a).
Definition vdot a b := vx a * vx b + vy a * vy b + vz a * vz b.
Definition vcross a b :=
  mkV (vy a * vz b - vz a * vy b) (vz a * vx b - vx a * vz b) (vx a * vy b - vy a * vx b).
Definition vnorm a := sqrt (vdot a a).

Definition mzero := mkM 0 0 0 0 0 0 0 0 0.
Definition mid := mkM 1 0 0 0 1 0 0 0 1.
Definition mdiag a b c := mkM a 0 0 0 b 0 0 0 c.
Definition madd a b :=
  mkM (m11 a + m11 b) (m12 a + m12 b) (m13 a + m13 b)
      (m21 a + m21 b) (m22 a + m22 b) (m23 a + m23 b)
      (m31 a + m31 b) (m32 a + m32 b) (m33 a + m33 b).
Definition mscale k a :=
  mkM (k * m11 a) (k * m12 a) (k * m13 a)
      (k * m21 a) (k * m22 a) (k * m23 a)
      (k * m31 a) (k * m32 a) (k * m33 a).
Definition msub a b := madd a (mscale (-1) b).
Definition mtr a := mkM (m11 a) (m21 a) (m31 a) (m12 a) (m22 a) (m32 a) (m13 a) (m23 a) (m33 a).
Definition mmul a b :=
  mkM (m11 a * m11 b + m12 a * m21 b + m13 a * m31 b)
      (m11 a * m12 b + m12 a * m22 b + m13 a * m32 b)
      (m11 a * m13 b + m12 a * m23 b + m13 a * m33 b)
      (m21 a * m11 b + m22 a * m21 b + m23 a * m31 b)
      (m21 a * m12 b + m22 a * m22 b + m23 a * m32 b)
      (m21 a * m13 b + m22 a * m23 b + m23 a * m33 b)
      (m31 a * m11 b + m32 a * m21 b + m33 a * m31 b)
      (m31 a * m12 b + m32 a * m22 b + m33 a * m32 b)
      (m31 a * m13 b + m32 a * m23 b + m33 a * m33 b).
Definition mvmul a v :=
  mkV (m11 a * vx v + m12 a * vy v + m13 a * vz v)
      (m21 a * vx v + m22 a * vy v + m23 a * vz v)
      (m31 a * vx v + m32 a * vy v + m33 a * vz v).
(** a * b^T *)
Definition outer a b :=
  mkM (vx a * vx b) (vx a * vy b) (vx a * vz b)
      (vy a * vx b) (vy a * vy b) (vy a * vz b)
      (vz a * vx b) (vz a * vy b) (vz a * vz b).
Definition mdet a :=
  m11 a * (m22 a * m33 a - m23 a * m32 a)
  - m12 a * (m21 a * m33 a - m23 a * m31 a)
  + m13 a * (m21 a * m32 a - m22 a * m31 a).
Definition madj a :=
  mkM (m22 a * m33 a - m23 a * m32 a) (m13 a * m32 a - m12 a * m33 a) (m12 a * m23 a - m13 a * m22 a)
      (m23 a * m31 a - m21 a * m33 a) (m11 a * m33 a - m13 a * m31 a) (m13 a * m21 a - m11 a * m23 a)
      (m21 a * m32 a - m22 a * m31 a) (m12 a * m31 a - m11 a * m32 a) (m11 a * m22 a - m12 a * m21 a).
(** inverse of an invertible matrix *)
Definition minv a := mscale (/ mdet a) (madj a).

(** ** Vocabulary *)
Definition sym a := mtr a = a.
Definition orth a := mmul (mtr a) a = mid.
Definition rotation a := orth a /\ mdet a = 1.
Definition quad a v := vdot v (mvmul a v).
Definition posdef a := sym a /\ forall v, v <> vzero -> 0 < quad a v.
(** [l] is an eigenvalue *)
Definition eigenvalue a l := exists v, v <> vzero /\ mvmul a v = vscale l v.
(** every eigenvalue is at least one percent of every other *)
Definition wellcond a := forall l k, eigenvalue a l -> eigenvalue a k -> l >= 1/100 * k.
(** What an eigen solver for symmetric matrices promises: orthonormal
    eigenvectors in the columns, eigenvalues in increasing order. *)
Definition eig_ok (a : M3) (r : M3 * V3) : Prop :=
  orth (fst r) /\ a = mmul (mmul (fst r) (mdiag (vx (snd r)) (vy (snd r)) (vz (snd r)))) (mtr (fst r)) /\
  vx (snd r) <= vy (snd r) <= vz (snd r).
Definition eigen_solver (eig : M3 -> M3 * V3) : Prop := forall a, sym a -> eig_ok a (eig a).

(** ** Algebra *)
Ltac mdestr := repeat match goal with
  | a : V3 |- _ => destruct a
  | a : M3 |- _ => destruct a
  end.
Ltac munfold := unfold msub, vadd, vsub, vscale, vdot, vcross, vzero, mzero, mid, mdiag, madd, mscale,
  mtr, mmul, mvmul, outer, mdet, madj in *; cbn [vx vy vz m11 m12 m13 m21 m22 m23 m31 m32 m33] in *.
Ltac mring := intros; mdestr; munfold; try (f_equal; ring); ring.

Lemma M3_eq a b : m11 a = m11 b -> m12 a = m12 b -> m13 a = m13 b ->
  m21 a = m21 b -> m22 a = m22 b -> m23 a = m23 b ->
  m31 a = m31 b -> m32 a = m32 b -> m33 a = m33 b -> a = b.
Proof. destruct a, b; cbn; intros; subst; reflexivity. Qed.
Lemma V3_eq a b : vx a = vx b -> vy a = vy b -> vz a = vz b -> a = b.
Proof. destruct a, b; cbn; intros; subst; reflexivity. Qed.

(** Component-wise, so that nested expressions are not copied. *)
Ltac mcomp := try unfold vdot; try unfold mdet; cbn [vx vy vz m11 m12 m13 m21 m22 m23 m31 m32 m33 msub vadd vsub vscale vdot vcross vzero mzero mid mdiag
  madd mscale mtr mmul mvmul outer mdet madj].
Ltac mcring := intros; first [apply M3_eq | apply V3_eq | idtac]; mcomp; ring.

Lemma mmul_assoc a b c : mmul (mmul a b) c = mmul a (mmul b c).
Proof. mring. Qed.
Lemma mmul_1_l a : mmul mid a = a. Proof. mring. Qed.
Lemma mmul_1_r a : mmul a mid = a. Proof. mring. Qed.
Lemma mvmul_1 v : mvmul mid v = v. Proof. mring. Qed.
Lemma mvmul_mmul a b v : mvmul (mmul a b) v = mvmul a (mvmul b v). Proof. mring. Qed.
Lemma mvmul_scale a k v : mvmul a (vscale k v) = vscale k (mvmul a v). Proof. mring. Qed.
Lemma mvmul_add a v w : mvmul a (vadd v w) = vadd (mvmul a v) (mvmul a w). Proof. mring. Qed.
Lemma mtr_mmul a b : mtr (mmul a b) = mmul (mtr b) (mtr a). Proof. mring. Qed.
Lemma mtr_mtr a : mtr (mtr a) = a. Proof. mring. Qed.
Lemma mtr_diag a b c : mtr (mdiag a b c) = mdiag a b c. Proof. mring. Qed.
Lemma mdet_mmul a b : mdet (mmul a b) = mdet a * mdet b. Proof. mring. Qed.
Lemma mdet_mtr a : mdet (mtr a) = mdet a. Proof. mring. Qed.
Lemma mdet_id : mdet mid = 1. Proof. mring. Qed.
Lemma mdet_diag a b c : mdet (mdiag a b c) = a * b * c. Proof. mring. Qed.
Lemma madj_l a : mmul (madj a) a = mscale (mdet a) mid. Proof. mring. Qed.
Lemma madj_r a : mmul a (madj a) = mscale (mdet a) mid. Proof. mring. Qed.
Lemma vdot_mtr a v w : vdot (mvmul a v) w = vdot v (mvmul (mtr a) w). Proof. mring. Qed.
Lemma vdot_comm v w : vdot v w = vdot w v. Proof. mring. Qed.
Lemma mscale_mmul_l k a b : mmul (mscale k a) b = mscale k (mmul a b). Proof. mring. Qed.
Lemma mscale_mmul_r k a b : mmul a (mscale k b) = mscale k (mmul a b). Proof. mring. Qed.
Lemma mscale_mscale k l a : mscale k (mscale l a) = mscale (k * l) a. Proof. mring. Qed.
Lemma mscale_1 a : mscale 1 a = a. Proof. mring. Qed.
Lemma vscale_1 a : vscale 1 a = a. Proof. mring. Qed.
Lemma vscale_vscale k l a : vscale k (vscale l a) = vscale (k * l) a. Proof. mring. Qed.
Lemma vscale_zero k : vscale k vzero = vzero. Proof. mring. Qed.
Lemma mvmul_zero a : mvmul a vzero = vzero. Proof. mring. Qed.

Lemma minv_l a : mdet a <> 0 -> mmul (minv a) a = mid.
Proof.
  intro H. unfold minv. rewrite mscale_mmul_l, madj_l, mscale_mscale, Rinv_l by auto. apply mscale_1.
Qed.
Lemma minv_r a : mdet a <> 0 -> mmul a (minv a) = mid.
Proof.
  intro H. unfold minv. rewrite mscale_mmul_r, madj_r, mscale_mscale, Rinv_l by auto. apply mscale_1.
Qed.

Lemma left_inv_det a b : mmul a b = mid -> mdet b <> 0.
Proof.
  intros H E. apply (f_equal mdet) in H. rewrite mdet_mmul, mdet_id, E in H. lra.
Qed.
Lemma left_right_inv a b : mmul a b = mid -> mmul b a = mid.
Proof.
  intro H. pose proof (left_inv_det a b H) as D.
  assert (a = minv b).
  { rewrite <- (mmul_1_r a), <- (minv_r b D), <- mmul_assoc, H. apply mmul_1_l. }
  subst a. apply minv_r. auto.
Qed.
Lemma orth_r v : orth v -> mmul v (mtr v) = mid.
Proof. apply left_right_inv. Qed.
Lemma orth_tr v : orth v -> orth (mtr v).
Proof. intro H. unfold orth. rewrite mtr_mtr. apply orth_r. auto. Qed.
Lemma orth_mmul v w : orth v -> orth w -> orth (mmul v w).
Proof.
  unfold orth. intros H K. rewrite mtr_mmul, mmul_assoc, <- (mmul_assoc (mtr v)), H, mmul_1_l. auto.
Qed.
Lemma orth_id : orth mid. Proof. unfold orth. mring. Qed.
Lemma orth_det v : orth v -> mdet v * mdet v = 1.
Proof. intro H. apply (f_equal mdet) in H. rewrite mdet_mmul, mdet_mtr, mdet_id in H. auto. Qed.

Lemma vdot_nonneg v : 0 <= vdot v v.
Proof. destruct v. munfold. nra. Qed.
Lemma vdot_zero v : vdot v v = 0 -> v = vzero.
Proof.
  destruct v as [x y z]. munfold. intro H.
  assert (x = 0) by nra. assert (y = 0) by nra. assert (z = 0) by nra. subst. reflexivity.
Qed.
Lemma vdot_pos v : v <> vzero -> 0 < vdot v v.
Proof.
  intro H. destruct (Rle_lt_or_eq_dec 0 (vdot v v) (vdot_nonneg v)) as [L|E]; [auto|].
  exfalso. apply H. apply vdot_zero. auto.
Qed.
Lemma V3_dec (v : V3) : {v = vzero} + {v <> vzero}.
Proof.
  destruct v as [x y z]. destruct (Req_EM_T x 0); [|right; intro H; injection H; auto].
  destruct (Req_EM_T y 0); [|right; intro H; injection H; auto].
  destruct (Req_EM_T z 0); [|right; intro H; injection H; auto]. left. subst. reflexivity.
Qed.
Lemma inv_nonzero a b v : mmul b a = mid -> v <> vzero -> mvmul a v <> vzero.
Proof.
  intros H N E. apply N. rewrite <- (mvmul_1 v), <- H, mvmul_mmul, E. apply mvmul_zero.
Qed.

(** ** Positive definite matrices *)
Lemma quad_add a b v : quad (madd a b) v = quad a v + quad b v. Proof. unfold quad. mring. Qed.
Lemma quad_scale k a v : quad (mscale k a) v = k * quad a v. Proof. unfold quad. mring. Qed.
Lemma quad_outer u v : quad (outer u u) v = vdot u v * vdot u v. Proof. unfold quad. mring. Qed.
Lemma quad_id v : quad mid v = vdot v v. Proof. unfold quad. mring. Qed.
Lemma quad_diag a b c v : quad (mdiag a b c) v = a * (vx v * vx v) + b * (vy v * vy v) + c * (vz v * vz v).
Proof. unfold quad. mring. Qed.
Lemma quad_conj q a v : quad (mmul (mmul q a) (mtr q)) v = quad a (mvmul (mtr q) v).
Proof.
  unfold quad. rewrite !mvmul_mmul. rewrite <- (mtr_mtr q) at 1. rewrite <- vdot_mtr. apply eq_refl.
Qed.

Lemma sym_add a b : sym a -> sym b -> sym (madd a b).
Proof.
  unfold sym. intros H K. transitivity (madd (mtr a) (mtr b)); [mring|]. congruence.
Qed.
Lemma sym_scale k a : sym a -> sym (mscale k a).
Proof. unfold sym. intros H. transitivity (mscale k (mtr a)); [mring|]. congruence. Qed.
Lemma sym_outer u : sym (outer u u). Proof. unfold sym. mring. Qed.
Lemma sym_id : sym mid. Proof. unfold sym. mring. Qed.
Lemma sym_diag a b c : sym (mdiag a b c). Proof. unfold sym. mring. Qed.
Lemma sym_conj q a : sym a -> sym (mmul (mmul q a) (mtr q)).
Proof. unfold sym. intro H. rewrite !mtr_mmul, mtr_mtr, H, mmul_assoc. reflexivity. Qed.

Lemma posdef_add a b : posdef a -> sym b -> (forall v, 0 <= quad b v) -> posdef (madd a b).
Proof.
  intros [S P] SB PB. split; [apply sym_add; auto|]. intros v N. rewrite quad_add.
  specialize (P v N). specialize (PB v). lra.
Qed.
Lemma posdef_scale k a : 0 < k -> posdef a -> posdef (mscale k a).
Proof.
  intros K [S P]. split; [apply sym_scale; auto|]. intros v N. rewrite quad_scale.
  apply Rmult_lt_0_compat; auto.
Qed.
Lemma posdef_id : posdef mid.
Proof. split; [apply sym_id|]. intros v N. rewrite quad_id. apply vdot_pos; auto. Qed.
Lemma posdef_diag a b c : 0 < a -> 0 < b -> 0 < c -> posdef (mdiag a b c).
Proof.
  intros A B C. split; [apply sym_diag|]. intros v N. rewrite quad_diag.
  destruct v as [x y z]. cbn [vx vy vz].
  pose proof (vdot_pos _ N) as P. unfold vdot in P. cbn [vx vy vz] in P.
  pose proof (Rmult_le_pos a (x*x) (Rlt_le _ _ A) (Rle_0_sqr x)).
  pose proof (Rmult_le_pos b (y*y) (Rlt_le _ _ B) (Rle_0_sqr y)).
  pose proof (Rmult_le_pos c (z*z) (Rlt_le _ _ C) (Rle_0_sqr z)).
  destruct (Req_EM_T x 0) as [->|NX]; [destruct (Req_EM_T y 0) as [->|NY]; [|]|].
  - assert (0 < z * z) by nra. pose proof (Rmult_lt_0_compat _ _ C H2). lra.
  - assert (0 < y * y) by nra. pose proof (Rmult_lt_0_compat _ _ B H2). lra.
  - assert (0 < x * x) by nra. pose proof (Rmult_lt_0_compat _ _ A H2). lra.
Qed.
Lemma posdef_conj q a : orth q -> posdef a -> posdef (mmul (mmul q a) (mtr q)).
Proof.
  intros O [S P]. split; [apply sym_conj; auto|]. intros v N. rewrite quad_conj. apply P.
  apply (inv_nonzero (mtr q) q); [apply orth_r; auto|auto].
Qed.
Lemma posdef_eigenvalue a l : posdef a -> eigenvalue a l -> 0 < l.
Proof.
  intros [S P] (v & N & E). specialize (P v N). unfold quad in P. rewrite E in P.
  pose proof (vdot_pos v N) as D.
  assert (X : vdot v (vscale l v) = l * vdot v v) by mring. rewrite X in P.
  destruct (Rle_or_lt l 0); [|auto]. exfalso. nra.
Qed.

(** ** Spectra *)
Lemma spec_eigenvalue q e0 e1 e2 l : orth q ->
  eigenvalue (mmul (mmul q (mdiag e0 e1 e2)) (mtr q)) l <-> l = e0 \/ l = e1 \/ l = e2.
Proof.
  intro O. split.
  - intros (v & N & E). set (w := mvmul (mtr q) v).
    assert (NW : w <> vzero) by (apply (inv_nonzero (mtr q) q); [apply orth_r; auto|auto]).
    assert (EW : mvmul (mdiag e0 e1 e2) w = vscale l w).
    { apply (f_equal (mvmul (mtr q))) in E. rewrite mvmul_scale, !mvmul_mmul in E. fold w in E.
      rewrite <- mvmul_mmul, O, mvmul_1 in E. exact E. }
    destruct w as [x y z]. munfold. injection EW as E0 E1 E2.
    destruct (Req_EM_T l e0); [auto|]. destruct (Req_EM_T l e1); [auto|]. destruct (Req_EM_T l e2); [auto|].
    exfalso. apply NW. f_equal; nra.
  - intro H.
    assert (G : forall u, u <> vzero -> mvmul (mdiag e0 e1 e2) u = vscale l u ->
       eigenvalue (mmul (mmul q (mdiag e0 e1 e2)) (mtr q)) l).
    { intros u N E. exists (mvmul q u). split; [apply (inv_nonzero q (mtr q)); [exact O|auto]|].
      rewrite !mvmul_mmul, <- (mvmul_mmul (mtr q) q), O, mvmul_1, E. apply mvmul_scale. }
    destruct H as [->|[->| ->]].
    + apply (G (mkV 1 0 0)); [intro X; injection X; lra|mring].
    + apply (G (mkV 0 1 0)); [intro X; injection X; lra|mring].
    + apply (G (mkV 0 0 1)); [intro X; injection X; lra|mring].
Qed.

Lemma eigenvalue_conj q a l : orth q -> eigenvalue (mmul (mmul q a) (mtr q)) l <-> eigenvalue a l.
Proof.
  intro O. split; intros (v & N & E).
  - exists (mvmul (mtr q) v). split; [apply (inv_nonzero (mtr q) q); [apply orth_r; auto|auto]|].
    apply (f_equal (mvmul (mtr q))) in E. rewrite mvmul_scale, !mvmul_mmul in E.
    rewrite <- (mvmul_mmul (mtr q) q), O, mvmul_1 in E. exact E.
  - exists (mvmul q v). split; [apply (inv_nonzero q (mtr q)); [exact O|auto]|].
    rewrite !mvmul_mmul, <- (mvmul_mmul (mtr q) q), O, mvmul_1, E. apply mvmul_scale.
Qed.


(** ** The spectral theorem: a solver exists *)
Lemma perp_exists (r : V3) : {v : V3 | v <> vzero /\ vdot r v = 0}.
Proof.
  destruct r as [a b c]. destruct (Req_EM_T a 0) as [->|NA].
  - exists (mkV 1 0 0). split; [intro X; injection X; lra|mring].
  - exists (mkV b (- a) 0). split; [intro X; injection X; lra|mring].
Qed.

Lemma parallel r s v : r <> vzero -> vcross r s = vzero -> vdot r v = 0 -> vdot s v = 0.
Proof.
  intros N C D. pose proof (vdot_pos r N) as P.
  assert (I : vdot r r * vdot s v = vdot r s * vdot r v - vdot (vcross r (vcross r s)) v) by mring.
  rewrite C, D in I. assert (Z : vdot (vcross r vzero) v = 0) by mring. rewrite Z in I. nra.
Qed.

Definition row1 a := mkV (m11 a) (m12 a) (m13 a).
Definition row2 a := mkV (m21 a) (m22 a) (m23 a).
Definition row3 a := mkV (m31 a) (m32 a) (m33 a).
Lemma mvmul_rows a v : mvmul a v = mkV (vdot (row1 a) v) (vdot (row2 a) v) (vdot (row3 a) v).
Proof. unfold row1, row2, row3. mring. Qed.

Lemma kernel_exists a : mdet a = 0 -> {v : V3 | v <> vzero /\ mvmul a v = vzero}.
Proof.
  intro D.
  assert (D1 : vdot (row3 a) (vcross (row1 a) (row2 a)) = 0) by (rewrite <- D; unfold row1, row2, row3; mring).
  assert (D2 : vdot (row2 a) (vcross (row1 a) (row3 a)) = 0).
  { transitivity (- mdet a); [unfold row1, row2, row3; mring|lra]. }
  assert (D3 : vdot (row1 a) (vcross (row2 a) (row3 a)) = 0) by (rewrite <- D; unfold row1, row2, row3; mring).
  assert (P1 : forall r s, vdot r (vcross r s) = 0) by mring.
  assert (P2 : forall r s, vdot s (vcross r s) = 0) by mring.
  destruct (V3_dec (vcross (row1 a) (row2 a))) as [C12|N].
  2: { eexists. split; [exact N|]. rewrite mvmul_rows, P1, P2, D1. reflexivity. }
  destruct (V3_dec (vcross (row1 a) (row3 a))) as [C13|N].
  2: { eexists. split; [exact N|]. rewrite mvmul_rows, P1, P2, D2. reflexivity. }
  destruct (V3_dec (vcross (row2 a) (row3 a))) as [C23|N].
  2: { eexists. split; [exact N|]. rewrite mvmul_rows, P1, P2, D3. reflexivity. }
  destruct (V3_dec (row1 a)) as [Z1|N1].
  - destruct (V3_dec (row2 a)) as [Z2|N2].
    + destruct (perp_exists (row3 a)) as (v & N & E). exists v. split; [auto|].
      rewrite mvmul_rows, Z1, Z2, E. assert (X : vdot vzero v = 0) by mring. rewrite X. reflexivity.
    + destruct (perp_exists (row2 a)) as (v & N & E). exists v. split; [auto|].
      rewrite mvmul_rows, Z1, E, (parallel (row2 a) (row3 a) v N2 C23 E).
      assert (X : vdot vzero v = 0) by mring. rewrite X. reflexivity.
  - destruct (perp_exists (row1 a)) as (v & N & E). exists v. split; [auto|].
    rewrite mvmul_rows, E, (parallel (row1 a) (row2 a) v N1 C12 E), (parallel (row1 a) (row3 a) v N1 C13 E).
    reflexivity.
Qed.

Lemma cubic_root T S D : {x : R | - (x * x * x) + T * (x * x) - S * x + D = 0}.
Proof.
  set (f := fun x => - (- (x * x * x) + T * (x * x) - S * x + D)).
  set (K := 1 + Rabs T + Rabs S + Rabs D).
  pose proof (Rabs_pos T) as PT. pose proof (Rabs_pos S) as PS. pose proof (Rabs_pos D) as PD.
  assert (BT : - Rabs T <= T <= Rabs T) by (split; [pose proof (Rle_abs (- T)); rewrite Rabs_Ropp in *; lra|apply Rle_abs]).
  assert (BS : - Rabs S <= S <= Rabs S) by (split; [pose proof (Rle_abs (- S)); rewrite Rabs_Ropp in *; lra|apply Rle_abs]).
  assert (BD : - Rabs D <= D <= Rabs D) by (split; [pose proof (Rle_abs (- D)); rewrite Rabs_Ropp in *; lra|apply Rle_abs]).
  assert (K1 : 1 <= K) by (unfold K; lra).
  set (t := Rabs T) in *. set (s := Rabs S) in *. set (d := Rabs D) in *.
  assert (KK : 0 < K * K) by nra.
  assert (EK : K * K * K = K * K + (t + s + d) * (K * K)) by (unfold K; ring).
  assert (A1 : - t * (K * K) <= T * (K * K) <= t * (K * K)) by (split; apply Rmult_le_compat_r; lra).
  assert (KS : K <= K * K) by nra.
  assert (A2 : - s * (K * K) <= S * K <= s * (K * K)).
  { assert (- s * K <= S * K <= s * K) by (split; apply Rmult_le_compat_r; lra).
    assert (s * K <= s * (K * K)) by (apply Rmult_le_compat_l; lra). lra. }
  assert (A3 : - d * (K * K) <= D <= d * (K * K)).
  { assert (d * 1 <= d * (K * K)) by (apply Rmult_le_compat_l; lra). lra. }
  assert (F1 : f (- K) < 0).
  { unfold f. replace (- K * - K * - K) with (- (K * K * K)) by ring.
    replace (- K * - K) with (K * K) by ring. rewrite EK. lra. }
  assert (F2 : 0 < f K). { unfold f. rewrite EK. lra. }
  assert (CF : continuity f) by (unfold f; reg).
  destruct (IVT f (- K) K CF ltac:(lra) F1 F2) as (x & _ & E).
  exists x. unfold f in E. lra.
Qed.

Lemma unit_vec v : v <> vzero -> {k : R | vdot (vscale k v) (vscale k v) = 1 /\ k <> 0}.
Proof.
  intro N. pose proof (vdot_pos v N) as P. exists (/ sqrt (vdot v v)).
  assert (S : sqrt (vdot v v) * sqrt (vdot v v) = vdot v v) by (apply sqrt_sqrt; lra).
  assert (0 < sqrt (vdot v v)) by (apply sqrt_lt_R0; lra).
  split; [|apply Rinv_neq_0_compat; lra].
  transitivity (/ sqrt (vdot v v) * / sqrt (vdot v v) * vdot v v); [mring|].
  rewrite <- S at 3. field. lra.
Qed.

(** one step of Jacobi: a rotation in the plane that diagonalises *)
Lemma jacobi2 al be ga : {cs : R * R | fst cs * fst cs + snd cs * snd cs = 1 /\
  fst cs * snd cs * (ga - al) + (fst cs * fst cs - snd cs * snd cs) * be = 0}.
Proof.
  destruct (Req_EM_T be 0) as [->|NB].
  - exists (1, 0). cbn. split; ring.
  - set (dd := sqrt ((al - ga) * (al - ga) + 4 * (be * be))).
    assert (DD : dd * dd = (al - ga) * (al - ga) + 4 * (be * be)).
    { apply sqrt_sqrt. pose proof (Rle_0_sqr (al - ga)) as Q1. pose proof (Rle_0_sqr be) as Q2. unfold Rsqr in *. lra. }
    set (la := ((al + ga) + dd) / 2).
    (* la is an eigenvalue: (al - la)(ga - la) = be^2 *)
    assert (LA : (al - la) * (ga - la) = be * be).
    { unfold la. transitivity (((al - ga) * (ga - al) + dd * dd) / 4); [field|rewrite DD; field]. }
    set (n2 := be * be + (la - al) * (la - al)).
    assert (PN : 0 < n2). { unfold n2. assert (0 < be * be) by nra. pose proof (Rle_0_sqr (la - al)) as Q. unfold Rsqr in Q. lra. }
    assert (S : sqrt n2 * sqrt n2 = n2) by (apply sqrt_sqrt; lra).
    assert (SP : 0 < sqrt n2) by (apply sqrt_lt_R0; lra).
    exists (be / sqrt n2, (la - al) / sqrt n2). cbn [fst snd]. split.
    + transitivity ((be * be + (la - al) * (la - al)) / (sqrt n2 * sqrt n2)); [field; lra|].
      rewrite S. fold n2. field. lra.
    + transitivity (be / (sqrt n2 * sqrt n2) * ((la - al) * (ga - al) + (be * be - (la - al) * (la - al)))).
      { field. lra. }
      rewrite <- LA. rewrite S. field. lra.
Qed.

Definition cols (a b c : V3) := mkM (vx a) (vx b) (vx c) (vy a) (vy b) (vy c) (vz a) (vz b) (vz c).
Definition onb (a b c : V3) := vdot a a = 1 /\ vdot b b = 1 /\ vdot c c = 1 /\
  vdot a b = 0 /\ vdot a c = 0 /\ vdot b c = 0.
Lemma onb_orth a b c : onb a b c -> orth (cols a b c).
Proof.
  intros (H1 & H2 & H3 & H4 & H5 & H6). unfold orth, cols.
  apply M3_eq; munfold; try lra; rewrite ?(Rmult_comm (vx b) (vx a)), ?(Rmult_comm (vy b) (vy a)),
    ?(Rmult_comm (vz b) (vz a)), ?(Rmult_comm (vx c)), ?(Rmult_comm (vy c)), ?(Rmult_comm (vz c)); lra.
Qed.

Definition diagonal_in (a : M3) (u v w : V3) (p q r : R) : Prop :=
  onb u v w /\ mvmul a u = vscale p u /\ mvmul a v = vscale q v /\ mvmul a w = vscale r w.

Lemma diagonal_form a u v w p q r : diagonal_in a u v w p q r ->
  a = mmul (mmul (cols u v w) (mdiag p q r)) (mtr (cols u v w)).
Proof.
  intros (O & A & B & C). pose proof (onb_orth _ _ _ O) as OR.
  assert (X : mmul a (cols u v w) = mmul (cols u v w) (mdiag p q r)).
  { transitivity (cols (mvmul a u) (mvmul a v) (mvmul a w)); [unfold cols; mring|].
    rewrite A, B, C. unfold cols. mring. }
  rewrite <- X, mmul_assoc, orth_r by auto. symmetry. apply mmul_1_r.
Qed.

Lemma diagonal_swap12 a u v w p q r : diagonal_in a u v w p q r -> diagonal_in a v u w q p r.
Proof.
  intros ((H1 & H2 & H3 & H4 & H5 & H6) & A & B & C).
  split; [|auto]. unfold onb. rewrite (vdot_comm v u). auto 10.
Qed.
Lemma diagonal_swap23 a u v w p q r : diagonal_in a u v w p q r -> diagonal_in a u w v p r q.
Proof.
  intros ((H1 & H2 & H3 & H4 & H5 & H6) & A & B & C).
  split; [|auto]. unfold onb. rewrite (vdot_comm w v). auto 10.
Qed.

Lemma diagonal_exists a : sym a -> {x : V3 * V3 * V3 * (R * R * R) |
  let '(u, v, w, (p, q, r)) := x in diagonal_in a u v w p q r}.
Proof.
  intro SY.
  destruct (cubic_root (m11 a + m22 a + m33 a)
    (m11 a * m22 a - m12 a * m21 a + (m11 a * m33 a - m13 a * m31 a) + (m22 a * m33 a - m23 a * m32 a))
    (mdet a)) as (l & L).
  assert (D : mdet (madd a (mscale (- l) mid)) = 0) by (rewrite <- L; mring).
  destruct (kernel_exists _ D) as (v0 & N0 & E0).
  destruct (unit_vec v0 N0) as (k & U & NK). set (v := vscale k v0) in *.
  assert (EV : mvmul a v = vscale l v).
  { assert (X : mvmul (madd a (mscale (- l) mid)) v0 = vsub (mvmul a v0) (vscale l v0)) by mring.
    rewrite X in E0. unfold v. rewrite mvmul_scale.
    assert (mvmul a v0 = vscale l v0).
    { apply V3_eq; [apply (f_equal vx) in E0|apply (f_equal vy) in E0|apply (f_equal vz) in E0];
        unfold vsub, vzero in E0; cbn [vx vy vz] in E0; lra. }
    rewrite H. mring. }
  destruct (perp_exists v) as (u0 & NU & PU).
  destruct (unit_vec u0 NU) as (k2 & U2 & _). set (u := vscale k2 u0) in *.
  assert (VU : vdot v u = 0) by (unfold u; transitivity (k2 * vdot v u0); [mring|rewrite PU; ring]).
  set (w := vcross v u).
  assert (WW : vdot w w = 1).
  { transitivity (vdot v v * vdot u u - vdot v u * vdot v u); [unfold w; mring|rewrite U, U2, VU; ring]. }
  assert (VW : vdot v w = 0) by (unfold w; mring).
  assert (UW : vdot u w = 0) by (unfold w; mring).
  assert (SD : forall x y, vdot x (mvmul a y) = vdot y (mvmul a x)).
  { intros x y. rewrite (vdot_comm y), vdot_mtr, SY. reflexivity. }
  set (al := vdot u (mvmul a u)). set (be := vdot u (mvmul a w)). set (ga := vdot w (mvmul a w)).
  destruct (jacobi2 al be ga) as ([c s] & CS1 & CS2). cbn [fst snd] in CS1, CS2.
  set (x := vadd (vscale c u) (vscale s w)).
  set (y := vadd (vscale (- s) u) (vscale c w)).
  assert (XX : vdot x x = 1).
  { transitivity (c * c * vdot u u + s * s * vdot w w + 2 * c * s * vdot u w); [unfold x; mring|].
    rewrite U2, WW, UW. lra. }
  assert (YY : vdot y y = 1).
  { transitivity (s * s * vdot u u + c * c * vdot w w - 2 * c * s * vdot u w); [unfold y; mring|].
    rewrite U2, WW, UW. lra. }
  assert (XY : vdot x y = 0).
  { transitivity (c * s * (vdot w w - vdot u u) + (c * c - s * s) * vdot u w); [unfold x, y; mring|].
    rewrite U2, WW, UW. lra. }
  assert (VX : vdot v x = 0).
  { transitivity (c * vdot v u + s * vdot v w); [unfold x; mring|]. rewrite VU, VW. ring. }
  assert (VY : vdot v y = 0).
  { transitivity (- s * vdot v u + c * vdot v w); [unfold y; mring|]. rewrite VU, VW. ring. }
  assert (O : onb v x y) by (repeat split; auto).
  assert (XAY : vdot x (mvmul a y) = 0).
  { transitivity (c * s * (vdot w (mvmul a w) - vdot u (mvmul a u)) +
       c * c * vdot u (mvmul a w) - s * s * vdot w (mvmul a u)).
    { unfold x, y. generalize (mvmul_add a (vscale (- s) u) (vscale c w)). rewrite !mvmul_scale. intros ->.
      generalize (mvmul a u) (mvmul a w). mring. }
    rewrite (SD w u). fold al be ga. lra. }
  (* a vector orthogonal to two of the basis vectors is a multiple of the third *)
  assert (EXP : forall z, z = vadd (vadd (vscale (vdot v z) v) (vscale (vdot x z) x)) (vscale (vdot y z) y)).
  { intro z. pose proof (orth_r _ (onb_orth _ _ _ O)) as R.
    transitivity (mvmul (mmul (cols v x y) (mtr (cols v x y))) z); [rewrite R, mvmul_1; auto|].
    unfold cols. generalize v x y. mring. }
  exists (v, x, y, (l, vdot x (mvmul a x), vdot y (mvmul a y))). split; [exact O|]. split; [exact EV|]. split.
  - rewrite (EXP (mvmul a x)) at 1. rewrite (SD v x), EV, (SD y x), XAY.
    assert (Z : vdot x (vscale l v) = 0) by (transitivity (l * vdot v x); [mring|rewrite VX; ring]).
    rewrite Z. generalize (vdot x (mvmul a x)). generalize v x y. mring.
  - rewrite (EXP (mvmul a y)) at 1. rewrite (SD v y), EV, XAY.
    assert (Z : vdot y (vscale l v) = 0) by (transitivity (l * vdot v y); [mring|rewrite VY; ring]).
    rewrite Z. generalize (vdot y (mvmul a y)). generalize v x y. mring.
Qed.

Lemma spectral3 a : sym a -> {r : M3 * V3 | eig_ok a r}.
Proof.
  intro SY. destruct (diagonal_exists a SY) as ([[[u v] w] [[p q] r]] & D).
  assert (S : {x : V3 * V3 * V3 * (R * R * R) |
     let '(u, v, w, (p, q, r)) := x in diagonal_in a u v w p q r /\ p <= q <= r}).
  { destruct (Rle_dec p q) as [PQ|PQ]; destruct (Rle_dec q r) as [QR|QR]; destruct (Rle_dec p r) as [PR|PR].
    - exists (u, v, w, (p, q, r)). auto.
    - exfalso. lra.
    - exists (u, w, v, (p, r, q)). split; [apply diagonal_swap23; auto|lra].
    - exists (w, u, v, (r, p, q)). split; [apply diagonal_swap12, diagonal_swap23; auto|lra].
    - exists (v, u, w, (q, p, r)). split; [apply diagonal_swap12; auto|lra].
    - exists (v, w, u, (q, r, p)). split; [apply diagonal_swap23, diagonal_swap12; auto|lra].
    - exfalso. lra.
    - exists (w, v, u, (r, q, p)). split; [|lra].
      apply diagonal_swap12, diagonal_swap23, diagonal_swap12. auto. }
  clear D u v w p q r. destruct S as ([[[u v] w] [[p q] r]] & D & L).
  exists (cols u v w, mkV p q r). split; [apply onb_orth; apply D|]. split; [apply diagonal_form; auto|exact L].
Qed.

Lemma M3_sym_dec a : {sym a} + {~ sym a}.
Proof.
  unfold sym. destruct (Req_EM_T (m12 a) (m21 a)) as [E1|N];
    [|right; intro H; apply N; apply (f_equal m21) in H; exact H].
  destruct (Req_EM_T (m13 a) (m31 a)) as [E2|N];
    [|right; intro H; apply N; apply (f_equal m31) in H; exact H].
  destruct (Req_EM_T (m23 a) (m32 a)) as [E3|N];
    [|right; intro H; apply N; apply (f_equal m32) in H; exact H].
  left. apply M3_eq; cbn; auto.
Qed.
Definition eig3 (a : M3) : M3 * V3 :=
  match M3_sym_dec a with
  | left H => proj1_sig (spectral3 a H)
  | right _ => (mid, vzero)
  end.
Theorem eigen_solver_exists : eigen_solver eig3.
Proof.
  intros a H. unfold eig3. destruct (M3_sym_dec a) as [S|N]; [|contradiction].
  exact (proj2_sig (spectral3 a S)).
Qed.
