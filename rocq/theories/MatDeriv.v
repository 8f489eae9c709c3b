(** Derivatives of vector and matrix valued functions of a real number.  No code
    is modelled here. *)
From Coq Require Import Reals Lra.
From Verif Require Import LinAlg3 Deriv.
Open Scope R_scope.

Definition DV (f : R -> V3) (a : R) (l : V3) : Prop :=
  derivable_pt_lim (fun s => vx (f s)) a (vx l) /\
  derivable_pt_lim (fun s => vy (f s)) a (vy l) /\
  derivable_pt_lim (fun s => vz (f s)) a (vz l).
Definition DM (f : R -> M3) (a : R) (l : M3) : Prop :=
  derivable_pt_lim (fun s => m11 (f s)) a (m11 l) /\
  derivable_pt_lim (fun s => m12 (f s)) a (m12 l) /\
  derivable_pt_lim (fun s => m13 (f s)) a (m13 l) /\
  derivable_pt_lim (fun s => m21 (f s)) a (m21 l) /\
  derivable_pt_lim (fun s => m22 (f s)) a (m22 l) /\
  derivable_pt_lim (fun s => m23 (f s)) a (m23 l) /\
  derivable_pt_lim (fun s => m31 (f s)) a (m31 l) /\
  derivable_pt_lim (fun s => m32 (f s)) a (m32 l) /\
  derivable_pt_lim (fun s => m33 (f s)) a (m33 l).

Ltac dsplit := repeat match goal with
  | H : DV _ _ _ |- _ => destruct H as (? & ? & ?)
  | H : DM _ _ _ |- _ => destruct H as (? & ? & ? & ? & ? & ? & ? & ? & ?)
  end.
Ltac derh := repeat first [eassumption | der1].
Ltac mder := intros; dsplit; unfold DV, DM;
  repeat split; mcomp; (eapply D_eq; [|derh]); mcomp; ring.

Lemma DV_eq f a l m : l = m -> DV f a l -> DV f a m.
Proof. intros <-. auto. Qed.
Lemma DM_eq f a l m : l = m -> DM f a l -> DM f a m.
Proof. intros <-. auto. Qed.
Lemma DM_ext f g a l : (forall s, f s = g s) -> DM g a l -> DM f a l.
Proof.
  intros E H; dsplit; unfold DM; repeat split;
    (eapply derivable_pt_lim_ext; [|eassumption]; intro; cbv beta; rewrite E; reflexivity).
Qed.
Lemma DV_ext f g a l : (forall s, f s = g s) -> DV g a l -> DV f a l.
Proof.
  intros E H; dsplit; unfold DV; repeat split;
    (eapply derivable_pt_lim_ext; [|eassumption]; intro; cbv beta; rewrite E; reflexivity).
Qed.
Lemma DV_const c a : DV (fun _ => c) a vzero.
Proof. repeat split; apply D_const. Qed.
Lemma DM_const c a : DM (fun _ => c) a mzero.
Proof. repeat split; apply D_const. Qed.
Lemma DV_add f g a l m : DV f a l -> DV g a m -> DV (fun s => vadd (f s) (g s)) a (vadd l m).
Proof. mder. Qed.
Lemma DV_sub f g a l m : DV f a l -> DV g a m -> DV (fun s => vsub (f s) (g s)) a (vsub l m).
Proof. mder. Qed.
Lemma DM_add f g a l m : DM f a l -> DM g a m -> DM (fun s => madd (f s) (g s)) a (madd l m).
Proof. mder. Qed.
Lemma DM_tr f a l : DM f a l -> DM (fun s => mtr (f s)) a (mtr l).
Proof. mder. Qed.
Lemma DM_mul f g a l m : DM f a l -> DM g a m ->
  DM (fun s => mmul (f s) (g s)) a (madd (mmul l (g a)) (mmul (f a) m)).
Proof. mder. Qed.
Lemma DV_mul f g a l m : DM f a l -> DV g a m ->
  DV (fun s => mvmul (f s) (g s)) a (vadd (mvmul l (g a)) (mvmul (f a) m)).
Proof. mder. Qed.
Lemma DM_scale k f a l m : derivable_pt_lim k a l -> DM f a m ->
  DM (fun s => mscale (k s) (f s)) a (madd (mscale l (f a)) (mscale (k a) m)).
Proof. mder. Qed.
Lemma D_dot f g a l m : DV f a l -> DV g a m ->
  derivable_pt_lim (fun s => vdot (f s) (g s)) a (vdot l (g a) + vdot (f a) m).
Proof. intros; dsplit; mcomp. eapply D_eq; [|derh]. mcomp. ring. Qed.

Lemma DM_unique f a l m : DM f a l -> DM f a m -> l = m.
Proof.
  unfold DM. intros (? & ? & ? & ? & ? & ? & ? & ? & ?) (? & ? & ? & ? & ? & ? & ? & ? & ?).
  apply M3_eq; eapply uniqueness_limite; eassumption.
Qed.
Lemma D_det f a l : DM f a l -> exists d, derivable_pt_lim (fun s => mdet (f s)) a d.
Proof. intros; dsplit. unfold mdet. eexists. derh. Qed.
Lemma D_adj f a l : DM f a l -> exists m, DM (fun s => madj (f s)) a m.
Proof.
  intros; dsplit. unfold DM, madj. cbn [m11 m12 m13 m21 m22 m23 m31 m32 m33].
  eexists (mkM _ _ _ _ _ _ _ _ _). cbn [m11 m12 m13 m21 m22 m23 m31 m32 m33].
  repeat split; derh.
Qed.

(** derivative of the inverse: - B M' B *)
Lemma DM_inv f a l : mdet (f a) <> 0 -> DM f a l ->
  DM (fun s => minv (f s)) a (mscale (-1) (mmul (mmul (minv (f a)) l) (minv (f a)))).
Proof.
  intros N H. destruct (D_det f a l H) as [d Hd]. destruct (D_adj f a l H) as [A HA].
  assert (E : madd (mmul A (f a)) (mmul (madj (f a)) l) = mscale d mid).
  { apply (DM_unique (fun s => mmul (madj (f s)) (f s)) a).
    - apply DM_mul; assumption.
    - assert (X : DM (fun s => mscale (mdet (f s)) mid) a (mscale d mid)).
      { eapply DM_eq; [|apply (DM_scale _ (fun _ => mid) a d mzero Hd (DM_const _ _))].
        apply M3_eq; mcomp; ring. }
      eapply DM_ext; [intro; apply madj_l|exact X]. }
  eapply DM_eq; [|apply (DM_scale (fun s => / mdet (f s)) (fun s => madj (f s)) a _ A (D_inv _ _ _ N Hd) HA)].
  assert (A2 : mmul A (f a) = msub (mscale d mid) (mmul (madj (f a)) l)).
  { rewrite <- E. apply M3_eq; mcomp; ring. }
  set (k := mdet (f a)) in *. set (B := minv (f a)) in *.
  assert (AB : madj (f a) = mscale k B).
  { unfold B, minv. fold k. rewrite mscale_mscale, Rinv_r, mscale_1 by exact N. reflexivity. }
  assert (A3 : A = mmul (msub (mscale d mid) (mmul (madj (f a)) l)) B).
  { rewrite <- A2, mmul_assoc. unfold B. rewrite minv_r by exact N. symmetry. apply mmul_1_r. }
  rewrite A3, AB. clearbody B k. clear - N.
  replace (mmul (msub (mscale d mid) (mmul (mscale k B) l)) B)
    with (msub (mscale d B) (mscale k (mmul (mmul B l) B))).
  2:{ generalize (mmul_assoc (mscale k B) l B). intros _.
      apply M3_eq; mcomp; ring. }
  generalize (mmul (mmul B l) B). intro X.
  apply M3_eq; mcomp; field; exact N.
Qed.
