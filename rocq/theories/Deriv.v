(** Derivatives of composed real functions: lemmas in a form that matches
    lambda terms, and a tactic that computes the derivative of a term built from
    +, -, *, constants, sin, cos and exp.  No code is modelled here. *)
From Coq Require Import Reals Lra.
Open Scope R_scope.

Lemma D_const c a : derivable_pt_lim (fun _ => c) a 0.
Proof. apply derivable_pt_lim_const. Qed.
Lemma D_id a : derivable_pt_lim (fun x => x) a 1.
Proof. apply derivable_pt_lim_id. Qed.
Lemma D_plus f g a l m : derivable_pt_lim f a l -> derivable_pt_lim g a m ->
  derivable_pt_lim (fun x => f x + g x) a (l + m).
Proof. apply derivable_pt_lim_plus. Qed.
Lemma D_minus f g a l m : derivable_pt_lim f a l -> derivable_pt_lim g a m ->
  derivable_pt_lim (fun x => f x - g x) a (l - m).
Proof. apply derivable_pt_lim_minus. Qed.
Lemma D_opp f a l : derivable_pt_lim f a l -> derivable_pt_lim (fun x => - f x) a (- l).
Proof. apply derivable_pt_lim_opp. Qed.
Lemma D_mult f g a l m : derivable_pt_lim f a l -> derivable_pt_lim g a m ->
  derivable_pt_lim (fun x => f x * g x) a (l * g a + f a * m).
Proof. apply derivable_pt_lim_mult. Qed.
Lemma D_scal c f a l : derivable_pt_lim f a l -> derivable_pt_lim (fun x => c * f x) a (c * l).
Proof. apply derivable_pt_lim_scal. Qed.
Lemma D_div_c c f a l : derivable_pt_lim f a l -> derivable_pt_lim (fun x => f x / c) a (l / c).
Proof.
  intro H. unfold Rdiv. replace (l * / c) with (l * / c + f a * 0) by ring.
  apply (D_mult f (fun _ => / c) a l 0 H (D_const _ a)).
Qed.
Lemma D_sin f a l : derivable_pt_lim f a l -> derivable_pt_lim (fun x => sin (f x)) a (cos (f a) * l).
Proof. intro H. apply (derivable_pt_lim_comp f sin a); [exact H|apply derivable_pt_lim_sin]. Qed.
Lemma D_cos f a l : derivable_pt_lim f a l -> derivable_pt_lim (fun x => cos (f x)) a (- sin (f a) * l).
Proof. intro H. apply (derivable_pt_lim_comp f cos a); [exact H|apply derivable_pt_lim_cos]. Qed.
Lemma D_exp f a l : derivable_pt_lim f a l -> derivable_pt_lim (fun x => exp (f x)) a (exp (f a) * l).
Proof. intro H. apply (derivable_pt_lim_comp f exp a); [exact H|apply derivable_pt_lim_exp]. Qed.
Lemma D_inv f a l : f a <> 0 -> derivable_pt_lim f a l ->
  derivable_pt_lim (fun x => / f x) a (- l / (f a * f a)).
Proof.
  intros N H.
  apply (derivable_pt_lim_ext (fun x => 1 / f x)); [intro z; unfold Rdiv; ring|].
  replace (- l / (f a * f a)) with ((0 * f a - l * 1) / (f a)²) by (unfold Rsqr; field; exact N).
  apply (derivable_pt_lim_div (fct_cte 1) f a); [apply derivable_pt_lim_const|exact H|exact N].
Qed.
Lemma D_eq f a l m : l = m -> derivable_pt_lim f a l -> derivable_pt_lim f a m.
Proof. intros <-. auto. Qed.

Ltac der1 :=
  first [ apply D_const | apply D_id | lazymatch goal with
  | |- derivable_pt_lim (fun x => @?f x + @?g x) ?a _ => eapply (D_plus f g a)
  | |- derivable_pt_lim (fun x => @?f x - @?g x) ?a _ => eapply (D_minus f g a)
  | |- derivable_pt_lim (fun x => - @?f x) ?a _ => eapply (D_opp f a)
  | |- derivable_pt_lim (fun x => @?f x * @?g x) ?a _ => eapply (D_mult f g a)
  | |- derivable_pt_lim (fun x => sin (@?f x)) ?a _ => eapply (D_sin f a)
  | |- derivable_pt_lim (fun x => cos (@?f x)) ?a _ => eapply (D_cos f a)
  | |- derivable_pt_lim (fun x => exp (@?f x)) ?a _ => eapply (D_exp f a)
  end ].
Ltac der := repeat der1.
