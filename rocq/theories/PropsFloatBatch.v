(** C145: mean and covariance of new points with rounded numbers. *)
From Coq Require Import Reals Qreals Lra List ZArith QArith Qabs Bool Lia.
From Verif Require Import Base LinAlg3 CellModel CellSpec CellProofs VoxelModel FloatModel FloatBatchModel FloatBatchSpec FloatBatch.
Import ListNotations.
Open Scope R_scope.

(** The mean differs from the true one by at most n 2^e / 2^51 in each coordinate, for [n]
    points whose coordinates are at most 2^e. *)
Theorem C145_mean (l : list qpoint) (e : nat) (i : axis) :
  (6 <= length l)%nat -> INR (length l) < 2 ^ 49 -> within (2 ^ e) l ->
  Rabs (Q2R (fbatch_mean l i) - coord i (mean_of (map real3 l))) <= INR (length l) * 2 ^ e / 2 ^ 51.
Proof. intros L H F. rewrite <- batch_mean_spec. apply batch_mean_err; [lia|exact H|exact F]. Qed.
Print Assumptions C145_mean.

(** Every entry of the covariance differs from that of exact numbers (C20) by at most
    n 4^e / 2^48. *)
Theorem C145_covariance (l : list qpoint) (e : nat) (i j : axis) :
  (6 <= length l)%nat -> INR (length l) < 2 ^ 49 -> within (2 ^ e) l ->
  Rabs (Q2R (fbatch_cov l i j) -
        entry i j (mscale ((INR (length l) - 1) / (INR (length l) * INR (length l))) (madd mid (scatter (map real3 l)))))
    <= INR (length l) * (2 ^ e * 2 ^ e) / 2 ^ 48.
Proof.
  intros L H F. assert (NE : map real3 l <> []) by (destruct l; [cbn in L; lia|discriminate]).
  pose proof (batch_cov_spec (map real3 l) NE) as E. rewrite map_length in E. rewrite <- E. apply batch_cov_err; [lia|exact H|exact F].
Qed.
Print Assumptions C145_covariance.

(** What the eigenvalue solver sees is positive definite as long as n 2^e is at most 2^23: a
    thousand points within eight kilometres. *)
Theorem C145_positive (l : list qpoint) (e : nat) :
  (6 <= length l)%nat -> INR (length l) * 2 ^ e <= 2 ^ 23 -> within (2 ^ e) l -> posdef (lower (fbatch_cov l)).
Proof. exact (lower_pd l e). Qed.
Print Assumptions C145_positive.

(** Far away it is not: six points at 2^25 have a negative variance. *)
Definition far : list qpoint := map (fun q => (33554432 + q, 0, 0))%Q [1#2; 3#4; 3#4; 1#4; 3#4; 1#2].
Theorem C145_far_refuted : Q2R (fbatch_cov far AX AX) < 0 /\ ~ posdef (lower (fbatch_cov far)).
Proof.
  assert (N : Q2R (fbatch_cov far AX AX) < 0).
  { rewrite <- RMicromega.Q2R_0. apply Qlt_Rlt. vm_compute. reflexivity. }
  split; [exact N|]. intros [_ P]. specialize (P (mkV 1 0 0)).
  assert (Z : mkV 1 0 0 <> vzero) by (intro H; injection H; lra). specialize (P Z).
  unfold quad, lower in P. cbn [mvmul vdot vx vy vz m11 m12 m13 m21 m22 m23 m31 m32 m33] in P.
  unfold vdot, mvmul in P. cbn [vx vy vz m11 m12 m13 m21 m22 m23 m31 m32 m33] in P. lra.
Qed.
Print Assumptions C145_far_refuted.

(** The matrix is not always symmetric: the two entries of a pair of coordinates are rounded
    differently. *)
Definition askew : list qpoint :=
  [(1, 7#8, 0); (-(1), 1#4, 0); (1#2, 1#8, 0); (-(1), -(3#8), 0); (-(1#4), 1#4, 0); (-(1#2), 1#4, 0)]%Q.
Theorem C145_symmetric_refuted : Q2R (fbatch_cov askew AX AY) <> Q2R (fbatch_cov askew AY AX).
Proof. intro H. apply eqR_Qeq in H. revert H. vm_compute. discriminate. Qed.
Print Assumptions C145_symmetric_refuted.
(** It is, but for twice the error. *)
Theorem C145_almost_symmetric (l : list qpoint) (e : nat) (i j : axis) :
  (6 <= length l)%nat -> INR (length l) < 2 ^ 49 -> within (2 ^ e) l ->
  Rabs (Q2R (fbatch_cov l i j) - Q2R (fbatch_cov l j i)) <= INR (length l) * (2 ^ e * 2 ^ e) / 2 ^ 47.
Proof.
  intros L H F. pose proof (batch_cov_err l e i j ltac:(lia) H F) as A. pose proof (batch_cov_err l e j i ltac:(lia) H F) as C.
  assert (S : sym (batch_cov (map real3 l))) by (apply batch_cov_pd; rewrite map_length; lia).
  assert (X : entry i j (batch_cov (map real3 l)) = entry j i (batch_cov (map real3 l))).
  { revert S. generalize (batch_cov (map real3 l)). intros [a11 a12 a13 a21 a22 a23 a31 a32 a33] S. unfold sym in S. cbn in S.
    injection S as S1 S2 S3. subst. destruct i, j; reflexivity. }
  rewrite X in A. rewrite Rabs_minus_sym in C.
  pose proof (tri _ _ _ _ _ A C) as T. eapply Rle_trans; [exact T|].
  replace (INR (length l) * (2 ^ e * 2 ^ e) / 2 ^ 47) with (2 * (INR (length l) * (2 ^ e * 2 ^ e) / 2 ^ 48)); [lra|].
  replace (2 ^ 48) with (2 * 2 ^ 47) by (cbn; lra). field.
Qed.
Print Assumptions C145_almost_symmetric.

(** The points of the last witness are within one metre of the origin; the entries are those
    of doubles. *)
Example C145_case : within (2 ^ 0) askew /\ (6 <= length askew)%nat /\ INR (length askew) * 2 ^ 0 <= 2 ^ 23 /\
  (fbatch_mean askew AX == -7505999378950827 # 36028797018963968)%Q.
Proof.
  split; [|split; [cbn; lia|split; [cbn; lra|vm_compute; reflexivity]]].
  unfold within, askew. repeat (apply Forall_cons; [intros []; cbn [at_]; unfold Q2R; cbn; apply Rabs_le; lra|]). apply Forall_nil.
Qed.
