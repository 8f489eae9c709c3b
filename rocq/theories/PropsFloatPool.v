(** C146: the mean of a cell over many batches, with rounded numbers. *)
From Coq Require Import Reals Qreals Lra List ZArith QArith Qabs Bool Lia.
From Verif Require Import Base CellModel VoxelModel FloatModel FloatErr FloatOcc FloatBatch FloatPoolModel FloatPoolSpec FloatPool.
Import ListNotations.
Open Scope R_scope.

(** Start from a cell whose mean is right but for [d] and pool it any number of times with
    points or cells whose means are right but for [d]: the count is that of exact numbers, and
    the mean is right but for [d] and 2^e / 2^48 for each time (all true means within 2^e). *)
Theorem C146_drift (e : nat) (d : R) (c : Z * Q) (x : Z * R) (l : list pool_op) (t : list (Z * R)) :
  proper (2 ^ e) x -> Forall (proper (2 ^ e)) t -> Forall2 (adds d) l t ->
  fst c = fst x -> Rabs (Q2R (snd c) - snd x) <= d -> d + INR (length l) * (2 ^ e / 2 ^ 48) <= 2 ^ e ->
  fst (fpools c l) = fst (weighted x t) /\
  Rabs (Q2R (snd (fpools c l)) - snd (weighted x t)) <= d + INR (length l) * (2 ^ e / 2 ^ 48).
Proof.
  intros P F A C H L. assert (S : 2 ^ e / 2 ^ 48 = 32 * (2 ^ e * U)).
  { replace U with (/ 32 * / 2 ^ 48) by (unfold U; cbn; lra). unfold Rdiv. field. }
  rewrite S, two_B in *. assert (d0 : 0 <= d) by (eapply Rle_trans; [apply Rabs_pos|exact H]).
  apply (pools_ok e d l t A F c x 0 P C d0); [cbn [INR]; lra|exact L].
Qed.
Print Assumptions C146_drift.

(** With exact numbers, as long as the cell counts all its points, this is the mean of everything
    that was added, each mean weighted with its number. *)
Definition count (t : list (Z * R)) : Z := fold_right (fun a s => (fst a + s)%Z) 0%Z t.
Definition moment (t : list (Z * R)) : R := fold_right (fun a s => IZR (fst a) * snd a + s) 0 t.
Theorem C146_weighted (x : Z * R) (t : list (Z * R)) : (1 <= fst x)%Z -> Forall (fun a => (1 <= fst a)%Z) t ->
  (fst x + count t <= MAX_POINTS)%Z ->
  weighted x t = ((fst x + count t)%Z, (IZR (fst x) * snd x + moment t) / IZR (fst x + count t)).
Proof.
  revert x. induction t as [|a t IH]; intros [n m] P F L; cbn [weighted fold_left count moment fold_right fst snd] in *.
  - rewrite Z.add_0_r, Rplus_0_r. f_equal. field. apply IZR_neq. lia.
  - inversion F as [|? ? A FT]; subst. assert (C : (0 <= count t)%Z).
    { clear -FT. induction FT as [|b u Hb _ IHu]; cbn [count fold_right]; [lia|]. fold (count u). lia. }
    fold (count t) in *. fold (moment t). unfold weighted in IH. rewrite IH; cbn [weigh fst snd]; [|lia|exact FT|lia].
    replace (Z.min MAX_POINTS (n + fst a)) with (n + fst a)%Z by lia. f_equal; [lia|].
    rewrite Z.add_assoc, !plus_IZR. assert (0 < IZR n + IZR (fst a)) by (rewrite <- plus_IZR; apply IZR_lt; lia).
    assert (0 < IZR n + IZR (fst a) + IZR (count t)) by (rewrite <- !plus_IZR; apply IZR_lt; lia). field. lra.
Qed.
Print Assumptions C146_weighted.

(** A cell of seven points at 1/10 and a batch of six at 3/10, then a cell of a billion points at 1/5. *)
Definition pe_cell : Z * Q := (7%Z, f64 (1#10)).
Definition pe_ops : list pool_op := [PAdd 6 (f64 (3#10)); PMerge MAX_POINTS (f64 (1#5))].
Definition pe_true : list (Z * R) := [(6%Z, 3/10); (MAX_POINTS, 1/5)].
Example C146_case : proper (2 ^ 0) (7%Z, 1/10) /\ Forall (proper (2 ^ 0)) pe_true /\ Forall2 (adds (1 / 2 ^ 50)) pe_ops pe_true /\
  fst pe_cell = 7%Z /\ Rabs (Q2R (snd pe_cell) - 1/10) <= 1 / 2 ^ 50 /\
  1 / 2 ^ 50 + INR (length pe_ops) * (2 ^ 0 / 2 ^ 48) <= 2 ^ 0 /\ fst (fpools pe_cell pe_ops) = MAX_POINTS.
Proof.
  assert (K : forall q s, Qle_bool (Qabs (f64 q - q)) (1 # 1125899906842624) = true -> Q2R q = s -> Rabs (Q2R (f64 q) - s) <= 1 / 2 ^ 50).
  { intros q s H <-. apply Qle_bool_iff, Qle_Rle in H. rewrite <- Q2R_minus, <- Qabs_R. eapply Rle_trans; [exact H|]. unfold Q2R. cbn. lra. }
  assert (A : forall a b, 0 <= a <= 1 -> b = 1 -> Rabs a <= b) by (intros a b H ->; rewrite Rabs_pos_eq; lra).
  assert (PR : forall n a, (1 <= n <= MAX_POINTS)%Z -> 0 <= a <= 1 -> proper (2 ^ 0) (n, a)) by (intros n a N H; split; [exact N|apply A; [exact H|reflexivity]]).
  split; [apply PR; [unfold MAX_POINTS; lia|lra]|].
  split; [unfold pe_true; apply Forall_cons; [|apply Forall_cons; [|apply Forall_nil]]; apply PR; try lra; unfold MAX_POINTS; lia|].
  split; [apply Forall2_cons; [|apply Forall2_cons; [|apply Forall2_nil]]; (split; [reflexivity|apply K; [vm_compute; reflexivity|unfold Q2R; cbn; lra]])|].
  split; [reflexivity|]. split; [apply K; [vm_compute; reflexivity|unfold Q2R; cbn; lra]|].
  split; [cbn; lra|vm_compute; reflexivity].
Qed.
