(** What the beams through a cell without a distribution add up to. *)
From Coq Require Import Reals List ZArith Bool Lra Lia.
From Verif Require Import Base LinAlg3 CellModel.
Import ListNotations.
Open Scope R_scope.

Definition beam_sum (bs : list (V3 * V3 * V3 * Z)) : Z := fold_right Z.add 0%Z (map snd bs).

Lemma max_max a s : 0 <= s -> Rmax (-1) (Rmax (-1) a - s) = Rmax (-1) (a - s).
Proof.
  intro H. unfold Rmax at 2. destruct (Rle_dec (-1) a) as [A|A]; [reflexivity|].
  rewrite !Rmax_left by lra. reflexivity.
Qed.
Lemma beams_add_up (bs : list (V3 * V3 * V3 * Z)) : (forall b, In b bs -> (0 <= snd b)%Z) ->
  forall c o, c_gauss c = false -> c_occ c = Some o -> -1 <= o <= 1 ->
  fold_left (fun x b => updateOccupancy x (fst (fst (fst b))) (snd (fst (fst b))) (snd (fst b)) (snd b)) bs c =
  set_occ c (Some (Rmax (-1) (o - 2 / 10 * IZR (beam_sum bs)))).
Proof.
  unfold beam_sum. induction bs as [|b bs IH]; intros N c o G O R; cbn [fold_left map fold_right].
  - unfold Rmax. destruct (Rle_dec (-1) (o - 2 / 10 * IZR 0)) as [H|H]; [|exfalso; lra].
    replace (o - 2 / 10 * IZR 0) with o by lra. destruct c. cbn in *. unfold set_occ. cbn. congruence.
  - pose proof (N b (or_introl eq_refl)) as NB. apply IZR_le in NB.
    assert (ST : updateOccupancy c (fst (fst (fst b))) (snd (fst (fst b))) (snd (fst b)) (snd b) =
                 set_occ c (Some (Rmax (-1) (o - 2 / 10 * IZR (snd b))))).
    { unfold updateOccupancy. rewrite G. cbn [negb]. rewrite O. cbn [addOcc option_map].
      assert (E : clampOcc (o + NO_GAUSS_OCC * IZR (snd b)) = Rmax (-1) (o - 2 / 10 * IZR (snd b))).
      { unfold clampOcc, MAX_OCC, MIN_OCC, NO_GAUSS_OCC, Rmax.
        destruct (Rlt_dec 1 (o + - (2 / 10) * IZR (snd b))) as [Q|Q]; [exfalso; lra|].
        destruct (Rlt_dec (o + - (2 / 10) * IZR (snd b)) (-1)), (Rle_dec (-1) (o - 2 / 10 * IZR (snd b))); lra. }
      rewrite E. destruct (occ_le0 (c_occ (set_occ c (Some (Rmax (-1) (o - 2 / 10 * IZR (snd b))))))); [|reflexivity].
      destruct c. cbn in *. subst. reflexivity. }
    rewrite ST. rewrite (IH (fun x I => N x (or_intror I)) _ (Rmax (-1) (o - 2 / 10 * IZR (snd b))));
      [|exact G|reflexivity|].
    + pose proof (fun x (I : In x bs) => N x (or_intror I)) as N'.
      assert (S0 : 0 <= IZR (fold_right Z.add 0%Z (map snd bs))).
      { apply IZR_le. clear IH N. induction bs as [|x bs IH2]; [cbn; lia|]. cbn [map fold_right].
        pose proof (N' x (or_introl eq_refl)). assert (0 <= fold_right Z.add 0%Z (map snd bs))%Z; [|lia].
        apply IH2. intros y I. apply N'. right. exact I. }
      destruct c. unfold set_occ. cbn. do 2 f_equal. rewrite plus_IZR.
      rewrite (max_max (o - 2 / 10 * IZR (snd b)) (2 / 10 * IZR (fold_right Z.add 0%Z (map snd bs)))) by lra.
      f_equal. lra.
    + unfold Rmax. destruct (Rle_dec (-1) (o - 2 / 10 * IZR (snd b))); lra.
Qed.
