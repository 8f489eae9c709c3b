(** Proofs about printed texts: occupancies and the lookup table. *)
From Coq Require Import Reals Ascii String List ZArith NArith Bool Arith Lia Lra.
From Verif Require Import Base CellModel CorrModel CorrSpec CorrTable CorrInit TextModel PrintModel PrintSpec PrintProofs.
Import List ListNotations.
Open Scope nat_scope.
Local Notation len := List.length.

Lemma cell_plain c : plain (cellText c).
Proof.
  unfold cellText. destruct (c_occ c); [apply spellZ_plain|]. cbn. intro H. repeat (destruct H as [H|H]; [discriminate|]). exact H.
Qed.
Lemma occ_floor x : (-1 <= x <= 1)%R -> floorR x = (-1)%Z \/ floorR x = 0%Z \/ floorR x = 1%Z.
Proof.
  intros [A B]. destruct (floorR_spec x) as [L U].
  assert (-2 < floorR x < 2)%Z by (split; apply lt_IZR; lra). lia.
Qed.
Lemma cell_short c : c_occ c = None \/ (exists x, c_occ c = Some x /\ (-1 <= x <= 1)%R) ->
  In (cellText c) [lit "-1"; lit "0"; lit "1"; lit "nan"] /\ len (cellText c) <= 5.
Proof.
  unfold cellText. intros [E|(x & E & B)]; rewrite E; [split; [do 3 right; left; reflexivity|cbn; lia]|].
  destruct (occ_floor x B) as [F|[F|F]]; rewrite F; (split; [|vm_compute; lia]); cbn [In].
  - left. reflexivity.
  - right. left. reflexivity.
  - right. right. left. reflexivity.
Qed.
Lemma short_number v : (0 <= v <= 100)%Z -> len (spellZ v) <= 5.
Proof.
  intro B. assert (F : forallb (fun k => len (spellZ (Z.of_nat k)) <=? 5) (seq 0 101) = true) by (vm_compute; reflexivity).
  rewrite forallb_forall in F. specialize (F (Z.to_nat v)). rewrite Z2Nat.id in F by lia. apply Nat.leb_le, F. apply in_seq. lia.
Qed.
Open Scope R_scope.
Theorem table_text : forall target step std t, 0 < step -> std * step <= 997 / 100 -> initGrid target step std = Ok t ->
  exists txt, tableText t = Ok txt /\ len (lines_of txt) = S (Z.to_nat (l_col t)) /\
    forall r c v, inTable t r c -> tabAt t r c = Some v ->
      exists l, nth_error (lines_of txt) (S (Z.to_nat r)) = Some l /\ len l = (5 * Z.to_nat (l_row t))%nat /\
        in_field (field 5 (Z.to_nat c) l) (spellZ v).
Proof.
  intros target step std t Hs Hw E. destruct (init_good target step std Hs Hw) as (t' & E' & G).
  rewrite E in E'. injection E' as <-. pose proof G as (_ & GM & L & V). unfold tableText.
  assert (RP : (0 < l_row t /\ 0 <= l_col t)%Z).
  { destruct GM as (_ & _ & (BX & _) & G4 & G5 & G6 & _). destruct (BX (0, 0) (or_introl eq_refl)) as [X Y].
    assert (HP : (1 <= l_border t)%Z) by (rewrite G4; apply hf_pos, sigma_half).
    assert (P1 : (0 <= ceilR ((l_maxx t - l_minx t) / step))%Z) by (apply ceilR_nonneg, Rmult_le_pos; [lra|apply Rlt_le, Rinv_0_lt_compat, Hs]).
    assert (P2 : (0 <= ceilR ((l_maxy t - l_miny t) / step))%Z) by (apply ceilR_nonneg, Rmult_le_pos; [lra|apply Rlt_le, Rinv_0_lt_compat, Hs]).
    lia. }
  destruct RP as [RP CP].
  assert (LN : len (l_table t) = (Z.to_nat (l_row t) * Z.to_nat (l_col t))%nat) by (rewrite L, Z2Nat.inj_mul by lia; reflexivity).
  assert (SZ : Z.to_nat (l_row t) <> 0%nat) by lia.
  destruct (numbers_lines (Z.to_nat (l_row t)) (Z.to_nat (l_col t)) (l_table t) SZ LN) as (txt & A & B).
  exists txt. split; [exact A|]. rewrite B. cbn [len nth_error]. rewrite map_length, seq_length. split; [reflexivity|].
  intros r c v [IR IC] TA.
  set (row := fun c => spellZ (nth (Z.to_nat r * Z.to_nat (l_row t) + c)%nat (l_table t) 0%Z)).
  exists (concat (map (fun c => setw 5 (row c)) (seq 0 (Z.to_nat (l_row t))))).
  assert (IDX : forall k, (k < Z.to_nat (l_row t))%nat -> (Z.to_nat r * Z.to_nat (l_row t) + k)%nat = Z.to_nat (r * l_row t + Z.of_nat k)).
  { intros k K. rewrite <- Z2Nat.inj_mul by lia. rewrite Z2Nat.inj_add, Nat2Z.id by nia. reflexivity. }
  split; [rewrite nth_error_map, nth_seq by lia; reflexivity|].
  assert (RV : row (Z.to_nat c) = spellZ v).
  { unfold row. rewrite IDX by lia. rewrite Z2Nat.id by lia. unfold tabAt in TA. erewrite nth_error_nth by exact TA. reflexivity. }
  destruct (fields_of row (Z.to_nat (l_row t)) (Z.to_nat c)) as [F1 F2].
  - intros k K. apply short_number. rewrite IDX by exact K. apply (V r (Z.of_nat k)). split; lia.
  - lia.
  - rewrite RV in F2. split; assumption.
Qed.
