(** What the published occupancy message says. *)
From Coq Require Import List ZArith QArith Qround Qabs Lqa Lia Bool
  Sorting.Permutation Sorting.Sorted.
From Verif Require Import Base QLemmas VoxelModel VoxelSpec VoxelProofs VoxelOps VoxelAdd VoxelRay
  GridModel GridSpec GridProofs GridOps MapModel MapSpec MapProofs MapHist.
Import ListNotations.
Open Scope nat_scope.

Section Msg.
Context {X L : Type}.
Notation cell := (ncell X).
Notation grid := (ngrid X).
Variable merge : cell -> cell -> cell.
Variable dflt : cell.
Variable tcell : qtrans L -> cell -> cell.
Variable occRay : cell -> point -> cell -> cell.
Variable rawOcc : cell -> Q.
Variable btw : qpose -> qpose -> qtrans L.
Variable tp : qtrans L -> point -> point.

Notation mreach := (mreach merge dflt tcell occRay rawOcc btw tp).
Notation mstep := (mstep merge dflt tcell occRay rawOcc btw tp).

Definition shown (m : mapper X) : Prop :=
  m_frames m <> [] -> m_occ m = createOccupancyGrid rawOcc btw tp (m_ndt m).
Lemma shown_step m o m' : shown m -> mstep m o m' -> shown m'.
Proof.
  intros S H. destruct H as [f ts m' E|s t m' SS E|fs LE]; intro NE.
  - unfold MapModel.addFrame in E. apply bind_ok_inv in E. destruct E as (g & EG & E).
    apply bind_ok_inv in E. destruct E as (ms & EM & E). injection E as <-. reflexivity.
  - unfold MapModel.recalc in E. apply bind_ok_inv in E. destruct E as (g & EG & E).
    apply bind_ok_inv in E. destruct E as (ms & EM & E). injection E as <-. reflexivity.
  - cbn [m_occ m_ndt m_frames] in *. apply S. intro K. rewrite K in LE.
    destruct fs; [congruence|discriminate].
Qed.
Lemma shown_reach ops m : mreach ops m -> shown m.
Proof.
  induction 1 as [|ops m o m' _ IH ST]; [|eapply shown_step; eauto].
  intro K. cbn in K. congruence.
Qed.

Lemma qn_z n : qn n = inject_Z (Z.of_nat n). Proof. reflexivity. Qed.

Theorem message ops m : mreach ops m -> m_frames m <> [] ->
  (forall p, peq (tp (btw world world) p) p) ->
  let msg := calcOccupancyGridMsg m in let v := n_vox (m_ndt m) in
  om_yaw msg = 0%Q /\ om_res msg = map_res /\
  length (om_data msg) = om_width msg * om_height msg /\
  forall col row, col < om_width msg -> row < om_height msg ->
    exists c, in_box v c = true /\
      ros_entry msg col row =
        Some (match content v c with
              | None => (-1)%Z
              | Some x => if Qlt_b (8#10) (rawOcc x) then 99%Z else 0%Z
              end) /\
      (inject_Z (fst c) * map_res == fst (om_origin msg) + inject_Z (Z.of_nat col) * map_res)%Q /\
      (inject_Z (snd c) * map_res == snd (om_origin msg) - inject_Z (Z.of_nat row) * map_res)%Q /\
      forall d, in_cell map_res d (ros_place msg col row) ->
        d = (fst c + 1, snd c + 2 * Z.of_nat row)%Z.
Proof.
  intros R NE ID. cbv zeta.
  destruct (minv_reach merge dflt tcell occRay rawOcc btw tp ops m R) as ((W & CS) & P & S & _).
  pose proof (shown_reach ops m R NE) as SH.
  unfold calcOccupancyGridMsg, ros_entry, ros_place.
  cbn [om_yaw om_res om_data om_width om_height om_origin]. rewrite SH.
  destruct (occ_cells_spec rawOcc btw tp (m_ndt m) W) as (LN & EW & EH & EO & ET & ER & EN).
  set (o := createOccupancyGrid rawOcc btw tp (m_ndt m)) in *.
  split; [rewrite ET, P; reflexivity|]. split; [rewrite ER; exact S|]. split; [exact LN|].
  intros col row HC HR.
  exists (Z.of_nat col - Z.of_nat (w_left (n_vox (m_ndt m))),
          Z.of_nat (h_up (n_vox (m_ndt m))) - Z.of_nat row)%Z.
  split.
  { rewrite EW in HC. rewrite EH in HR. unfold in_box, width, height in *. cbn [fst snd].
    rewrite !andb_true_iff, !Z.leb_le. lia. }
  split; [apply EN; assumption|].
  assert (OX : (fst (oc_origin o) == - qn (w_left (n_vox (m_ndt m))) * map_res)%Q /\
               (snd (oc_origin o) == qn (h_up (n_vox (m_ndt m))) * map_res)%Q).
  { rewrite EO, P, S. destruct (ID (inject_Z (- Z.of_nat (w_left (n_vox (m_ndt m)))) * map_res,
      inject_Z (Z.of_nat (h_up (n_vox (m_ndt m)))) * map_res)%Q) as [A B].
    fold world. rewrite A, B. cbn [fst snd]. rewrite inject_Z_opp. split; reflexivity. }
  destruct OX as [OX OY].
  cbn [fst snd]. split; [rewrite OX, inj_minus; unfold qn; ring|].
  split; [rewrite OY, inj_minus; unfold qn; ring|].
  intros [i j] D. rewrite ER, S in D. unfold in_cell in D. cbn [fst snd] in D.
  rewrite OX, OY in D. unfold map_res, qn in D.
  set (a := Z.of_nat (w_left (n_vox (m_ndt m)))) in *.
  set (b := Z.of_nat (h_up (n_vox (m_ndt m)))) in *.
  set (x := Z.of_nat col) in *. set (y := Z.of_nat row) in *.
  destruct D as (D1 & D2 & D3 & D4).
  assert (I1 : (i - 1 <= x - a)%Z).
  { apply inj_le. rewrite !inj_minus. change (inject_Z 1) with 1%Q. lra. }
  assert (I2 : (x - a < i)%Z).
  { apply inj_lt. rewrite !inj_minus. lra. }
  assert (J1 : (j - 1 < b + y)%Z).
  { apply inj_lt. rewrite inj_minus, inject_Z_plus. change (inject_Z 1) with 1%Q. lra. }
  assert (J2 : (b + y <= j)%Z).
  { apply inj_le. rewrite inject_Z_plus. lra. }
  f_equal; lia.
Qed.
End Msg.
