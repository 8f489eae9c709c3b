(** C137-C139: what is printed for people (property statements; model in PrintModel.v,
    vocabulary in PrintSpec.v, proofs in PrintProofs.v, PrintCorr.v). *)
From Coq Require Import Reals Ascii String List ZArith QArith Bool Arith Lia Lra.
From Verif Require Import Base GraphModel LoopModel SlamModel SlamSpec VoxelModel VoxelSpec LinAlg3 CellModel CellSpec CorrModel CorrSpec CorrCases TextModel
  ExportModel ExportSpec PropsSlam PropsExport PropsVoxel PropsCell PrintModel PrintSpec PrintProofs PrintCorr.
Import List ListNotations.
Open Scope nat_scope.
Local Notation len := List.length.

(** ** C137: the picture of an NDT grid *)
(** One line for each row of the window, from the top, one character for each square, from
    the left: W where there is a distribution, a full stop where the square has a cell
    without one, a space where it has none. *)
Theorem C137_picture : forall C (gauss : C -> bool) (g : vgrid C), wf g ->
  lines_of (pictureText gauss g) =
    map (fun r => map (fun c => match shown g r c with
                                | None => " " | Some v => if gauss v then "W" else "." end%char)
                      (seq 0 (width g))) (seq 0 (height g)) ++ [[]].
Proof. exact @picture_lines. Qed.
Print Assumptions C137_picture.
(** So two maps of one size that look the same have the same squares with and without
    distributions. *)
Theorem C137_tells_apart : forall C (gauss : C -> bool) (g g' : vgrid C), wf g -> wf g' ->
  w_left g = w_left g' -> w_right g = w_right g' -> h_up g = h_up g' -> h_down g = h_down g' ->
  pictureText gauss g = pictureText gauss g' ->
  forall p, option_map gauss (content g p) = option_map gauss (content g' p).
Proof.
  intros C gauss g g' W W' E1 E2 E3 E4 T [x y].
  assert (BX : in_box g (x, y) = in_box g' (x, y)) by (unfold in_box; rewrite E1, E2, E3, E4; reflexivity).
  destruct (in_box g (x, y)) eqn:IB.
  - assert (WI : width g = width g') by (unfold width; congruence). assert (HE : height g = height g') by (unfold height; congruence).
    apply (f_equal lines_of) in T. rewrite !C137_picture, <- WI, <- HE in T by assumption. apply app_inv_tail in T.
    unfold in_box in IB. cbn [fst snd] in IB. rewrite !andb_true_iff, !Z.leb_le in IB.
    set (r := Z.to_nat (Z.of_nat (h_up g) - y)). set (c := Z.to_nat (x + Z.of_nat (w_left g))).
    assert (R : r < height g) by (unfold r, height; lia). assert (D : c < width g) by (unfold c, width; lia).
    assert (SG : shown g r c = content g (x, y)) by (unfold shown, r, c; do 2 f_equal; lia).
    assert (SG' : shown g' r c = content g' (x, y)) by (unfold shown, r, c; rewrite <- E1, <- E3; do 2 f_equal; lia).
    apply (f_equal (fun l => nth_error l r)) in T. rewrite !nth_error_map, !nth_seq in T by exact R. injection T as T.
    apply (f_equal (fun l => nth_error l c)) in T. rewrite !nth_error_map, !nth_seq in T by exact D. injection T as T.
    rewrite SG, SG' in T. destruct (content g (x, y)) as [v|], (content g' (x, y)) as [v'|]; cbn [option_map];
      try (destruct (gauss v)); try (destruct (gauss v')); try reflexivity; discriminate.
  - unfold content. rewrite <- BX, IB. reflexivity.
Qed.
Print Assumptions C137_tells_apart.
(** A window of 3 by 2 squares with two distributions and an empty cell. *)
Definition small_map : vgrid bool := mkGrid (1#4) 1 1 1 0 3 [Some true; None; Some false; None; Some true; None].
Example C137_case : wf small_map /\
  string_of_list_ascii (pictureText (fun b => b) small_map) = ("W ." ++ String newline (" W " ++ String newline ""))%string.
Proof. split; [split; [vm_compute|]; reflexivity|]. vm_compute. reflexivity. Qed.

(** ** C138: numbers in columns *)
(** The text of a grid: one line for each row, one field of five characters for each
    square, with NULL or the text of its cell to the right, if that text fits. *)
Theorem C138_grid_partial : forall C (show : C -> text) (g : vgrid C) r c, wf g ->
  (forall v, ~ In newline (show v)) -> (forall p v, content g p = Some v -> len (show v) <= 5) ->
  r < height g -> c < width g ->
  len (lines_of (voxelText show g)) = height g /\
  exists l, nth_error (lines_of (voxelText show g)) r = Some l /\ len l = 5 * width g /\
    in_field (field 5 c l) (match shown g r c with None => lit "NULL" | Some v => show v end).
Proof.
  intros C show g r c W P S R D. split; [|exact (voxel_field show g r c W P S R D)].
  rewrite (voxel_lines show P g W), map_length, seq_length. reflexivity.
Qed.
Print Assumptions C138_grid_partial.
(** The text of a cell always fits: it is -1, 0 or 1, or nan. *)
Theorem C138_cells : forall eig (g : vgrid cell) r c, eigen_solver eig -> wf g ->
  (forall p v, content g p = Some v -> reach eig anyBeam v) -> r < height g -> c < width g ->
  exists l f, nth_error (lines_of (voxelText cellText g)) r = Some l /\ len l = 5 * width g /\
    In f [lit "NULL"; lit "-1"; lit "0"; lit "1"; lit "nan"] /\ in_field (field 5 c l) f /\
    (f = lit "NULL" <-> shown g r c = None).
Proof.
  intros eig g r c E W RE R D.
  assert (ST : forall p v, content g p = Some v -> In (cellText v) [lit "-1"; lit "0"; lit "1"; lit "nan"] /\ len (cellText v) <= 5).
  { intros p v H. apply cell_short. exact (C16_occupancy_range_any eig v E (RE p v H)). }
  destruct (voxel_field cellText g r c W cell_plain (fun p v H => proj2 (ST p v H)) R D) as (l & A & B & F).
  exists l. destruct (shown g r c) as [v|] eqn:SH.
  - exists (cellText v). destruct (ST _ v SH) as [I _]. split; [exact A|]. split; [exact B|]. split; [right; exact I|]. split; [exact F|].
    split; [|discriminate]. intro H. rewrite H in I. cbn in I. repeat (destruct I as [I|I]; [discriminate|]). destruct I.
  - exists (lit "NULL"). split; [exact A|]. split; [exact B|]. split; [left; reflexivity|]. split; [exact F|]. split; reflexivity.
Qed.
Print Assumptions C138_cells.
(** A longer text pushes the rest of its line to the right. *)
Theorem C138_grid_refuted : exists (g : vgrid Z) l, wf g /\ nth_error (lines_of (voxelText spellZ g)) 0 = Some l /\
  shown g 0 1 = Some 7%Z /\ ~ in_field (field 5 1 l) (lit "7").
Proof.
  exists (mkGrid (1#4) 0 1 0 0 2 [Some 123456%Z; Some 7%Z]). eexists. split; [split; vm_compute; reflexivity|].
  split; [vm_compute; reflexivity|]. split; [reflexivity|]. intros (k & E & _). vm_compute in E.
  destruct k as [|k]; [discriminate E|]. discriminate E.
Qed.
Print Assumptions C138_grid_refuted.
(** The text of the lookup table: after an empty line one line for each row, one field of
    five characters for each square, with its number. *)
Theorem C138_table : forall target step std t, (0 < step)%R -> (std * step <= 997 / 100)%R -> initGrid target step std = Ok t ->
  exists txt, tableText t = Ok txt /\ len (lines_of txt) = S (Z.to_nat (l_col t)) /\
    forall r c v, inTable t r c -> tabAt t r c = Some v ->
      exists l, nth_error (lines_of txt) (S (Z.to_nat r)) = Some l /\ len l = 5 * Z.to_nat (l_row t) /\
        in_field (field 5 (Z.to_nat c) l) (spellZ v).
Proof. exact table_text. Qed.
Print Assumptions C138_table.
Example C138_case : wf small_map /\
  string_of_list_ascii (voxelText (fun b : bool => if b then lit "12" else lit "-345") small_map) =
    ("   12 NULL -345" ++ String newline " NULL   12 NULL")%string.
Proof. split; [split; [vm_compute|]; reflexivity|]. vm_compute. reflexivity. Qed.
Example C138_table_case : exists t, initGrid three 1 (1 / 2) = Ok t /\ inTable t 6 6 /\ l_row t = 13%Z.
Proof.
  destruct three_table as (t & E & G & B1 & B2 & B3 & B4 & Bo & S1 & S2 & RR & CC & P & OC).
  exists t. split; [exact E|]. split; [|exact RR]. unfold inTable. rewrite RR. split; [|lia].
  rewrite CC. lia.
Qed.

(** ** C139: the graph as lines *)
(** As far as reading one element past the end of a vector goes well, there are two points
    for each constraint, the present places of its two poses, in the order of the
    constraints, and a colour for each point. *)
Theorem C139_lines_partial : forall (Pose Obj Info Guess D P : Type) (xy : Pose -> P)
    (env : senv Pose Obj Info Guess D) l s log null, srun env l = Ok (s, log) ->
  exists m, listMarkers xy (Some null) s = Ok m /\ len (li_colours m) = len (li_points m) /\
    (forall id, getConstrainPoses s id <> Throw <-> 2 * id + 1 < len (li_points m)) /\
    forall id f t, getConstrainPoses s id = Ok (f, t) -> exists pf pt,
      getPoseLocation s f = Ok pf /\ getPoseLocation s t = Ok pt /\
      nth_error (li_points m) (2 * id) = Some (xy pf) /\ nth_error (li_points m) (2 * id + 1) = Some (xy pt).
Proof.
  intros Pose Obj Info Guess D P xy env l s log null R.
  destruct (C98_markers_partial Pose Obj Info Guess D P xy env l s log null R) as (ms & G & CN & AR).
  destruct (list_markers xy s (Some null) ms G) as (m & A & B & E). exists m. split; [exact A|].
  assert (LE : forall ms : list (arrow P), len (flat_map ends_of ms) = 2 * len ms).
  { clear. induction ms as [|x ms IH]; [reflexivity|]. cbn [flat_map ends_of app len]. rewrite IH. lia. }
  assert (LC : forall n (a b : rgba), len (concat (repeat [a; b] n)) = 2 * n).
  { clear. induction n as [|n IH]; intros a b; [reflexivity|]. cbn [repeat concat app len]. rewrite IH. lia. }
  rewrite B, E, LE, LC. split; [reflexivity|]. split; [intro id; rewrite CN; lia|].
  intros id f t GC. assert (L : id < len ms) by (apply CN; rewrite GC; discriminate).
  destruct (nth_error ms id) as [x|] eqn:N; [|apply nth_error_None in N; lia].
  destruct (AR id x N) as (_ & f' & t' & pf & pt & H1 & H2 & H3 & H4 & H5 & _).
  rewrite GC in H1. injection H1 as <- <-. exists pf, pt. split; [exact H2|]. split; [exact H3|].
  rewrite <- H4, <- H5. clear - N. revert id N. induction ms as [|y ms IH]; intros [|id] N; try discriminate.
  - injection N as ->. split; reflexivity.
  - replace (2 * S id) with (S (S (2 * id))) by lia. replace (S (S (2 * id)) + 1) with (S (S (2 * id + 1))) by lia. exact (IH id N).
Qed.
Print Assumptions C139_lines_partial.
(** The beginning of every line is drawn with nothing at all: the lighter red is never set. *)
Theorem C139_colour_refuted : forall (Pose Obj Info P : Type) (xy : Pose -> P) oob (s : slam Pose Obj Info) m,
  listMarkers xy oob s = Ok m -> forall id c, nth_error (li_colours m) (2 * id) = Some c -> c = (0, 0, 0, 0)%Z.
Proof.
  intros Pose Obj Info P xy oob s m. unfold listMarkers.
  destruct (visitEdgesPre oob (s_graph s)) as [es| |]; cbn [bind]; try discriminate.
  assert (G : forall es m0 m, (exists n, li_colours m0 = concat (repeat [light_red; red] n)) -> foldM (addLine xy s) es m0 = Ok m ->
     exists n, li_colours m = concat (repeat [light_red; red] n)).
  { clear. induction es as [|ae es IH]; intros m0 m N H; [injection H as <-; exact N|]. cbn [foldM] in H.
    destruct (addLine xy s m0 ae) as [m1| |] eqn:A; cbn [bind] in H; try discriminate. apply (IH m1); [|exact H].
    unfold addLine in A. destruct (vget _ (e_from (snd ae))); cbn [bind] in A; try discriminate.
    destruct (vget _ (e_to (snd ae))); cbn [bind] in A; try discriminate. injection A as <-. destruct N as [n N]. exists (n + 1).
    cbn [li_colours]. rewrite N, repeat_app, concat_app. reflexivity. }
  intro H. destruct (G es (mkLines [] []) m (ex_intro _ 0 eq_refl) H) as [n E]. rewrite E. clear.
  induction n as [|n IH]; intros id c N; [destruct id; discriminate|]. destruct id as [|id].
  - injection N as <-. reflexivity.
  - replace (2 * S id) with (S (S (2 * id))) in N by lia. exact (IH id c N).
Qed.
Print Assumptions C139_colour_refuted.
Example C139_case : exists s log m, srun ex_senv ex_sops = Ok (s, log) /\
  listMarkers (fun p => p) (Some true) s = Ok m /\ li_points m = [0; 1; 1; 2; 2; 3; 3; 1; 3; 0]%Z.
Proof. eexists _, _, _. split; [vm_compute; reflexivity|]. split; vm_compute; reflexivity. Qed.
