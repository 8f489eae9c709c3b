(** Proofs about printed texts. *)
From Coq Require Import Ascii String List ZArith NArith Bool Arith Lia.
From Verif Require Import Base GraphModel LoopModel SlamModel VoxelModel VoxelSpec VoxelProofs CorrModel TextModel TextNum ExportModel PrintModel PrintSpec.
Import List ListNotations.
Open Scope nat_scope.
Local Notation len := List.length.

(** ** lines *)
Definition plain (t : text) : Prop := ~ In newline t.
Lemma lines_plain t : plain t -> lines_of t = [t].
Proof.
  induction t as [|a t IH]; intro P; [reflexivity|]. cbn [lines_of]. destruct (Ascii.eqb_spec a (ascii_of_nat 10)) as [E|E].
  - exfalso. apply P. left. exact E.
  - rewrite IH; [reflexivity|]. intro H. apply P. right. exact H.
Qed.
Lemma lines_app t u : plain t -> lines_of (t ++ newline :: u) = t :: lines_of u.
Proof.
  induction t as [|a t IH]; intro P; [reflexivity|]. cbn [lines_of app]. destruct (Ascii.eqb_spec a (ascii_of_nat 10)) as [E|E].
  - exfalso. apply P. left. exact E.
  - rewrite IH; [reflexivity|]. intro H. apply P. right. exact H.
Qed.
Lemma lines_after ls : Forall plain ls -> lines_of (concat (map (fun l => l ++ [newline]) ls)) = ls ++ [[]].
Proof.
  induction 1 as [|l ls P _ IH]; [reflexivity|]. cbn [map concat]. rewrite <- app_assoc. cbn [app]. rewrite lines_app by exact P.
  rewrite IH. reflexivity.
Qed.
Lemma lines_before ls : Forall plain ls -> lines_of (concat (map (fun l => newline :: l) ls)) = [] :: ls.
Proof.
  intro F. destruct ls as [|l ls]; [reflexivity|]. cbn [map concat]. rewrite <- app_comm_cons.
  change (newline :: l ++ ?x) with ([] ++ newline :: (l ++ x)). rewrite lines_app by (intro H; exact H). f_equal.
  revert l F. induction ls as [|k ls IH]; intros l F; inversion F as [|? ? P F']; subst.
  - cbn. rewrite app_nil_r. apply lines_plain, P.
  - cbn [map concat]. rewrite <- app_comm_cons, lines_app by exact P. f_equal. apply IH. exact F'.
Qed.
Lemma lines_between l ls : Forall plain (l :: ls) -> lines_of (l ++ concat (map (fun l => newline :: l) ls)) = l :: ls.
Proof.
  intro F. inversion F as [|? ? P F']; subst. destruct ls as [|k ls].
  - cbn. rewrite app_nil_r. apply lines_plain, P.
  - cbn [map concat]. rewrite <- app_comm_cons, lines_app by exact P. f_equal.
    pose proof (lines_before (k :: ls) F') as H. cbn [map concat] in H. rewrite <- app_comm_cons in H.
    change (newline :: ?x) with ([] ++ newline :: x) in H at 1. rewrite lines_app in H by (intro Q; exact Q). inversion H. congruence.
Qed.

(** ** rows of a list *)
Definition row_at {A} (w r : nat) (l : list A) : list A := firstn w (skipn (r * w) l).
Lemma skip_skip {A} b : forall a (l : list A), skipn a (skipn b l) = skipn (b + a) l.
Proof. induction b as [|b IH]; intros a l; [reflexivity|]. destruct l; [rewrite !skipn_nil; reflexivity|]. apply IH. Qed.
Lemma rows_split {A} w : forall h (l : list A), len l = w * h -> l = concat (map (fun r => row_at w r l) (seq 0 h)).
Proof.
  induction h as [|h IH]; intros l L.
  - rewrite Nat.mul_0_r in L. destruct l; [reflexivity|discriminate].
  - cbn [seq map concat]. rewrite <- (firstn_skipn w l) at 1. f_equal.
    rewrite (IH (skipn w l)) at 1 by (rewrite skipn_length, L; lia). rewrite <- seq_shift, map_map. f_equal. apply map_ext.
    intro r. unfold row_at. rewrite skip_skip. reflexivity.
Qed.
Lemma row_len {A} w h r (l : list A) : len l = w * h -> r < h -> len (row_at w r l) = w.
Proof. intros L R. unfold row_at. rewrite firstn_length, skipn_length, L. nia. Qed.
Lemma row_nth {A} w r c (l : list A) d : c < w -> nth c (row_at w r l) d = nth (r * w + c) l d.
Proof.
  intro H. unfold row_at. rewrite <- (firstn_skipn (r * w) l) at 2.
  destruct (le_lt_dec (r * w) (len l)) as [G|G].
  - rewrite app_nth2 by (rewrite firstn_length; lia). rewrite firstn_length, Nat.min_l by exact G.
    replace (r * w + c - r * w) with c by lia. rewrite <- (firstn_skipn w (skipn (r * w) l)) at 2.
    destruct (le_lt_dec (len (skipn (r * w) l)) c) as [K|K].
    + rewrite !nth_overflow; [reflexivity|rewrite firstn_skipn; exact K|rewrite firstn_length; lia].
    + rewrite app_nth1; [reflexivity|rewrite firstn_length; lia].
  - rewrite !nth_overflow; [reflexivity|rewrite app_length, firstn_length, skipn_length; lia|rewrite firstn_length, skipn_length; lia].
Qed.
Lemma list_nth {A} w (l : list A) d : len l = w -> l = map (fun c => nth c l d) (seq 0 w).
Proof.
  intro L. subst w. induction l as [|a l IH]; [reflexivity|]. cbn [len seq map nth]. f_equal. rewrite <- seq_shift, map_map. exact IH.
Qed.
Lemma row_map {A} w h r (l : list A) d : len l = w * h -> r < h -> row_at w r l = map (fun c => nth (r * w + c) l d) (seq 0 w).
Proof.
  intros L R. rewrite (list_nth w (row_at w r l) d) by (eapply row_len; eauto). apply map_ext_in. intros c H. apply in_seq in H.
  apply row_nth. lia.
Qed.
(** the cells of a grid, row by row *)
Lemma shown_nth {C} (g : vgrid C) r c : c < width g -> r < height g -> shown g r c = nth (r * width g + c) (cells g) None.
Proof.
  intros A B. unfold shown, content, in_box, slot_of. cbn [fst snd]. unfold width, height in *.
  match goal with |- (if ?b then _ else _) = _ => assert (E : b = true) end.
  { rewrite !andb_true_iff, !Z.leb_le. lia. }
  rewrite E. f_equal. apply Nat2Z.inj. rewrite Z2Nat.id by nia. nia.
Qed.
Lemma grid_row {C} (g : vgrid C) r : wf g -> r < height g -> row_at (width g) r (cells g) = map (shown g r) (seq 0 (width g)).
Proof.
  intros [_ L] R. rewrite (row_map _ (height g) r (cells g) None L R). apply map_ext_in. intros c H. apply in_seq in H.
  symmetry. apply shown_nth; lia.
Qed.

(** ** the loops *)
Section Voxel.
Context {C : Type}.
Variable show : C -> text.
Variable gauss : C -> bool.
Definition vtext (c : option C) : text := match c with None => lit "NULL" | Some v => show v end.
Definition vfield (c : option C) : text := setw 5 (vtext c).
Definition mark (c : option C) : ascii := match c with None => " " | Some v => if gauss v then "W" else "." end%char.
Lemma picture_row w row : forall os i, i + len row = w -> row <> [] ->
  fold_left (pictureRound gauss w) row (os, i) = (os ++ map mark row ++ [newline], 0).
Proof.
  induction row as [|c row IH]; intros os i E N; [contradiction|]. cbn [fold_left pictureRound map app].
  assert (M : setw 1 (match c with None => lit "" | Some v => if gauss v then lit "W" else lit "." end) = [mark c]).
  { unfold mark. destruct c as [v|]; [destruct (gauss v)|]; reflexivity. }
  rewrite M. cbn [len] in E. destruct row as [|c' row].
  - cbn [len] in E. destruct (Nat.eqb_spec (S i) w); [|lia]. cbn [fold_left map app]. rewrite <- app_assoc. reflexivity.
  - destruct (Nat.eqb_spec (S i) w) as [Q|Q]; [cbn [len] in E; lia|]. rewrite IH; [|lia|discriminate].
    rewrite <- app_assoc. reflexivity.
Qed.
Lemma picture_rows w rows : 0 < w -> Forall (fun r => len r = w) rows -> forall os,
  fold_left (pictureRound gauss w) (concat rows) (os, 0) = (os ++ concat (map (fun r => map mark r ++ [newline]) rows), 0).
Proof.
  intro W. induction 1 as [|r rows L _ IH]; intro os; [cbn; rewrite app_nil_r; reflexivity|].
  cbn [concat map]. rewrite fold_left_app, picture_row; [|lia|destruct r; [cbn in L; lia|discriminate]]. rewrite IH, <- !app_assoc. reflexivity.
Qed.
Lemma mark_plain l : plain (map mark l).
Proof.
  intro H. apply in_map_iff in H. destruct H as (c & E & _). destruct c as [v|]; cbn in E; [destruct (gauss v)|]; discriminate.
Qed.
Theorem picture_lines (g : vgrid C) : wf g -> lines_of (pictureText gauss g) =
  map (fun r => map (fun c => mark (shown g r c)) (seq 0 (width g))) (seq 0 (height g)) ++ [[]].
Proof.
  intro W. unfold pictureText. rewrite (rows_split (width g) (height g) (cells g)) by apply W.
  rewrite picture_rows; [|unfold width; lia|].
  - cbn [fst app]. rewrite map_map, <- map_map with (g := fun l => l ++ [newline]) (f := fun r => map mark (row_at (width g) r (cells g))).
    rewrite lines_after.
    + f_equal. apply map_ext_in. intros r H. apply in_seq in H. rewrite grid_row by (try exact W; lia). apply map_map.
    + apply Forall_forall. intros x H. apply in_map_iff in H. destruct H as (r & <- & _). apply mark_plain.
  - apply Forall_forall. intros x H. apply in_map_iff in H. destruct H as (r & <- & R). apply in_seq in R.
    apply (row_len _ (height g)); [apply W|lia].
Qed.

Lemma voxel_rest w row : forall os i, i + len row <= w ->
  fold_left (voxelRound show w) row (os, i) = (os ++ concat (map vfield row), i + len row).
Proof.
  induction row as [|c row IH]; intros os i E; [cbn; rewrite app_nil_r, Nat.add_0_r; reflexivity|].
  cbn [fold_left voxelRound len] in *. destruct (Nat.eqb_spec i w) as [Q|Q]; [lia|]. rewrite IH by lia.
  cbn [map concat]. rewrite <- app_assoc. f_equal. lia.
Qed.
Lemma voxel_next w row os : row <> [] -> len row = w ->
  fold_left (voxelRound show w) row (os, w) = (os ++ newline :: concat (map vfield row), w).
Proof.
  intros N L. destruct row as [|c row]; [contradiction|]. cbn [fold_left voxelRound]. rewrite Nat.eqb_refl. cbn [len] in L.
  rewrite voxel_rest by lia. cbn [map concat]. rewrite <- !app_assoc. cbn [app]. f_equal. lia.
Qed.
Lemma voxel_rows w rows : 0 < w -> Forall (fun r => len r = w) rows -> forall os,
  fold_left (voxelRound show w) (concat rows) (os, w) = (os ++ concat (map (fun r => newline :: concat (map vfield r)) rows), w).
Proof.
  intro W. induction 1 as [|r rows L _ IH]; intro os; [cbn; rewrite app_nil_r; reflexivity|].
  cbn [concat map]. rewrite fold_left_app, voxel_next; [|destruct r; [cbn in L; lia|discriminate]|exact L].
  rewrite IH, <- app_assoc. reflexivity.
Qed.
Hypothesis PL : forall v, plain (show v).
Lemma setw_plain k t : plain t -> plain (setw k t).
Proof using Type.
  intros P H. unfold setw in H. apply in_app_or in H. destruct H as [H|H]; [|exact (P H)]. apply repeat_spec in H. discriminate.
Qed.
Lemma concat_plain l : Forall plain l -> plain (concat l).
Proof using Type.
  induction 1 as [|t l P _ IH]; intro H; [exact H|]. cbn [concat] in H. apply in_app_or in H. destruct H as [H|H]; [exact (P H)|exact (IH H)].
Qed.
Lemma vfields_plain l : plain (concat (map vfield l)).
Proof using PL.
  apply concat_plain, Forall_forall. intros x H. apply in_map_iff in H. destruct H as (c & <- & _). apply setw_plain.
  destruct c as [v|]; [apply PL|]. cbn. intro H. repeat (destruct H as [H|H]; [discriminate|]). exact H.
Qed.
Theorem voxel_lines (g : vgrid C) : wf g -> lines_of (voxelText show g) =
  map (fun r => concat (map (fun c => vfield (shown g r c)) (seq 0 (width g)))) (seq 0 (height g)).
Proof using PL.
  intro W. unfold voxelText. rewrite (rows_split (width g) (height g) (cells g)) by apply W.
  assert (HH : exists h, height g = S h) by (exists (h_up g + h_down g); unfold height; lia). destruct HH as [h HH].
  assert (RL : forall r, r < height g -> len (row_at (width g) r (cells g)) = width g) by (intros r R; apply (row_len _ (height g)); [apply W|exact R]).
  assert (RW : forall r, r < height g -> concat (map vfield (row_at (width g) r (cells g))) = concat (map (fun c => vfield (shown g r c)) (seq 0 (width g)))).
  { intros r R. rewrite grid_row by (try exact W; exact R). rewrite map_map. reflexivity. }
  rewrite HH in *. cbn [seq map concat]. rewrite fold_left_app, voxel_rest by (rewrite RL by lia; lia).
  rewrite RL by lia. cbn [Nat.add app]. rewrite voxel_rows.
  - cbn [fst]. rewrite map_map, <- map_map with (g := fun l => newline :: l) (f := fun r => concat (map vfield (row_at (width g) r (cells g)))).
    rewrite lines_between.
    + f_equal; [apply RW; lia|]. apply map_ext_in. intros r R. apply in_seq in R. apply RW. lia.
    + constructor; [apply vfields_plain|]. apply Forall_forall. intros x H. apply in_map_iff in H. destruct H as (r & <- & _). apply vfields_plain.
  - unfold width. lia.
  - apply Forall_forall. intros x H. apply in_map_iff in H. destruct H as (r & <- & R). apply in_seq in R. apply RL. lia.
Qed.
End Voxel.

(** ** fields *)
Lemma nth_seq k n : n < k -> nth_error (seq 0 k) n = Some n.
Proof. intro H. rewrite (nth_error_nth' _ 0) by (rewrite seq_length; exact H). rewrite seq_nth by exact H. reflexivity. Qed.
Lemma field_concat n : forall k fs, Forall (fun f : text => len f = n) fs -> forall f, nth_error fs k = Some f -> field n k (concat fs) = f.
Proof.
  unfold field. induction k as [|k IH]; intros fs F f N; destruct fs as [|g fs]; try discriminate; inversion F as [|? ? L F']; subst.
  - injection N as <-. cbn [concat Nat.mul skipn]. rewrite firstn_app, Nat.sub_diag, firstn_all. cbn. apply app_nil_r.
  - cbn [nth_error] in N. cbn [concat Nat.mul]. rewrite skipn_app. rewrite skipn_all2 by lia. cbn [app].
    replace (len g + k * len g - len g) with (k * len g) by lia. apply IH; assumption.
Qed.
Lemma setw_field t : len t <= 5 -> in_field (setw 5 t) t.
Proof. intro L. exists (5 - len t). split; [reflexivity|]. unfold setw. rewrite app_length, repeat_length. lia. Qed.
Lemma setw_len t : len t <= 5 -> len (setw 5 t) = 5.
Proof. intro L. unfold setw. rewrite app_length, repeat_length. lia. Qed.
Lemma fields_of (f : nat -> text) w c : (forall c, c < w -> len (f c) <= 5) -> c < w ->
  let l := concat (map (fun c => setw 5 (f c)) (seq 0 w)) in len l = 5 * w /\ in_field (field 5 c l) (f c).
Proof.
  intros VL D. cbv zeta.
  assert (FL : Forall (fun f : text => len f = 5) (map (fun c => setw 5 (f c)) (seq 0 w))).
  { apply Forall_forall. intros x H. apply in_map_iff in H. destruct H as (y & <- & Y). apply in_seq in Y. apply setw_len, VL. lia. }
  split.
  - replace (5 * w) with (5 * len (map (fun c => setw 5 (f c)) (seq 0 w))) by (rewrite map_length, seq_length; reflexivity).
    induction FL as [|x fs L _ IH]; [reflexivity|]. cbn [concat len]. rewrite app_length, IH, L. lia.
  - rewrite (field_concat 5 c _ FL (setw 5 (f c))); [apply setw_field, VL, D|]. rewrite nth_error_map, nth_seq by exact D. reflexivity.
Qed.
Theorem voxel_field {C} (show : C -> text) (g : vgrid C) r c : wf g -> (forall v, plain (show v)) ->
  (forall p v, content g p = Some v -> len (show v) <= 5) ->
  r < height g -> c < width g -> exists l, nth_error (lines_of (voxelText show g)) r = Some l /\ len l = 5 * width g /\
    in_field (field 5 c l) (match shown g r c with None => lit "NULL" | Some v => show v end).
Proof.
  intros W P S R D. rewrite (voxel_lines show P g W).
  assert (VL : forall c, len (vtext show (shown g r c)) <= 5).
  { intros y. unfold shown. destruct (content g _) as [v|] eqn:E; [exact (S _ _ E)|cbn; lia]. }
  exists (concat (map (fun c => vfield show (shown g r c)) (seq 0 (width g)))).
  split; [rewrite nth_error_map, nth_seq by exact R; reflexivity|]. apply (fields_of (fun c => vtext show (shown g r c))); [intros y _; apply VL|exact D].
Qed.

(** ** numbers *)
Lemma number_row size row : forall os i, size <> 0 -> i mod size + len row <= size -> (i mod size = 0 -> row = []) ->
  foldM (numberRound size) row (os, i) = Ok (os ++ concat (map (fun v => setw 5 (spellZ v)) row), i + len row).
Proof.
  induction row as [|v row IH]; intros os i S L Z; [cbn; rewrite app_nil_r, Nat.add_0_r; reflexivity|].
  cbn [foldM numberRound]. destruct (Nat.eqb_spec size 0); [contradiction|].
  destruct (Nat.eqb_spec (i mod size) 0) as [E|E]; [discriminate (Z E)|]. cbn [bind len] in *.
  destruct row as [|v' row].
  - cbn. rewrite app_nil_r. do 2 f_equal. lia.
  - assert (M : Datatypes.S i mod size = Datatypes.S (i mod size)).
    { cbn [len] in L. rewrite (Nat.div_mod i size S) at 1. rewrite Nat.mul_comm, <- Nat.add_succ_r, Nat.add_comm, Nat.mod_add by exact S.
      apply Nat.mod_small. lia. }
    rewrite IH; [|exact S|rewrite M; cbn [len] in *; lia|rewrite M; discriminate].
    cbn [map concat]. rewrite <- app_assoc. do 2 f_equal. cbn [len]. lia.
Qed.
Lemma number_rows size rows : size <> 0 -> Forall (fun r => len r = size) rows -> forall os k,
  foldM (numberRound size) (concat rows) (os, k * size) =
  Ok (os ++ concat (map (fun r => newline :: concat (map (fun v => setw 5 (spellZ v)) r)) rows), (k + len rows) * size).
Proof.
  intros S F. induction F as [|r rows L _ IH]; intros os k; [cbn; rewrite app_nil_r, Nat.add_0_r; reflexivity|].
  cbn [concat map len]. rewrite foldM_app. destruct r as [|v r]; [cbn in L; lia|]. cbn [foldM numberRound].
  destruct (Nat.eqb_spec size 0); [contradiction|]. rewrite Nat.mod_mul by exact S. cbn [Nat.eqb bind]. cbn [len] in L.
  assert (M : len r <> 0 -> Datatypes.S (k * size) mod size = 1).
  { intro Q. replace (Datatypes.S (k * size)) with (1 + k * size) by lia. rewrite Nat.mod_add by exact S. apply Nat.mod_small. lia. }
  assert (R : foldM (numberRound size) r ((os ++ [newline]) ++ setw 5 (spellZ v), Datatypes.S (k * size)) =
    Ok (((os ++ [newline]) ++ setw 5 (spellZ v)) ++ concat (map (fun v => setw 5 (spellZ v)) r), Datatypes.S (k * size) + len r)).
  { destruct r as [|v' r]; [cbn; rewrite app_nil_r, Nat.add_0_r; reflexivity|]. apply number_row; [exact S| |].
    - rewrite M by discriminate. cbn [len] in *. lia.
    - rewrite M by discriminate. discriminate. }
  rewrite R. cbn [bind]. replace (Datatypes.S (k * size) + len r) with ((Datatypes.S k) * size) by (cbn [Nat.mul]; lia).
  rewrite IH. f_equal. f_equal; [|f_equal; lia]. cbn [map concat]. repeat (rewrite <- !app_assoc; cbn [app]). reflexivity.
Qed.
Definition digit_char (a : ascii) : Prop := exists d, (d < 10)%N /\ a = digitChar d.
Lemma digs_lt k : forall n d, In d (digs k n) -> (d < 10)%N.
Proof.
  induction k as [|k IH]; intros n d H; [destruct H|]. cbn [digs] in H. apply in_app_or in H. destruct H as [H|[<-|[]]]; [exact (IH _ _ H)|].
  apply N.mod_lt. discriminate.
Qed.
Lemma digit_not_newline d : (d < 10)%N -> digitChar d <> newline.
Proof.
  intros L E. apply (f_equal N_of_ascii) in E. unfold digitChar in E. rewrite N_ascii_embedding in E by lia.
  change (N_of_ascii newline) with 10%N in E. lia.
Qed.
Lemma spellNat_plain n : plain (spellNat n).
Proof.
  intro H. unfold spellNat, spellDigits in H. apply in_map_iff in H. destruct H as (d & E & I).
  exact (digit_not_newline d (digs_lt _ _ _ I) E).
Qed.
Lemma spellZ_plain z : plain (spellZ z).
Proof.
  unfold spellZ. destruct (z <? 0)%Z; [|apply spellNat_plain]. intros [H|H]; [discriminate|]. exact (spellNat_plain _ H).
Qed.
Lemma digs_len k : forall n, len (digs k n) = k.
Proof. induction k as [|k IH]; intro n; [reflexivity|]. cbn [digs]. rewrite app_length, IH. cbn. lia. Qed.
Theorem numbers_lines size h l : size <> 0 -> len l = size * h -> exists t, numbersText size l = Ok t /\
  lines_of t = [] :: map (fun r => concat (map (fun c => setw 5 (spellZ (nth (r * size + c) l 0%Z))) (seq 0 size))) (seq 0 h).
Proof.
  intros S L. unfold numbersText.
  assert (FF : foldM (numberRound size) l ([], 0) = foldM (numberRound size) (concat (map (fun r => row_at size r l) (seq 0 h))) ([], 0 * size)).
  { f_equal. apply rows_split, L. }
  rewrite FF, number_rows; [|exact S|].
  - cbn [bind fst app]. eexists. split; [reflexivity|].
    rewrite map_map, <- map_map with (g := fun l => newline :: l) (f := fun r => concat (map (fun v => setw 5 (spellZ v)) (row_at size r l))).
    rewrite lines_before.
    + f_equal. apply map_ext_in. intros r R. apply in_seq in R. rewrite (row_map size h r l 0%Z L) by lia. rewrite map_map. reflexivity.
    + apply Forall_forall. intros x H. apply in_map_iff in H. destruct H as (r & <- & _). apply concat_plain, Forall_forall.
      intros y H. apply in_map_iff in H. destruct H as (v & <- & _). apply setw_plain, spellZ_plain.
  - apply Forall_forall. intros x H. apply in_map_iff in H. destruct H as (r & <- & R). apply in_seq in R. apply (row_len _ h); [exact L|lia].
Qed.

(** ** the line list *)
Section Lines.
Context {Pose Obj Info P : Type}.
Variable xy : Pose -> P.
Variable s : slam Pose Obj Info.
Definition ends_of (m : arrow P) : list P := [ar_start m; ar_end m].
Lemma lines_arrows es : forall m ms id ms' id', foldM (addArrow xy s) es (ms, id) = Ok (ms', id') ->
  li_points m = flat_map ends_of ms -> exists m', foldM (addLine xy s) es m = Ok m' /\ li_points m' = flat_map ends_of ms' /\
    li_colours m' = li_colours m ++ concat (repeat [light_red; red] (len es)).
Proof.
  induction es as [|ae es IH]; intros m ms id ms' id' H E.
  - injection H as <- <-. exists m. cbn. rewrite app_nil_r. auto.
  - cbn [foldM addArrow] in H. cbn [foldM addLine].
    destruct (vget (g_nodes (s_graph s)) (e_from (snd ae))) as [nf| |] eqn:VF; cbn [bind] in H |- *; try discriminate.
    destruct (vget (g_nodes (s_graph s)) (e_to (snd ae))) as [nt| |] eqn:VT; cbn [bind] in H |- *; try discriminate.
    apply (IH (mkLines (li_points m ++ [xy (n_pose nf); xy (n_pose nt)]) (li_colours m ++ [light_red; red]))) in H.
    + destruct H as (m' & H1 & H2 & H3). exists m'. split; [unfold addLine; rewrite VF, VT; exact H1|]. split; [exact H2|].
      rewrite H3. cbn [li_colours repeat concat]. rewrite <- app_assoc. reflexivity.
    + cbn [li_points]. rewrite E, flat_map_app. reflexivity.
Qed.
Lemma arrows_count es : forall ms id ms' id', foldM (addArrow xy s) es (ms, id) = Ok (ms', id') -> len ms' = len ms + len es.
Proof.
  induction es as [|ae es IH]; intros ms id ms' id' H; [injection H as <- <-; cbn; lia|]. cbn [foldM addArrow] in H.
  destruct (vget (g_nodes (s_graph s)) (e_from (snd ae))) as [nf| |]; cbn [bind] in H; try discriminate.
  destruct (vget (g_nodes (s_graph s)) (e_to (snd ae))) as [nt| |]; cbn [bind] in H; try discriminate.
  apply IH in H. rewrite app_length in H. cbn in *. lia.
Qed.
Theorem list_markers oob ms : graphMarkers xy oob s = Ok ms -> exists m, listMarkers xy oob s = Ok m /\
  li_points m = flat_map ends_of ms /\ li_colours m = concat (repeat [light_red; red] (len ms)).
Proof.
  unfold graphMarkers, listMarkers. destruct (visitEdgesPre oob (s_graph s)) as [es| |]; cbn [bind]; try discriminate.
  destruct (foldM (addArrow xy s) es ([], 0)) as [[ms' id']| |] eqn:F; cbn [bind]; try discriminate. intro H. injection H as <-.
  destruct (lines_arrows es (mkLines [] []) [] 0 ms' id' F eq_refl) as (m & A & B & D). exists m. cbn [fst].
  split; [exact A|]. split; [exact B|]. rewrite D. rewrite (arrows_count _ _ _ _ _ F). reflexivity.
Qed.
End Lines.
