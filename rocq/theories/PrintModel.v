(** Model of what is printed for people: the text of the grids, of the smoothing kernel and
    of the lookup table, character by character, and the line list of the graph
    (Slam2D::createListMarkers).  Streams are in their initial state (fill character
    space, numbers adjusted to the right) and take every character.  INC is
    ndt_gslam/include/ndt_gslam. *)
From Coq Require Import List ZArith QArith NArith Bool Arith Ascii String Reals.
From Verif Require Import Base GraphModel LoopModel SlamModel VoxelModel CellModel CorrModel TextModel.
Import ListNotations.
Open Scope nat_scope.

(** std::endl *)
Definition newline : ascii := ascii_of_nat 10.
(** std::setw(k) before a text *)
Definition setw (k : nat) (s : text) : text := repeat " "%char (k - List.length s) ++ s.
(** operator<< for short and unsigned short *)
Definition spellZ (z : Z) : text :=
  if (z <? 0)%Z then "-"%char :: spellNat (Z.to_nat (- z)) else spellNat (Z.to_nat z).

Section Voxel.
Context {C : Type}.
(** operator<< of the type of the cells *)
Variable show : C -> text.
(** INC/ndt/voxel_grid2d.h:613-622: a round of the loop; text so far and the counter *)
Definition voxelRound (w : nat) (st : text * nat) (c : option C) : text * nat :=
  let '(os, i) := st in
  let '(os, i) := if i =? w then (os ++ [newline], 0) else (os, i) in
  (os ++ setw 5 (match c with None => lit "NULL" | Some v => show v end), S i).
(** INC/ndt/voxel_grid2d.h:608-624 *)
Definition voxelText (g : vgrid C) : text := fst (fold_left (voxelRound (width g)) (cells g) ([], 0)).

(** hasGaussian() of the cells *)
Variable gauss : C -> bool.
(** INC/ndt/ndt_grid2d.h:880-894 *)
Definition pictureRound (w : nat) (st : text * nat) (c : option C) : text * nat :=
  let '(os, i) := st in
  let os := os ++ setw 1 (match c with None => lit "" | Some v => if gauss v then lit "W" else lit "." end) in
  let i := S i in
  if i =? w then (os ++ [newline], 0) else (os, i).
(** INC/ndt/ndt_grid2d.h:876-896 *)
Definition pictureText (g : vgrid C) : text := fst (fold_left (pictureRound (width g)) (cells g) ([], 0)).
End Voxel.

(** INC/ndt/ndt_cell.h:217-221: the occupancy rounded down; a not-a-number as "nan" (its
    sign is not modelled, and neither is that of a zero) *)
Definition cellText (c : cell) : text :=
  match c_occ c with Some x => spellZ (floorR x) | None => lit "nan" end.

(** INC/registration/correlative_estimation_tools.h:126-130 and 476-480: a round of the
    loop over the numbers; i % size is undefined for size 0 *)
Definition numberRound (size : nat) (st : text * nat) (v : Z) : res (text * nat) :=
  let '(os, i) := st in
  if size =? 0 then UB
  else let os := if i mod size =? 0 then os ++ [newline] else os in
       Ok (os ++ setw 5 (spellZ v), S i).
Definition numbersText (size : nat) (l : list Z) : res text :=
  do st <- foldM (numberRound size) l ([], 0); Ok (fst st).
(** correlative_estimation_tools.h:124-132 *)
Definition kernelText (k : kernel) : res text := numbersText (Z.to_nat (k_size k)) (k_vals k).
(** correlative_estimation_tools.h:473-482 *)
Definition tableText (t : lut) : res text := numbersText (Z.to_nat (l_row t)) (l_table t).

(** ** The graph as a list of lines *)
(** std_msgs::ColorRGBA, in tenths; new messages are zero *)
Definition rgba := (Z * Z * Z * Z)%type.
Section Lines.
Context {Pose Obj Info P : Type}.
Notation slam := (slam Pose Obj Info).
(** the first two entries of a pose; reading past the end of a vector (ExportModel.v) *)
Variable xy : Pose -> P.
Variable oob : option bool.
(** INC/slam_optimizer/slam2d.h:549-559: both blocks assign to red *)
Definition light_red : rgba := (0, 0, 0, 0)%Z.
Definition red : rgba :=
  let red := (10, 0, 0, 10)%Z in
  let red := (4, 0, 0, 10)%Z in red.
(** the points and the colours of the marker *)
Record lines := mkLines { li_points : list P; li_colours : list rgba }.
(** slam2d.h:578-592 *)
Definition addLine (s : slam) (m : lines) (ae : addr * edge Pose Info) : res lines :=
  do nf <- vget (g_nodes (s_graph s)) (e_from (snd ae));
  do nt <- vget (g_nodes (s_graph s)) (e_to (snd ae));
  Ok (mkLines (li_points m ++ [xy (n_pose nf); xy (n_pose nt)]) (li_colours m ++ [light_red; red])).
(** slam2d.h:544-595, createListMarkers; one marker.  Frame, size and pose of the marker
    are constants and left out. *)
Definition listMarkers (s : slam) : res lines :=
  do es <- visitEdgesPre oob (s_graph s);
  foldM (addLine s) es (mkLines [] []).
End Lines.
Arguments lines : clear implicits.
