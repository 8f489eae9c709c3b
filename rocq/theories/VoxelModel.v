(** Model of VoxelGrid2D (INC/ndt/voxel_grid2d.h).

    Generic in the cell type [C], its [operator+=] ([merge]) and the value of
    its default constructor ([dflt]).  A slot of the vector of unique_ptr is
    [option C]; a pointer returned to the caller is the index of its slot.
    Simplifications: coordinates and the cell size are exact rationals instead
    of float/double; extents and indices are unbounded naturals (no size_t
    overflow) except where the code really relies on or suffers from wrap-around
    (the [valid_cells_] counter and the iteration count of [rayTrace], which
    are taken modulo 2^64). *)
From Coq Require Import List ZArith QArith Qround Qabs Qminmax Bool.
From Verif Require Import Base.
Import ListNotations.
Open Scope nat_scope.

Definition point := (Q * Q)%type.

(** voxel_grid2d.h:257-263 (fields).  [cell_size_half_] is not a separate field:
    it is set together with [cell_size_] at 290-291 and 175-179 to half of it. *)
Record vgrid (C : Type) := mkGrid {
  cell_size : Q;
  w_left : nat; w_right : nat; h_up : nat; h_down : nat;
  n_valid : Z;
  cells : list (option C)
}.
Arguments mkGrid {C}.
Arguments cell_size {C}. Arguments w_left {C}. Arguments w_right {C}.
Arguments h_up {C}. Arguments h_down {C}. Arguments n_valid {C}. Arguments cells {C}.

Section Voxel.
Context {C : Type}.
Variable merge : C -> C -> C.
Variable dflt : C.

Notation grid := (vgrid C).

Definition qn (n : nat) : Q := inject_Z (Z.of_nat n).

(** voxel_grid2d.h:291 / 178: cell_size_half_ *)
Definition half (g : grid) : Q := (cell_size g / 2)%Q.

(** voxel_grid2d.h:191-194 *)
Definition width (g : grid) : nat := w_left g + w_right g + 1.
(** voxel_grid2d.h:195-198 *)
Definition height (g : grid) : nat := h_up g + h_down g + 1.

(** voxel_grid2d.h:288-300: one default-constructed cell, cell size 0.25 *)
Definition vempty : grid := mkGrid (1#4) 0 0 0 0 1 [Some dflt].

(** voxel_grid2d.h:175-179 *)
Definition setCellSize (g : grid) (cs : Q) : grid :=
  mkGrid cs (w_left g) (w_right g) (h_up g) (h_down g) (n_valid g) (cells g).

(** replaces only the storage *)
Definition with_cells (g : grid) (l : list (option C)) : grid :=
  mkGrid (cell_size g) (w_left g) (w_right g) (h_up g) (h_down g) (n_valid g) l.
Definition with_valid (g : grid) (n : Z) : grid :=
  mkGrid (cell_size g) (w_left g) (w_right g) (h_up g) (h_down g) n (cells g).

(** voxel_grid2d.h:394-399, 521-526, 671, 680, 689, 698: outer borders *)
Definition minx (g : grid) : Q := (- qn (w_left g) * cell_size g - half g)%Q.
Definition maxx (g : grid) : Q := (qn (w_right g) * cell_size g + half g)%Q.
Definition miny (g : grid) : Q := (- qn (h_down g) * cell_size g - half g)%Q.
Definition maxy (g : grid) : Q := (qn (h_up g) * cell_size g + half g)%Q.

(** voxel_grid2d.h:391-403 *)
Definition isInside (g : grid) (p : point) : bool :=
  Qle_bool (minx g) (fst p) && Qle_bool (fst p) (maxx g) &&
  (Qle_bool (miny g) (snd p) && Qle_bool (snd p) (maxy g)).

(** static_cast<size_t>(floor(q)): a negative value is undefined behaviour *)
Definition to_size_t (z : Z) : res nat :=
  if (z <? 0)%Z then UB else Ok (Z.to_nat z).

(** voxel_grid2d.h:643-655: (column, row) *)
Definition calcCoordinates (g : grid) (p : point) : res (nat * nat) :=
  do c <- to_size_t (Qfloor ((fst p + cell_size g * qn (w_left g) + half g)
                             / cell_size g));
  do r <- to_size_t (Qfloor ((- snd p + cell_size g * qn (h_up g) + half g)
                             / cell_size g));
  Ok (c, r).

(** voxel_grid2d.h:635-641 *)
Definition calcIndexC (g : grid) (cr : nat * nat) : nat :=
  snd cr * width g + fst cr.

(** voxel_grid2d.h:629-633 *)
Definition calcIndex (g : grid) (p : point) : res nat :=
  do cr <- calcCoordinates g p; Ok (calcIndexC g cr).

Definition Qlt_b (a b : Q) : bool := negb (Qle_bool b a).

(** voxel_grid2d.h:668-675 *)
Definition calcIncLeft (g : grid) (x : Q) : nat :=
  if Qlt_b x (minx g) then Z.to_nat (Qceiling ((minx g - x) / cell_size g)) else 0.
(** voxel_grid2d.h:677-684 *)
Definition calcIncRight (g : grid) (x : Q) : nat :=
  if Qlt_b (maxx g) x then Z.to_nat (Qceiling ((x - maxx g) / cell_size g)) else 0.
(** voxel_grid2d.h:686-693 *)
Definition calcIncUp (g : grid) (y : Q) : nat :=
  if Qlt_b (maxy g) y then Z.to_nat (Qceiling ((y - maxy g) / cell_size g)) else 0.
(** voxel_grid2d.h:695-702 *)
Definition calcIncDown (g : grid) (y : Q) : nat :=
  if Qlt_b y (miny g) then Z.to_nat (Qceiling ((miny g - y) / cell_size g)) else 0.

(** voxel_grid2d.h:720-735: loop body of enlargeGrid; state is
    (large_grid, w_used, offset_x).  The moved-from old vector is discarded at
    736, so its emptied slots are not represented. *)
Definition enlargeStep (old : list (option C)) (w new_w left right up : nat)
  (s : list (option C) * nat * nat) (i : nat)
  : res (list (option C) * nat * nat) :=
  let '(large, w_used, offset_x) := s in
  let new_index :=
    if (0 <? up) && (left =? 0) then i + up * new_w + offset_x
    else if (up =? 0) && (left =? 0) then i + offset_x
    else i + up * new_w + left + offset_x in
  do c <- vget old i;
  do large' <- vset large new_index c;
  let w_used' := w_used + 1 in
  if w_used' =? w then Ok (large', 0, offset_x + (right + left))
  else Ok (large', w_used', offset_x).

(** voxel_grid2d.h:704-741 *)
Definition enlargeGrid (g : grid) (left right up down : nat) : res grid :=
  if left + right + up + down =? 0 then Ok g
  else
    let new_w := width g + left + right in
    let new_size := new_w * (height g + up + down) in
    do s <- foldM (enlargeStep (cells g) (width g) new_w left right up)
                  (seq 0 (length (cells g)))
                  (repeat None new_size, 0, 0);
    let '(large, _, _) := s in
    Ok (mkGrid (cell_size g) (w_left g + left) (w_right g + right)
               (h_up g + up) (h_down g + down) (n_valid g) large).

(** voxel_grid2d.h:657-666 *)
Definition enlargeToFit (g : grid) (p : point) : res grid :=
  if isInside g p then Ok g
  else enlargeGrid g (calcIncLeft g (fst p)) (calcIncRight g (fst p))
                     (calcIncUp g (snd p)) (calcIncDown g (snd p)).

(** voxel_grid2d.h:124-128 *)
Definition enlarge (g : grid) (mnx mny mxx mxy : Q) : res grid :=
  enlargeGrid g (calcIncLeft g mnx) (calcIncRight g mxx)
                (calcIncUp g mxy) (calcIncDown g mny).

(** voxel_grid2d.h:336-355 and 357-377 (the two overloads differ only in
    copying or moving the argument) *)
Definition addCell (g : grid) (p : point) (c : C) (merging : bool) : res grid :=
  do g1 <- enlargeToFit g p;
  do idx <- calcIndex g1 p;
  do old <- vget (cells g1) idx;
  match old with
  | None => Ok (with_valid (with_cells g1 (upd (cells g1) idx (Some c)))
                           (u64 (n_valid g1 + 1)))
  | Some o =>
      let v := if merging then merge o c else c in
      Ok (with_cells g1 (upd (cells g1) idx (Some v)))
  end.

(** voxel_grid2d.h:379-389.  The returned boolean is [None] when control flows
    off the end of the function without a return statement. *)
Definition removeCell (g : grid) (p : point) : res (grid * option bool) :=
  if negb (isInside g p) then Ok (g, Some false)
  else
    do idx <- calcIndex g p;
    do old <- vget (cells g) idx;
    let nv := match old with None => n_valid g | Some _ => u64 (n_valid g - 1) end in
    Ok (with_valid (with_cells g (upd (cells g) idx None)) nv, None).

(** voxel_grid2d.h:444-452 *)
Definition cellExists (g : grid) (p : point) : res bool :=
  if negb (isInside g p) then Ok false
  else
    do idx <- calcIndex g p;
    do c <- vget (cells g) idx;
    Ok (match c with None => false | Some _ => true end).

(** voxel_grid2d.h:460-464 (null is None) *)
Definition getCellPtr (g : grid) (p : point) : res (option C) :=
  do idx <- calcIndex g p; vget (cells g) idx.

(** voxel_grid2d.h:454-458: dereferences without check *)
Definition getCell (g : grid) (p : point) : res C :=
  do c <- getCellPtr g p;
  match c with Some v => Ok v | None => UB end.

(** voxel_grid2d.h:433-440: one row of the window, returning slot indices *)
Definition windowRow (g : grid) (lft rgt row : nat) : res (list nat) :=
  foldM (fun acc col =>
           let idx := calcIndexC g (col, row) in
           do c <- vget (cells g) idx;
           Ok (match c with Some _ => acc ++ [idx] | None => acc end))
        (seq lft (rgt - lft)) [].

(** voxel_grid2d.h:405-442.  [long]/[size_t] subtraction with clamping at zero
    is natural-number subtraction. *)
Definition getNeighbors (g : grid) (p : point) (radius : nat) : res (list nat) :=
  if negb (isInside g p) then Ok []
  else if radius =? 0 then
    do e <- cellExists g p;
    if e then do idx <- calcIndex g p; Ok [idx] else Ok []
  else
    do cr <- calcCoordinates g p;
    let lft := fst cr - radius in
    let upp := snd cr - radius in
    let rgt := Nat.min (fst cr + radius + 1) (width g) in
    let dwn := Nat.min (snd cr + radius + 1) (height g) in
    foldM (fun acc row => do r <- windowRow g lft rgt row; Ok (acc ++ r))
          (seq upp (dwn - upp)) [].

(** voxel_grid2d.h:481-493 (reserve only affects capacity) *)
Definition getValidCells (g : grid) : list C :=
  fold_left (fun acc c => match c with Some v => acc ++ [v] | None => acc end)
            (cells g) [].

(** voxel_grid2d.h:600-606: [valid_cells_] is left alone *)
Definition clear (g : grid) : grid :=
  with_cells g (map (fun _ => None) (cells g)).

(** [cells_[i] = std::move(cells_[j])] on a vector of unique_ptr: the source
    slot becomes null. *)
Definition mvslot (l : list (option C)) (i j : nat) : res (list (option C)) :=
  do v <- vget l j;
  do l' <- vset l j None;
  vset l' i v.

(** voxel_grid2d.h:754-767 *)
Definition moveLeftStep (n good move : nat)
  (s : list (option C) * nat * nat) (i : nat)
  : res (list (option C) * nat * nat) :=
  let '(l, used, unused) := s in
  let idx := i + move in
  if (idx <? n) && (used <? good) && (unused =? 0) then
    do l' <- mvslot l i idx; Ok (l', used + 1, 0)
  else
    let unused' := unused + 1 in
    do l' <- vset l i None;
    Ok (l', 0, if unused' =? move then 0 else unused').

(** voxel_grid2d.h:743-768 *)
Definition moveLeft (g : grid) (move0 : nat) : res grid :=
  if move0 =? 0 then Ok g
  else
    let move := Nat.min move0 (width g) in
    do s <- foldM (moveLeftStep (length (cells g)) (width g - move) move)
                  (seq 0 (length (cells g))) (cells g, 0, 0);
    let '(l, _, _) := s in Ok (with_cells g l).

(** voxel_grid2d.h:781-794 (idx >= 0 as move <= i) *)
Definition moveRightStep (good move : nat)
  (s : list (option C) * nat * nat) (i : nat)
  : res (list (option C) * nat * nat) :=
  let '(l, used, unused) := s in
  if (move <=? i) && (used <? good) && (unused =? 0) then
    do l' <- mvslot l i (i - move); Ok (l', used + 1, 0)
  else
    let unused' := unused + 1 in
    do l' <- vset l i None;
    Ok (l', 0, if unused' =? move then 0 else unused').

(** voxel_grid2d.h:770-795 *)
Definition moveRight (g : grid) (move0 : nat) : res grid :=
  if move0 =? 0 then Ok g
  else
    let move := Nat.min move0 (width g) in
    do s <- foldM (moveRightStep (width g - move) move)
                  (rev (seq 0 (length (cells g)))) (cells g, 0, 0);
    let '(l, _, _) := s in Ok (with_cells g l).

(** voxel_grid2d.h:806-813 *)
Definition moveUpStep (n shift : nat) (l : list (option C)) (i : nat)
  : res (list (option C)) :=
  let idx := i + shift in
  if idx <? n then mvslot l i idx else vset l i None.

(** voxel_grid2d.h:797-814 *)
Definition moveUp (g : grid) (move0 : nat) : res grid :=
  if move0 =? 0 then Ok g
  else
    let move := Nat.min move0 (height g) in
    do l <- foldM (moveUpStep (length (cells g)) (move * width g))
                  (seq 0 (length (cells g))) (cells g);
    Ok (with_cells g l).

(** voxel_grid2d.h:825-833 *)
Definition moveDownStep (shift : nat) (l : list (option C)) (i : nat)
  : res (list (option C)) :=
  if shift <=? i then mvslot l i (i - shift) else vset l i None.

(** voxel_grid2d.h:816-834 *)
Definition moveDown (g : grid) (move0 : nat) : res grid :=
  if move0 =? 0 then Ok g
  else
    let move := Nat.min move0 (height g) in
    do l <- foldM (moveDownStep (move * width g))
                  (rev (seq 0 (length (cells g)))) (cells g);
    Ok (with_cells g l).

(** voxel_grid2d.h:576-598.  Translations are unbounded integers (the code
    takes int; abs(INT_MIN) is not represented). *)
Definition translate (g : grid) (tx ty : Z) (discard : bool) : res grid :=
  let left := if (tx <? 0)%Z then Z.to_nat (Z.abs tx) else 0 in
  let right := if (tx <? 0)%Z then 0 else Z.to_nat tx in
  let down := if (ty <? 0)%Z then Z.to_nat (ty * -1) else 0 in
  let up := if (ty <? 0)%Z then 0 else Z.to_nat ty in
  do g0 <- (if discard then Ok g else enlargeGrid g left right up down);
  do g1 <- moveLeft g0 left;
  do g2 <- moveRight g1 right;
  do g3 <- moveUp g2 up;
  moveDown g3 down.

(** voxel_grid2d.h:302-318.  [cells_.resize(n)] appends n null slots before the
    n copies; dereferencing a null slot of the source is UB. *)
Definition copyCells (l : list (option C)) : res (list (option C)) :=
  foldM (fun acc c => match c with
                      | Some v => Ok (acc ++ [Some v])
                      | None => UB end)
        l (repeat None (length l)).
Definition copyGrid (g : grid) : res grid :=
  do l <- copyCells (cells g); Ok (with_cells g l).

(** voxel_grid2d.h:320-326: [self] tells whether both sides are the same object *)
Definition assignGrid (self : bool) (dst src : grid) : res grid :=
  if self then Ok dst else copyGrid src.

(** voxel_grid2d.h:328-334 *)
Definition cloneGrid (g : grid) : grid := setCellSize vempty (cell_size g).

(** ** rayTrace, voxel_grid2d.h:512-570 *)

(** lines 547-550 and 556-559: create a missing cell, report its slot.
    [valid_cells_] is not touched. *)
Definition touch (l : list (option C)) (idx : nat) : res (list (option C)) :=
  do c <- vget l idx;
  Ok (match c with None => upd l idx (Some dflt) | Some _ => l end).

Record ray_state := mkRay {
  r_cells : list (option C);
  r_res : list nat;
  r_p : point;
  r_old : nat;
  r_cur : nat
}.

(** lines 537-542: signed step of half a cell along the dominant axis *)
Definition ray_len (g : grid) (s e : point) : Q :=
  Qmax (Qabs (fst e - fst s) / cell_size g) (Qabs (snd e - snd s) / cell_size g).
Definition ray_delta (g : grid) (s e : point) : point :=
  ((fst e - fst s) / ray_len g s e * (1#2),
   (snd e - snd s) / ray_len g s e * (1#2))%Q.

(** lines 552-567: loop body *)
Definition rayStep (g : grid) (delta : point) (st : ray_state) : flow ray_state :=
  let pushed :=
    if r_cur st =? r_old st then Ok (r_cells st, r_res st)
    else do l <- touch (r_cells st) (r_cur st); Ok (l, r_res st ++ [r_cur st]) in
  match pushed with
  | Ok (l, out) =>
      let p := (fst (r_p st) + fst delta, snd (r_p st) + snd delta)%Q in
      if Qle_bool (maxx g) (fst p) || Qle_bool (fst p) (minx g) ||
         (Qle_bool (maxy g) (snd p) || Qle_bool (snd p) (miny g))
      then Break (mkRay l out p (r_old st) (r_cur st))
      else match calcIndex g p with
           | Ok i => Next (mkRay l out p (r_cur st) i)
           | _ => Fail
           end
  | _ => Fail
  end.

(** line 552: [2 * static_cast<size_t>(floor(length)) - 1] in 64-bit arithmetic *)
Definition ray_count (g : grid) (s e : point) : N :=
  Z.to_N (u64 (2 * Qfloor (ray_len g s e) - 1)).

(** lines 512-570.  With start = end the step is 0/0 (not a number), and
    converting it to an index is undefined behaviour. *)
Definition rayTrace (g : grid) (s e : point) : res (grid * list nat) :=
  if negb (isInside g s) then Ok (g, [])
  else
    do i0 <- calcIndex g s;
    do l0 <- touch (cells g) i0;
    if Qeq_bool (ray_len g s e) 0 then UB
    else
      match iter_N (ray_count g s e) (rayStep g (ray_delta g s e))
                   (mkRay l0 [i0] s i0 i0) with
      | Next st | Break st => Ok (with_cells g (r_cells st), r_res st)
      | Fail => UB
      end.

(** voxel_grid2d.h:147-150 *)
Definition rayTrace0 (g : grid) (e : point) : res (grid * list nat) :=
  rayTrace g (0%Q, 0%Q) e.

(** ** Histories: the public mutating calls *)
Inductive vop :=
| OpAdd (p : point) (c : C) (merging : bool)
| OpRemove (p : point)
| OpEnlarge (mnx mny mxx mxy : Q)
| OpTranslate (tx ty : Z) (discard : bool)
| OpClear
| OpRay (s e : point).

Definition vstep (g : grid) (o : vop) : res grid :=
  match o with
  | OpAdd p c m => addCell g p c m
  | OpRemove p => do r <- removeCell g p; Ok (fst r)
  | OpEnlarge a b c d => enlarge g a b c d
  | OpTranslate tx ty d => translate g tx ty d
  | OpClear => Ok (clear g)
  | OpRay s e => do r <- rayTrace g s e; Ok (fst r)
  end.

Definition vrun (g : grid) (l : list vop) : res grid := foldM vstep l g.

End Voxel.
