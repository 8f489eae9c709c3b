(** The voxel grid with rounding: the same functions as in VoxelModel.v, with every
    operation on numbers rounded as the program's types say.  Points are pairs of double,
    cell sizes and the arguments of calcIncLeft ... calcIncDown are float.  Rounding is to
    nearest, ties to even; operations are rounded to the type of their operands (no extra
    precision, as on x86-64).  Overflow is not modelled: no exponent is too large. *)
From Coq Require Import List ZArith QArith Qabs Qround Bool Arith.
From Verif Require Import Base VoxelModel GridModel.
Import ListNotations.
Open Scope nat_scope.

(** ** Rounding (IEEE 754; no source) *)
(** 2^e *)
Definition two (e : Z) : Q := Qpower (2#1) e.
(** the exponent of a number: 2^(e-1) <= |q| < 2^e *)
Definition qexp (q : Q) : Z :=
  let l := (Z.log2 (Z.abs (Qnum q)) - Z.log2 (Zpos (Qden q)))%Z in
  if Qle_bool (two l) (Qabs q) then (l + 1)%Z else l.
Definition nearest_even (q : Q) : Z :=
  let f := Qfloor q in
  match Qcompare (q - inject_Z f) (1#2) with
  | Lt => f
  | Gt => (f + 1)%Z
  | Eq => if Z.even f then f else (f + 1)%Z
  end.
(** [prec] binary digits, none below 2^[emin] *)
Definition rounded (prec emin : Z) (q : Q) : Q :=
  if Qeq_bool q 0 then 0%Q
  else let e := Z.max (qexp q - prec) emin in
       (inject_Z (nearest_even (q * two (- e))) * two e)%Q.
(** double *)
Definition f64 : Q -> Q := rounded 53 (-1074).
(** float *)
Definition f32 : Q -> Q := rounded 24 (-149).

Section Voxel.
Context {C : Type}.
Variable merge : C -> C -> C.
Notation grid := (vgrid C).

(** voxel_grid2d.h:175-179, 290-291: cell_size / 2 of a float *)
Definition fhalf (g : grid) : Q := f32 (cell_size g / 2).

(** voxel_grid2d.h:394-395: size_t to double, times float, minus float: double *)
Definition fminx (g : grid) : Q := f64 (f64 (- f64 (qn (w_left g)) * cell_size g) - fhalf g).
(** voxel_grid2d.h:396: size_t times float, plus float: float *)
Definition fmaxx (g : grid) : Q := f32 (f32 (f32 (qn (w_right g)) * cell_size g) + fhalf g).
(** voxel_grid2d.h:397-398 *)
Definition fminy (g : grid) : Q := f64 (f64 (- f64 (qn (h_down g)) * cell_size g) - fhalf g).
(** voxel_grid2d.h:399 *)
Definition fmaxy (g : grid) : Q := f32 (f32 (f32 (qn (h_up g)) * cell_size g) + fhalf g).
(** voxel_grid2d.h:391-403 *)
Definition fisInside (g : grid) (p : point) : bool :=
  Qle_bool (fminx g) (fst p) && Qle_bool (fst p) (fmaxx g) &&
  (Qle_bool (fminy g) (snd p) && Qle_bool (snd p) (fmaxy g)).

(** voxel_grid2d.h:643-655 *)
Definition fcalcCoordinates (g : grid) (p : point) : res (nat * nat) :=
  let mnx := f32 (cell_size g * f32 (qn (w_left g))) in
  let mxy := f32 (cell_size g * f32 (qn (h_up g))) in
  do c <- to_size_t (Qfloor (f64 (f64 (f64 (fst p + mnx) + fhalf g) / cell_size g)));
  do r <- to_size_t (Qfloor (f64 (f64 (f64 (- snd p + mxy) + fhalf g) / cell_size g)));
  Ok (c, r).
(** voxel_grid2d.h:629-633 *)
Definition fcalcIndex (g : grid) (p : point) : res nat :=
  do cr <- fcalcCoordinates g p; Ok (calcIndexC g cr).

(** voxel_grid2d.h:668-675: the argument is converted to float when passed *)
Definition fcalcIncLeft (g : grid) (x : Q) : nat :=
  let pt := f32 x in
  let mnx := f32 (f32 (- f32 (qn (w_left g)) * cell_size g) - fhalf g) in
  if Qlt_b pt mnx then Z.to_nat (Qceiling (f32 (f32 (mnx - pt) / cell_size g))) else 0.
(** voxel_grid2d.h:677-684 *)
Definition fcalcIncRight (g : grid) (x : Q) : nat :=
  let pt := f32 x in
  let mxx := f32 (f32 (f32 (qn (w_right g)) * cell_size g) + fhalf g) in
  if Qlt_b mxx pt then Z.to_nat (Qceiling (f32 (f32 (pt - mxx) / cell_size g))) else 0.
(** voxel_grid2d.h:686-693 *)
Definition fcalcIncUp (g : grid) (y : Q) : nat :=
  let pt := f32 y in
  let mxy := f32 (f32 (f32 (qn (h_up g)) * cell_size g) + fhalf g) in
  if Qlt_b mxy pt then Z.to_nat (Qceiling (f32 (f32 (pt - mxy) / cell_size g))) else 0.
(** voxel_grid2d.h:695-702 *)
Definition fcalcIncDown (g : grid) (y : Q) : nat :=
  let pt := f32 y in
  let mny := f32 (f32 (- f32 (qn (h_down g)) * cell_size g) - fhalf g) in
  if Qlt_b pt mny then Z.to_nat (Qceiling (f32 (f32 (mny - pt) / cell_size g))) else 0.

(** voxel_grid2d.h:657-666 *)
Definition fenlargeToFit (g : grid) (p : point) : res grid :=
  if fisInside g p then Ok g
  else enlargeGrid g (fcalcIncLeft g (fst p)) (fcalcIncRight g (fst p))
                     (fcalcIncUp g (snd p)) (fcalcIncDown g (snd p)).

(** voxel_grid2d.h:336-377 *)
Definition faddCell (g : grid) (p : point) (c : C) (merging : bool) : res grid :=
  do g1 <- fenlargeToFit g p;
  do idx <- fcalcIndex g1 p;
  do old <- vget (cells g1) idx;
  match old with
  | None => Ok (with_valid (with_cells g1 (upd (cells g1) idx (Some c)))
                           (u64 (n_valid g1 + 1)))
  | Some o =>
      let v := if merging then merge o c else c in
      Ok (with_cells g1 (upd (cells g1) idx (Some v)))
  end.

(** voxel_grid2d.h:379-389 *)
Definition fremoveCell (g : grid) (p : point) : res (grid * option bool) :=
  if negb (fisInside g p) then Ok (g, Some false)
  else
    do idx <- fcalcIndex g p;
    do old <- vget (cells g) idx;
    let nv := match old with None => n_valid g | Some _ => u64 (n_valid g - 1) end in
    Ok (with_valid (with_cells g (upd (cells g) idx None)) nv, None).

(** voxel_grid2d.h:444-452 *)
Definition fcellExists (g : grid) (p : point) : res bool :=
  if negb (fisInside g p) then Ok false
  else
    do idx <- fcalcIndex g p;
    do c <- vget (cells g) idx;
    Ok (match c with None => false | Some _ => true end).

(** voxel_grid2d.h:460-464 *)
Definition fgetCellPtr (g : grid) (p : point) : res (option C) :=
  do idx <- fcalcIndex g p; vget (cells g) idx.
End Voxel.

(** ** Moving the window (ndt_grid2d.h:807-829, one axis) *)
(** 807-812; division of a double by a float: double *)
Definition faxisMove (cs t : Q) : res (option Z) :=
  if (0 <? Qfloor (f64 (Qabs t / cs)))%Z then
    let r := f64 (t / cs) in
    do k <- to_int (if Qlt_b r 0 then Qceiling r else Qfloor r);
    Ok (Some k)
  else Ok None.
(** 813: int times float: float *)
Definition fwhole (cs : Q) (k : Z) : Q := f32 (f32 (inject_Z k) * cs).
(** 815 *)
Definition faxisRest (cs t : Q) (o : option Z) : Q :=
  match o with Some k => f64 (t - fwhole cs k) | None => t end.
(** 836-837: the new position of the window *)
Definition forigin (cs x : Q) (o : option Z) : Q :=
  match o with Some k => f64 (x + fwhole cs k) | None => f64 (x + 0) end.
