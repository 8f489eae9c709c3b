(** Ray tracing with rounding: VoxelModel.rayTrace with every operation rounded as in
    FloatModel.v (points and lengths are double, the size of the cells is float). *)
From Coq Require Import List ZArith QArith Qabs Qround Qminmax Bool Arith NArith.
From Verif Require Import Base VoxelModel FloatModel.
Import ListNotations.
Open Scope nat_scope.

Section Ray.
Context {C : Type}.
Variable dflt : C.
Notation grid := (vgrid C).

(** voxel_grid2d.h:535-536: difference of double, divided by a float *)
Definition fray_axis (g : grid) (a b : Q) : Q := f64 (Qabs (f64 (b - a)) / cell_size g).
(** voxel_grid2d.h:539 *)
Definition fray_len (g : grid) (s e : point) : Q :=
  Qmax (fray_axis g (fst s) (fst e)) (fray_axis g (snd s) (snd e)).
(** voxel_grid2d.h:537-540 *)
Definition fray_delta (g : grid) (s e : point) : point :=
  (f64 (f64 (f64 (fst e - fst s) / fray_len g s e) * (1#2)),
   f64 (f64 (f64 (snd e - snd s) / fray_len g s e) * (1#2)))%Q.
(** voxel_grid2d.h:551 *)
Definition fray_count (g : grid) (s e : point) : N :=
  Z.to_N (u64 (2 * Qfloor (fray_len g s e) - 1)).

(** voxel_grid2d.h:551-566: loop body; the bounds (521-526) are those of isInside *)
Definition frayStep (g : grid) (delta : point) (st : ray_state (C:=C)) : flow (ray_state (C:=C)) :=
  let pushed :=
    if r_cur st =? r_old st then Ok (r_cells st, r_res st)
    else do l <- touch dflt (r_cells st) (r_cur st); Ok (l, r_res st ++ [r_cur st]) in
  match pushed with
  | Ok (l, out) =>
      let p := (f64 (fst (r_p st) + fst delta), f64 (snd (r_p st) + snd delta))%Q in
      if Qle_bool (fmaxx g) (fst p) || Qle_bool (fst p) (fminx g) ||
         (Qle_bool (fmaxy g) (snd p) || Qle_bool (snd p) (fminy g))
      then Break (mkRay l out p (r_old st) (r_cur st))
      else match fcalcIndex g p with
           | Ok i => Next (mkRay l out p (r_cur st) i)
           | _ => Fail
           end
  | _ => Fail
  end.

(** voxel_grid2d.h:512-569; a length of zero gives a step that is not a number *)
Definition frayTrace (g : grid) (s e : point) : res (grid * list nat) :=
  if negb (fisInside g s) then Ok (g, [])
  else
    do i0 <- fcalcIndex g s;
    do l0 <- touch dflt (cells g) i0;
    if Qeq_bool (fray_len g s e) 0 then UB
    else
      match iter_N (fray_count g s e) (frayStep g (fray_delta g s e))
                   (mkRay l0 [i0] s i0 i0) with
      | Next st | Break st => Ok (with_cells g (r_cells st), r_res st)
      | Fail => UB
      end.
End Ray.
