(** Following the scans: the front end with the incremental matcher of the program
    (ndt_slam_algorithm.h:218-244 under ndt_gslam/include/ndt_gslam). *)
From Coq Require Import Reals Qreals List ZArith QArith Bool.
From Verif Require Import Base LinAlg3 GeoModel OptModel RegModel.
From Verif Require Import GraphModel LoopModel SlamModel AlgModel VoxelModel GridModel MapModel SysModel.
From Verif Require Import RealModel.
Import ListNotations.
Open Scope nat_scope.

Section Inc.
  Context {X Guess D : Type}.
  Notation cell := (ncell X).
  Notation body := (res (ngrid X)).
  Variable icovOf : cell -> M3.
  Variable search : list point -> P2 -> nat -> list nat.
  Variable solve : M3 -> V3 -> option V3.
  Variable merge : cell -> cell -> cell.
  Variable dflt : cell.
  Variable addPt : cell -> point -> cell.
  Variable compute : cell -> cell.
  Variable tcell : qtrans T2 -> cell -> cell.
  Variable occRay : cell -> point -> cell -> cell.
  Variable rawOcc : cell -> Q.
  Variable btw : qpose -> qpose -> qtrans T2.
  Variable tp : qtrans T2 -> point -> point.
  Variable dbl : R -> Q.

  (** ndt_grid2d.h:278-281, getMeans() *)
  Definition meansOf (g : ngrid X) : list P2 :=
    match n_means g with Some l => map (fun p => (Q2R (fst p), Q2R (snd p))) l | None => [] end.
  (** ndt_slam_algorithm.h:225-244: the scan alone makes a grid, its means are registered
      against the running window from the guess.  The conversions of guess and result
      between float and double (239, 243) are not represented; a grid whose computation is
      undefined leads to no match here.  [left]: see RealModel.v. *)
  Definition incMatch (left : Q -> V3 -> sad) (a : alg body body) (i : ainput (option point) D) : option T2 :=
    match a_win a with
    | Some (Ok g) =>
        match n_initialize merge dflt addPt compute tcell occRay btw tp
                (n_setOrigin (newFrame dflt) (n_pose g)) (i_scan i) with
        | Ok local =>
            let r := scanP2d merge dflt icovOf search solve left (meansOf local) g (guessOf a i) in
            if fst r then Some (snd r) else None
        | _ => None
        end
    | _ => None
    end.

  (** Histories in which the matcher answers as the program's does; the first call does
      not use it (203-217). *)
  Inductive followed (env : aenv body body (option point) Guess D) : list (yev D) -> sys X -> Prop :=
  | followed_new : followed env [] (sys_new dflt env)
  | followed_step h y e y' left : followed env h y ->
      (a_init (y_alg y) = true -> i_match (v_in e) = incMatch left (y_alg y) (v_in e)) ->
      ystep merge dflt tcell occRay rawOcc btw tp dbl env y e y' -> followed env (e :: h) y'.
End Inc.
