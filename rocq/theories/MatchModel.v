(** Model of the scan matcher: slam_optimizer/ndt_scanmatcher.h on top of
    registration/d2d_ndt2d_robust.h (under ndt_gslam/include/ndt_gslam) and of
    what the base classes of PCL keep between calls.

    The two component registrations are parameters (modelled in RegModel.v and
    CorrModel.v).  The files and messages written by match() are left out. *)
From Coq Require Import Reals ZArith List Bool.
From Verif Require Import Base LinAlg3 GeoModel OptModel RegModel CorrModel.
Import ListNotations.
Open Scope R_scope.

Section Matcher.
  (** a frame: getData()->getMeans() and getCellSize() *)
  Context {F : Type}.
  Variable cloud : F -> list P2.
  Variable cellSize : F -> R.
  (** D2DNormalDistributionsTransform2D::align for source and target grid and a
      guess: hasConverged(), getFinalTransformation() *)
  Variable d2d : F -> F -> T2 -> bool * T2.
  (** CorrelativeEstimation::align for a coarse step, source and target clouds and a
      guess *)
  Variable corr : R -> list P2 -> list P2 -> T2 -> res (bool * T2).

  (** rejection_limit_; the grids held by d2d_; input_ and target_ of the PCL base
      classes (the same in all three objects); cell_size_; converged_,
      final_transformation_ and alignment_quality_ of the robust registration *)
  Record mstate := mkMS {
    ms_limit : R; ms_src : option F; ms_tgt : option F;
    ms_in : option (list P2); ms_target : option (list P2); ms_cell : R;
    ms_conv : bool; ms_final : T2; ms_quality : xr }.

  (** ndt_scanmatcher.h:19-25 with d2d_ndt2d_robust.h:314-321 *)
  Definition newMatcher : mstate :=
    mkMS (6 / 10) None None None None (1 / 4) false t2id (Fin 0).

  (** ndt_scanmatcher.h:33-36: setRejectionLimit throws outside of (0, 1) and leaves
      the limit as it was *)
  Definition setScoreThreshold (s : mstate) (x : R) : mstate :=
    match setRejectionLimit x with
    | Ok l => mkMS l (ms_src s) (ms_tgt s) (ms_in s) (ms_target s) (ms_cell s)
                   (ms_conv s) (ms_final s) (ms_quality s)
    | _ => s
    end.

  (** pcl::Registration::setInputSource and setInputTarget (PCL, not in the
      repository): an empty cloud is refused with an error message *)
  Definition pclSet (old : option (list P2)) (c : list P2) : option (list P2) :=
    match c with [] => old | _ => Some c end.
  (** d2d_ndt2d_robust.h:88-94 and d2d_ndt2d.h:221-227 *)
  Definition setInputSource (s : mstate) (f : F) : mstate :=
    mkMS (ms_limit s) (Some f) (ms_tgt s) (pclSet (ms_in s) (cloud f)) (ms_target s) (ms_cell s)
         (ms_conv s) (ms_final s) (ms_quality s).
  (** d2d_ndt2d_robust.h:101-109 and d2d_ndt2d.h:234-240 *)
  Definition setInputTarget (s : mstate) (f : F) : mstate :=
    mkMS (ms_limit s) (ms_src s) (Some f) (ms_in s) (pclSet (ms_target s) (cloud f)) (cellSize f)
         (ms_conv s) (ms_final s) (ms_quality s).

  (** d2d_ndt2d_robust.h:381-393, proofTransform *)
  Definition proofTransform (s : mstate) (trans : T2) : res xr :=
    match ms_in s, ms_target s with
    | Some src, Some tgt =>
        do t <- initGrid tgt (ms_cell s) (1 / 2);
        getScorePts t (map (t2apply trans) src)
    | _, _ => UB
    end.

  (** d2d_ndt2d.h:403-417: without grids nothing is computed *)
  Definition runD2d (s : mstate) (guess : T2) : bool * T2 :=
    match ms_src s, ms_tgt s with Some a, Some b => d2d a b guess | _, _ => (false, t2id) end.
  Definition runCorr (s : mstate) (guess : T2) : res (bool * T2) :=
    match ms_in s, ms_target s with
    | Some a, Some b => corr (ms_cell s) a b guess
    | _, _ => UB
    end.

  Definition outcome (s : mstate) (conv : bool) (t : T2) (q : xr) : mstate :=
    mkMS (ms_limit s) (ms_src s) (ms_tgt s) (ms_in s) (ms_target s) (ms_cell s) conv t q.

  (** d2d_ndt2d_robust.h:325-379, computeTransformation, with scores that can be no
      number; first_trans is not initialised when the first match is good *)
  Definition finishAlign (s : mstate) (score : xr) (first : option T2) (t : T2) : res mstate :=
    do score2 <- proofTransform s t;
    if xlt score2 (Fin (ms_limit s)) then
      if xgt score (Fin (6 / 10)) then
        match first with Some f => Ok (outcome s true f score) | None => UB end
      else Ok (outcome s false t score)
    else Ok (outcome s true t score2).
  Definition robustRun (s : mstate) (guess : T2) : res mstate :=
    let r1 := runD2d s guess in
    do score <- proofTransform s (snd r1);
    if fst r1 && xgt score (Fin (7 / 10)) then finishAlign s score None (snd r1)
    else
      do rc <- runCorr s guess;
      if negb (fst rc) then Ok (outcome s false t2id (Fin 0))
      else
        let r2 := runD2d s (snd rc) in
        if negb (fst r2) then Ok (outcome s false (snd rc) (Fin 0))
        else finishAlign s score (Some (snd r1)) (snd r2).

  (** pcl::Registration::align (PCL): returns at once, with the results of the run
      before, when a cloud was never set *)
  Definition align (s : mstate) (guess : T2) : res mstate :=
    match ms_in s, ms_target s with
    | Some _, Some _ => robustRun s guess
    | _, _ => Ok s
    end.

  (** graph_slam_interfaces.h:197-215 *)
  Record match_result := mkMR {
    mr_success : bool; mr_score : xr; mr_inform : M3; mr_transform : T2 }.
  (** ndt_scanmatcher.h:46-99; the guess goes through convertFromTransform and the
      result through convertToTransform, which keep the planar part *)
  Definition matchFrames (s : mstate) (source target : F) (guess : T2)
    : res (mstate * match_result) :=
    do s' <- align (setInputTarget (setInputSource s source) target) guess;
    Ok (s', mkMR (ms_conv s') (ms_quality s')
                 (mkM 5000 0 0 0 5000 0 0 0 10000) (ms_final s')).

  (** what a user can do with a matcher *)
  Inductive mop := Threshold (x : R) | Match (source target : F) (guess : T2).
  Definition mstep (s : mstate) (o : mop) : res mstate :=
    match o with
    | Threshold x => Ok (setScoreThreshold s x)
    | Match a b g => do r <- matchFrames s a b g; Ok (fst r)
    end.
End Matcher.
Arguments mop : clear implicits.
Arguments mstate : clear implicits.
