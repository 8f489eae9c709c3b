(** The two registrations of the program as it configures them, on the grids it hands to
    them: registration/d2d_ndt2d.h inside registration/d2d_ndt2d_robust.h (used by
    slam_optimizer/ndt_scanmatcher.h to verify loop candidates) and registration/ndt2d.h
    (used by ndt_slam_algorithm.h to follow the scans), all under
    ndt_gslam/include/ndt_gslam.

    The score of a layer is the one of RegModel.v with the cells of the coarser grids of
    GridModel.v; the order in which threads add up is not represented (C68).  The kd-tree
    is any function [search]; an index or cell that does not exist contributes nothing
    (C74: there is none).  A coarser grid whose computation is undefined makes the
    registration fail. *)
From Coq Require Import Reals Qreals List ZArith QArith Bool.
From Verif Require Import Base LinAlg3 GeoModel OptModel RegModel CorrModel VoxelModel GridModel AlgModel.
Import ListNotations.
Open Scope R_scope.

Section Real.
  Context {X : Type}.
  Variable merge : ncell X -> ncell X -> ncell X.
  Variable dflt : ncell X.
  (** getCov() and getICov() of a cell *)
  Variable covOf : ncell X -> M3.
  Variable icovOf : ncell X -> M3.
  (** pcl::KdTreeFLANN::nearestKSearch: positions in the cloud *)
  Variable search : list point -> P2 -> nat -> list nat.
  (** Eigen::JacobiSVD::solve *)
  Variable solve : M3 -> V3 -> option V3.

  Definition meanOf (c : ncell X) : P2 := (Q2R (fst (nc_mean c)), Q2R (snd (nc_mean c))).
  Definition gcellOf (c : ncell X) : gcell := mkG (mkV (fst (meanOf c)) (snd (meanOf c)) 0) (covOf c).
  Definition icellOf (c : ncell X) : icell := mkI (icovOf c) (meanOf c).

  (** ndt_grid2d.h:960-979, getKNearestNeighbors for a point with real coordinates *)
  Definition knn (g : ngrid X) (p : P2) (k : nat) : list (ncell X) :=
    match n_means g with
    | None => []
    | Some ms => flat_map (fun i => match nth_error ms i with
                                    | Some m => match getCellPtr (n_vox g) m with
                                                | Ok (Some c) => [c]
                                                | _ => []
                                                end
                                    | None => []
                                    end) (search ms p k)
    end.

  (** d2d_ndt2d.h:317-328 for four layers and a base size of 0.25 (393-398, and
      d2d_ndt2d_robust.h:319; ndt2d.h:343-344 and ndt_slam_algorithm.h:182) *)
  Definition sizes : list Q := [2; 1; 1 # 2; 1 # 4]%Q.

  (** d2d_ndt2d.h:418-423: one layer; the hessian is needed for the direction (454) and
      not in the step search (754, 788) *)
  Definition d2dLayer (ratio : R) (source target : ngrid X) (size : Q) : res layer :=
    do a <- createCoarserGrid merge dflt source size;
    do b <- createCoarserGrid merge dflt target size;
    let sc := calcScore (fun p k => map gcellOf (knn b p k)) (calcParams ratio (1 / Q2R size))
                (map gcellOf (getGaussianCells a)) in
    Ok (mkL (fun q => sc q true) (fun q => sc q false)).
  (** ndt2d.h:364-370: one layer.  The step search evaluates the score of the cloud that
      the layer before left in the output; it is left open here ([left]). *)
  Definition p2dLayer (left : Q -> V3 -> sad) (ratio : R) (source : list P2) (target : ngrid X) (size : Q)
    : res layer :=
    do b <- createCoarserGrid merge dflt target size;
    Ok (mkL (fun q => calcScoreP (fun p k => map icellOf (knn b p k)) source q
                        (calcParams ratio (1 / Q2R size))) (left size)).
  Fixpoint layersOf (f : Q -> res layer) (l : list Q) : res (list layer) :=
    match l with
    | [] => Ok []
    | q :: t => do a <- f q; do b <- layersOf f t; Ok (a :: b)
    end.

  (** what was in the object before does not matter, pcl::Registration::align resets it *)
  Definition fresh : rstate := mkRS false t2id 0 mid mid.
  Definition shown (o : res (option (option rstate))) (guess : T2) : bool * T2 :=
    match o with
    | Ok (Some (Some r)) => (rs_conv r, rs_final r)
    | _ => (false, guess)
    end.

  (** d2d_ndt2d.h:403-432 with the settings of ndt_scanmatcher.h:20-22 (step 0.1, ratio
      0.55), d2d_ndt2d_robust.h:320 (10 rounds) and d2d_ndt2d.h:395 (epsilon 0.1):
      hasConverged() and getFinalTransformation() *)
  Definition loopD2d (source target : ngrid X) (guess : T2) : bool * T2 :=
    shown (do ls <- layersOf (d2dLayer (55 / 100) source target) sizes;
           Ok (d2dAlign solve (1 / 10) (1 / 10) 10 10 true ls guess fresh)) guess.
  (** the grids behind two frames; null pointers cannot occur *)
  Definition frameD2d (a b : frame (res (ngrid X))) (guess : T2) : bool * T2 :=
    match f_body a, f_body b with
    | Ok ga, Ok gb => loopD2d ga gb guess
    | _, _ => (false, t2id)
    end.

  (** ndt2d.h:348-376 with the settings of ndt_slam_algorithm.h:180-182 (step 0.01, ratio
      0.7) and ndt2d.h:340-341 (35 rounds, epsilon 0.1) *)
  Definition scanP2d (left : Q -> V3 -> sad) (source : list P2) (window : ngrid X) (guess : T2) : bool * T2 :=
    shown (do ls <- layersOf (p2dLayer left (7 / 10) source window) sizes;
           Ok (p2dAlign solve (1 / 10) (1 / 100) 35 37 true ls guess fresh)) guess.
End Real.

(** registration/correlative_estimation2d.h:155-257 with the settings of lines 144-153, of
    ndt_scanmatcher.h:24 and of d2d_ndt2d_robust.h:108, as a function: [sched] tells how
    the two threads shared the work of a call, [pick] which of the best elements the sort
    left at the end (CorrModel.v, corrRun). *)
Definition corrAlign (sched : list P2 -> list P2 -> T2 -> list (nat * nat)) (pick : list voxel -> voxel)
  (step : R) (source target : list P2) (guess : T2) : res (bool * T2) :=
  let cloud := map (t2apply guess) source in
  do t <- initGrid target step (1 / 2);
  do _ <- getScorePts t cloud;
  do _ <- getScorePts t target;
  do l <- collect 2 (sched source target guess) (mkCC step (2 / 10) 4 3) t cloud;
  match l with
  | [] => UB
  | _ => Ok (true, vecToMat (vo_trans (pick l)))
  end.
