(** Properties of the correlative registration. *)
From Coq Require Import Reals ZArith List Bool Lia Lra.
From Verif Require Import Base LinAlg3 GeoModel OptModel RegModel CorrModel CorrSpec
  CorrTable CorrBuild CorrInit CorrSearch CorrCases.
Import ListNotations.
Open Scope R_scope.

(** C59: for cells up to 19.94 m wide (deviation 0.5; the kernel must reach less
    than the full weight off its centre) building the table stays in its storage;
    the table holds in every cell the largest weight a target point gives it. *)
Theorem C59_table_partial : forall target step std, 0 < step -> std * step <= 997 / 100 ->
  exists t, initGrid target step std = Ok t /\ boxOf t target /\ l_step t = step /\
    nearest (2 * sigma step std) (l_border t) /\
    (forall p, strictly t p -> exists r c, fallsInto t p r c /\ inTable t r c) /\
    forall r c, inTable t r c -> exists v, tabAt t r c = Some v /\ (0 <= v <= 100)%Z /\ smeared t target step std r c v /\
      (v = 100%Z <-> occupied t target r c).
Proof. exact table_spec. Qed.
Print Assumptions C59_table_partial.
(** Scoring stays in it too, and is bounded for a target with points. *)
Theorem C59_scores_partial : forall target step std t, 0 < step -> std * step <= 997 / 100 ->
  initGrid target step std = Ok t ->
  (forall pcl, exists s, getScorePts t pcl = Ok s /\
     (target <> [] -> scoreBound (length pcl) (length target) s)) /\
  (forall idx, exists s, getScoreIdx t idx = Ok s /\
     (target <> [] -> scoreBound (length idx) (length target) s)).
Proof. exact scores_spec. Qed.
Print Assumptions C59_scores_partial.
(** The score of one point is the value of the cell it falls into, as a share of
    the target's points; nothing outside the box. *)
Theorem C59_point_partial : forall target step std t p, 0 < step -> std * step <= 997 / 100 ->
  initGrid target step std = Ok t -> target <> [] ->
  (forall r c v, strictly t p -> fallsInto t p r c -> tabAt t r c = Some v ->
     getScorePts t [p] = Ok (Fin (IZR v / (100 * INR (length target))))) /\
  (~ strictly t p -> getScorePts t [p] = Ok (Fin 0)).
Proof. exact point_cell. Qed.
Print Assumptions C59_point_partial.
Example C59_case : exists t, initGrid three 1 (1 / 2) = Ok t /\ l_row t = 13%Z /\ l_border t = 1%Z /\
  occupied t three 6 6.
Proof.
  destruct three_table as (t & E & G & B1 & B2 & B3 & B4 & Bo & S1 & S2 & R & C & P & OC).
  exists t. repeat split; auto. now apply OC.
Qed.
(** With cells of 20 m the neighbours of an occupied cell get the full weight and
    are smoothed in turn, until the kernel leaves the table. *)
Theorem C59_wide_cells_refuted : initGrid small 20 (1 / 2) = UB.
Proof. exact wide_ub. Qed.
Print Assumptions C59_wide_cells_refuted.
(** Against an empty target the score is no number. *)
Theorem C59_empty_target_refuted : exists t, initGrid [] 1 (1 / 2) = Ok t /\ getScorePts t [(0, 0)] = Ok NaN.
Proof. exact empty_target. Qed.
Print Assumptions C59_empty_target_refuted.

(** C60 holds once the indexes are moved by the border, for points in the box. *)
Theorem C60_indexes_partial : forall target step std t pcl, 0 < step -> std * step <= 997 / 100 ->
  initGrid target step std = Ok t -> (forall p, In p pcl -> strictly t p) ->
  getScoreIdx t (moveIndexes (l_border t) (l_border t) (toIndexes t pcl)) = getScorePts t pcl.
Proof.
  intros target step std t pcl Hs Hw E S. destruct (init_good target step std Hs Hw) as (t' & E' & G).
  rewrite E in E'. injection E' as <-. now apply indexes_moved with target step std.
Qed.
Print Assumptions C60_indexes_partial.
(** As they come from toIndexes() they do not score like the points. *)
Theorem C60_indexes_refuted : exists t, initGrid three 1 (1 / 2) = Ok t /\ exists a b,
  getScorePts t [(0, 0)] = Ok (Fin a) /\ getScoreIdx t (toIndexes t [(0, 0)]) = Ok (Fin b) /\ b < a.
Proof. exact index_differs. Qed.
Print Assumptions C60_indexes_refuted.

(** C61: any two runs, with any numbers of threads and any distribution of the
    rotations over them, return candidates of the same score. *)
Theorem C61_search_score : forall th1 s1 th2 s2 c source target guess n T1 T2, usable c -> rotCount c n ->
  scheduled th1 n s1 -> scheduled th2 n s2 ->
  corrRun th1 s1 c source target guess (Ok (true, T1)) ->
  corrRun th2 s2 c source target guess (Ok (true, T2)) ->
  exists t v1 v2 s, initGrid target (cc_step c) (1 / 2) = Ok t /\ candidate c v1 /\ candidate c v2 /\
    T1 = vecToMat v1 /\ T2 = vecToMat v2 /\
    searchScore t (map (t2apply guess) source) v1 = Ok s /\
    searchScore t (map (t2apply guess) source) v2 = Ok s.
Proof. exact search_schedule. Qed.
Print Assumptions C61_search_score.
Example C61_case : usable cfg1 /\ rotCount cfg1 16 /\ scheduled 1 16 (map (fun i => (0%nat, i)) (seq 0 16)) /\
  scheduled 2 16 (map (fun i => (i mod 2, i)%nat) (rev (seq 0 16))).
Proof.
  split; [exact cfg1_usable|]. split; [exact cfg1_rots|]. split; [exact one_thread|]. split.
  - rewrite map_map. cbn [snd]. rewrite map_id. apply Permutation.Permutation_sym, Permutation.Permutation_rev.
  - intros e I. apply in_map_iff in I. destruct I as (i & <- & _). cbn [fst]. apply Nat.mod_upper_bound. lia.
Qed.
(** The transform itself is not determined: with equal scores it depends on the
    order the sort leaves them in. *)
Theorem C61_transform_refuted : exists T1 T2, T1 <> T2 /\
  corrRun 1 (map (fun i => (0%nat, i)) (seq 0 16)) cfg1 [] three t2id (Ok (true, T1)) /\
  corrRun 1 (map (fun i => (0%nat, i)) (seq 0 16)) cfg1 [] three t2id (Ok (true, T2)).
Proof. exact tie. Qed.
Print Assumptions C61_transform_refuted.

(** C62: the search ends, and returns one of the candidates; no candidate has a
    better search score. *)
Theorem C62_best_partial : forall threads sched c source target guess n, usable c -> rotCount c n ->
  scheduled threads n sched ->
  (exists T, corrRun threads sched c source target guess (Ok (true, T))) /\
  (forall r, corrRun threads sched c source target guess r ->
     exists t v, initGrid target (cc_step c) (1 / 2) = Ok t /\ r = Ok (true, vecToMat v) /\ candidate c v /\
       forall u, candidate c u -> exists a b,
         searchScore t (map (t2apply guess) source) v = Ok a /\
         searchScore t (map (t2apply guess) source) u = Ok b /\ xlt a b = false).
Proof. exact search_runs. Qed.
Print Assumptions C62_best_partial.
(** The search score of an offset is the score of the cloud one border further
    left and up. *)
Theorem C62_offset_partial : forall target step std t pcl v m n, 0 < step -> std * step <= 997 / 100 ->
  initGrid target step std = Ok t ->
  IZR m * step <= vx v < IZR (m + 1) * step -> IZR n * step <= vy v < IZR (n + 1) * step ->
  (forall p, In p pcl -> strictly t (lookedAt t (vz v) m n p)) ->
  searchScore t pcl v = getScorePts t (map (lookedAt t (vz v) m n) pcl).
Proof. exact offset_spec. Qed.
Print Assumptions C62_offset_partial.
(** So what is returned is not the best: already for the right guess a better
    candidate, not to move, was tried. *)
Theorem C62_best_refuted : exists t, initGrid three 1 (1 / 2) = Ok t /\
  (forall threads sched n r, rotCount cfg1 n -> scheduled threads n sched ->
   corrRun threads sched cfg1 [(0, 0)] three (shift 0 0) r ->
   exists T x y, r = Ok (true, T) /\
     getScorePts t (map (t2apply T) [(0, 0)]) = Ok (Fin x) /\
     getScorePts t (map (fun p => t2apply (vecToMat (mkV 0 0 0)) (t2apply (shift 0 0) p)) [(0, 0)]) = Ok (Fin y) /\
     x < y).
Proof. apply (search_wrong 0 0); lia. Qed.
Print Assumptions C62_best_refuted.
(** The guess is not part of the result: three metres off in x and y, the
    candidate going back by that would have been right. *)
Theorem C62_guess_refuted : exists t, initGrid three 1 (1 / 2) = Ok t /\
  (forall threads sched n r, rotCount cfg1 n -> scheduled threads n sched ->
   corrRun threads sched cfg1 [(0, 0)] three (shift 3 3) r ->
   exists T x y, r = Ok (true, T) /\
     getScorePts t (map (t2apply T) [(0, 0)]) = Ok (Fin x) /\
     getScorePts t (map (fun p => t2apply (vecToMat (mkV (-3) (-3) 0)) (t2apply (shift 3 3) p)) [(0, 0)]) = Ok (Fin y) /\
     x < y).
Proof. apply (search_wrong 3 3); lia. Qed.
Print Assumptions C62_guess_refuted.
Example C62_case : candidate cfg1 (mkV 0 0 0) /\ candidate cfg1 (mkV (-3) (-3) 0) /\
  exists T, corrRun 1 (map (fun i => (0%nat, i)) (seq 0 16)) cfg1 [(0, 0)] three (shift 3 3) (Ok (true, T)).
Proof.
  split; [apply (int_candidate 0 0); lia|]. split; [apply (int_candidate (-3) (-3)); lia|].
  apply (search_runs _ _ cfg1 _ three _ 16); [exact cfg1_usable|exact cfg1_rots|exact one_thread].
Qed.
(** An empty range leaves nothing to choose from. *)
Theorem C62_empty_range_refuted : corrRun 1 [] (mkCC 1 (1 / 5) 4 0) [(0, 0)] three t2id UB.
Proof. exact empty_range. Qed.
Print Assumptions C62_empty_range_refuted.
