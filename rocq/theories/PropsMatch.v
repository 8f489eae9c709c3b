(** C92, C93: the scan matcher. *)
From Coq Require Import Reals ZArith List Bool Lra Lia Permutation.
From Verif Require Import Base LinAlg3 GeoModel GeoSpec GeoProofs OptModel RegModel RegSpec
  CorrModel CorrSpec CorrCases MatchModel MatchSpec MatchProofs MatchCases.
Import ListNotations.
Open Scope R_scope.

(** C92: what a successful match says, after any history of the matcher, for any
    registrations behind it.  The share is counted in points of the target, and the
    threshold counts only up to 0.6. *)
Theorem C92_accepted_partial : forall (F : Type) (cloud : F -> list P2) cellSize d2d corr ops s a b g s' r,
  empty_fails cloud d2d -> 0 < cellSize b -> 1 / 2 * cellSize b <= 997 / 100 ->
  foldM (mstep cloud cellSize d2d corr) ops newMatcher = Ok s ->
  matchFrames cloud cellSize d2d corr s a b g = Ok (s', r) -> mr_success r = true ->
  exists x, mr_score r = Fin x /\ verified cloud cellSize a b (mr_transform r) x /\
    Rmin (asked ops) (6 / 10) <= x <= INR (length (cloud a)) / INR (length (cloud b)) /\
    (exists g', mr_transform r = snd (d2d a b g')) /\
    exists n, nearest (2 * sigma (cellSize b) (1 / 2)) n /\ (cellSize b <= 1 -> n = 1%Z) /\
      overlap ((IZR n + 1) * cellSize b) (x * INR (length (cloud b)))
              (map (t2apply (mr_transform r)) (cloud a)) (cloud b).
Proof. exact @accepted. Qed.
Print Assumptions C92_accepted_partial.
(** In terms of the scan that was matched, when it is not the larger one. *)
Theorem C92_share_partial : forall (F : Type) (cloud : F -> list P2) cellSize d2d corr ops s a b g s' r,
  empty_fails cloud d2d -> 0 < cellSize b <= 1 -> (length (cloud a) <= length (cloud b))%nat ->
  foldM (mstep cloud cellSize d2d corr) ops newMatcher = Ok s ->
  matchFrames cloud cellSize d2d corr s a b g = Ok (s', r) -> mr_success r = true ->
  overlap (2 * cellSize b) (Rmin (asked ops) (6 / 10) * INR (length (cloud a)))
          (map (t2apply (mr_transform r)) (cloud a)) (cloud b).
Proof.
  intros F cloud cellSize d2d corr ops s a b g s' r EF Hc Hl R M S.
  destruct (accepted cloud cellSize d2d corr ops s a b g s' r EF) as (x & _ & _ & B & _ & n & _ & N & h & m & P & H & L);
    [lra|lra|exact R|exact M|exact S|].
  exists h, m. split; [exact P|]. rewrite (N (proj2 Hc)) in H.
  split; [intros p I; destruct (H p I) as (q & Q); exists q; replace (2 * cellSize b) with ((1 + 1) * cellSize b) by ring; exact Q|].
  apply Rle_trans with (x * INR (length (cloud b))); [|exact L].
  apply le_INR in Hl. pose proof (asked_range (F := F) ops).
  apply Rmult_le_compat; [apply Rmin_glb; lra|apply pos_INR|lra|exact Hl].
Qed.
Print Assumptions C92_share_partial.
(** The transform is rigid if those of the two registrations are, also on failure. *)
Theorem C92_rigid : forall (F : Type) (cloud : F -> list P2) cellSize d2d corr ops s a b g s' r,
  (forall a b g, rigid (snd (d2d a b g))) -> (forall c x y g r, corr c x y g = Ok r -> rigid (snd r)) ->
  foldM (mstep cloud cellSize d2d corr) ops newMatcher = Ok s ->
  matchFrames cloud cellSize d2d corr s a b g = Ok (s', r) -> rigid (mr_transform r).
Proof. exact @always_rigid. Qed.
Print Assumptions C92_rigid.
(** A match comes to an end with a result for thresholds up to 0.7. *)
Theorem C92_returns_partial : forall (F : Type) (cloud : F -> list P2) cellSize d2d corr,
  (forall f, 0 < cellSize f /\ 1 / 2 * cellSize f <= 997 / 100) ->
  (forall f x y g, exists r, corr (cellSize f) x y g = Ok r) ->
  forall ops, (forall x, In (Threshold x) ops -> x <= 7 / 10 \/ 1 <= x) -> forall a b g,
  exists s s' r, foldM (mstep cloud cellSize d2d corr) ops newMatcher = Ok s /\
    matchFrames cloud cellSize d2d corr s a b g = Ok (s', r).
Proof. exact @returns. Qed.
Print Assumptions C92_returns_partial.
(** The score is no share of the scan: whatever happened before and whatever the
    threshold, a scan with four of twenty points near the target is accepted with a
    score above one. *)
Theorem C92_share_refuted : forall corr ops s g,
  foldM (mstep (fun a => a) metre sure corr) ops newMatcher = Ok s ->
  exists s', matchFrames (fun a => a) metre sure corr s scattered three g =
      Ok (s', mkMR true (Fin (4 / 3)) (mkM 5000 0 0 0 5000 0 0 0 10000) t2id) /\
    ~ overlap (2 * metre three) (INR (length scattered) / 4) (map (t2apply t2id) scattered) three.
Proof.
  intros corr ops s g R. destruct (scattered_accepted corr ops s g R) as (s' & E). exists s'.
  split; [exact E|]. rewrite map_id_apply. unfold metre. rewrite Rmult_1_r.
  replace (INR (length scattered) / 4) with 5 by (cbn; lra). exact scattered_far.
Qed.
Print Assumptions C92_share_refuted.
(** A scan that lies exactly on the target is not accepted: points on the border of
    the target do not count. *)
Theorem C92_perfect_refuted : forall corr g s' r,
  matchFrames (fun a => a) metre sure corr newMatcher three three g = Ok (s', r) -> mr_success r = false.
Proof. exact self_rejected. Qed.
Print Assumptions C92_perfect_refuted.
Example C92_case : empty_fails (fun a => a) sure /\ asked [Threshold (1 / 2); @Match (list P2) three three t2id; Threshold 2] = 1 / 2 /\
  (exists s, foldM (mstep (fun a => a) metre sure found) [Threshold (1 / 2)] newMatcher = Ok s /\
    exists s', matchFrames (fun a => a) metre sure found s scattered three t2id =
      Ok (s', mkMR true (Fin (4 / 3)) (mkM 5000 0 0 0 5000 0 0 0 10000) t2id)) /\
  Nat.le (length (repeat (0, 0)%R 3)) (length three) /\
  (exists s', matchFrames (fun a => a) metre sure found newMatcher (repeat (0, 0) 3) three t2id =
      Ok (s', mkMR true (Fin (3 / 3)) (mkM 5000 0 0 0 5000 0 0 0 10000) t2id)) /\
  exists s', matchFrames (fun a => a) metre sure found newMatcher three three t2id = Ok s'.
Proof.
  split; [exact sure_empty|]. split.
  { unfold asked. cbn [fold_left]. destruct (Rlt_dec 0 (1 / 2)); [|exfalso; lra].
    destruct (Rlt_dec (1 / 2) 1); [|exfalso; lra]. destruct (Rlt_dec 0 2); [|reflexivity].
    destruct (Rlt_dec 2 1); [exfalso; lra|reflexivity]. }
  split.
  { eexists. split; [reflexivity|]. apply (scattered_accepted found [Threshold (1 / 2)]). reflexivity. }
  split; [cbn; lia|]. split; [apply (middle_accepted found []); reflexivity|].
  destruct (returns (fun a => a) metre sure found) with (ops := @nil (mop (list P2))) (a := three) (b := three) (g := t2id)
    as (s & s' & r & E & M).
  - intro f. unfold metre. lra.
  - intros. unfold found. eauto.
  - intros x [].
  - injection E as <-. eauto.
Qed.

(** C93: what was matched before does not matter: with the same threshold, two
    matchers report the same for frames with content, and both fail otherwise. *)
Theorem C93_history : forall (F : Type) (cloud : F -> list P2) cellSize d2d corr ops1 ops2 s1 s2 a b g,
  foldM (mstep cloud cellSize d2d corr) ops1 newMatcher = Ok s1 ->
  foldM (mstep cloud cellSize d2d corr) ops2 newMatcher = Ok s2 ->
  asked ops1 = asked ops2 -> cloud a <> [] -> cloud b <> [] ->
  matchFrames cloud cellSize d2d corr s1 a b g = matchFrames cloud cellSize d2d corr s2 a b g.
Proof. exact @same_nonempty. Qed.
Print Assumptions C93_history.
Theorem C93_empty : forall (F : Type) (cloud : F -> list P2) cellSize d2d corr ops s a b g s' r,
  empty_fails cloud d2d -> foldM (mstep cloud cellSize d2d corr) ops newMatcher = Ok s ->
  cloud a = [] \/ cloud b = [] ->
  matchFrames cloud cellSize d2d corr s a b g = Ok (s', r) -> mr_success r = false.
Proof. exact @empty_rejected. Qed.
Print Assumptions C93_empty.
(** The registration of grids does fail when the source or the target has no
    distributions. *)
Theorem C93_empty_grids : forall solve eps step max_iter fuel ready param h near source search ls guess s r,
  solves_zero solve -> source = [] \/ (forall p k, near p k = []) ->
  d2dAlign solve eps step max_iter fuel ready
    (mkL (fun q => calcScore near param source q h) search :: ls) guess s = Some (Some r) ->
  rs_conv r = false.
Proof.
  intros solve eps step max_iter fuel ready param h near source search ls guess s r SZ E H.
  refine (d2d_zero_fails _ _ _ _ _ _ _ _ _ _ SZ _ _ H). intro q. cbn [ly_score].
  destruct E as [-> | E]; [apply score_no_source|now apply score_no_target].
Qed.
Print Assumptions C93_empty_grids.
(** The transform reported with a failure does depend on it. *)
Theorem C93_history_refuted : exists s s' r s0' r0,
  foldM (mstep (fun a => a) metre sure found) [Match scattered three t2id] newMatcher = Ok s /\
  matchFrames (fun a => a) metre sure found s [] three t2id = Ok (s', r) /\
  matchFrames (fun a => a) metre sure found newMatcher [] three t2id = Ok (s0', r0) /\
  mr_success r = false /\ mr_success r0 = false /\ mr_transform r <> mr_transform r0.
Proof. exact stale. Qed.
Print Assumptions C93_history_refuted.
Example C93_case : exists s, foldM (mstep (fun a => a) metre sure found) [Match three scattered t2id; Threshold 2] newMatcher = Ok s /\
  scattered <> [] /\ asked [@Match (list P2) three scattered t2id; Threshold 2] = asked (F := list P2) [].
Proof.
  destruct (returns (fun a => a) metre sure found) with (ops := [@Match (list P2) three scattered t2id; Threshold 2]) (a := three) (b := three) (g := t2id)
    as (s & s' & r & E & M).
  - intro f. unfold metre. lra.
  - intros. unfold found. eauto.
  - intros x [Q|[Q|[]]]; [discriminate|]. injection Q as <-. right. lra.
  - exists s. split; [exact E|]. split; [discriminate|]. unfold asked. cbn [fold_left].
    destruct (Rlt_dec 0 2); [|reflexivity]. destruct (Rlt_dec 2 1); [exfalso; lra|reflexivity].
Qed.
