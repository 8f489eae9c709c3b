(** Proofs about the correlative search. *)
From Coq Require Import Reals ZArith List Bool Lia Lra Psatz Permutation.
From Verif Require Import Base LinAlg3 GeoModel OptModel RegModel CorrModel CorrSpec CorrTable CorrBuild CorrInit.
Import ListNotations.
Open Scope R_scope.

(** ** Candidates *)
Lemma sweep_in : forall range step v, 0 < step ->
  In v (sweep range step) <-> exists i : nat, v = - range + INR i * step /\ v < range.
Proof.
  intros range step v Hs. unfold sweep. rewrite in_map_iff.
  assert (D : 2 * range / step * step = 2 * range) by (field; lra).
  pose proof (ceilR_spec (2 * range / step)) as C. split.
  - intros (i & <- & I). exists i. split; [reflexivity|]. apply in_seq in I.
    assert (J : (Z.of_nat i <= ceilR (2 * range / step) - 1)%Z) by lia.
    apply IZR_le in J. rewrite minus_IZR, <- INR_IZR_INZ in J. nra.
  - intros (i & -> & L). exists i. split; [reflexivity|]. apply in_seq. split; [lia|].
    assert (J : INR i < 2 * range / step) by (apply (Rmult_lt_reg_r step); lra).
    assert (K : IZR (Z.of_nat i) < IZR (ceilR (2 * range / step))) by (rewrite <- INR_IZR_INZ; lra).
    apply lt_IZR in K. lia.
Qed.
Lemma sweep_len : forall range step n, 0 < step ->
  (forall k, (k < n)%nat <-> - range + INR k * step < range) -> length (sweep range step) = n.
Proof.
  intros range step n Hs H. unfold sweep. rewrite map_length, seq_length.
  set (m := Z.to_nat (ceilR (2 * range / step))).
  assert (K : forall k, (k < m)%nat <-> - range + INR k * step < range).
  { intros k. assert (D : 2 * range / step * step = 2 * range) by (field; lra).
    pose proof (ceilR_spec (2 * range / step)) as C. unfold m. split; intros L.
    - assert (J : (Z.of_nat k <= ceilR (2 * range / step) - 1)%Z) by lia.
      apply IZR_le in J. rewrite minus_IZR, <- INR_IZR_INZ in J. nra.
    - assert (J : INR k < 2 * range / step) by (apply (Rmult_lt_reg_r step); lra).
      assert (Q : IZR (Z.of_nat k) < IZR (ceilR (2 * range / step))) by (rewrite <- INR_IZR_INZ; lra).
      apply lt_IZR in Q. lia. }
  destruct (lt_eq_lt_dec m n) as [[L|E]|L]; [|exact E|]; exfalso.
  - apply H in L. apply K in L. lia.
  - apply K in L. apply H in L. lia.
Qed.

(** ** The voxels of one rotation *)
Definition sc (t : lut) (pcl : list P2) (v : V3) : xr := match searchScore t pcl v with Ok s => s | _ => Fin 0 end.
Definition voxAt (t : lut) (pcl : list P2) (v : V3) : voxel := mkVox v (sc t pcl v).
Definition shifts (c : corrcfg) : list (R * R) := list_prod (sweep (cc_range c) (cc_step c)) (sweep (cc_range c) (cc_step c)).
Definition rotList (c : corrcfg) (t : lut) (pcl : list P2) (theta : R) : list voxel :=
  map (fun d : R * R => voxAt t pcl (mkV (fst d) (snd d) theta)) (shifts c).

Lemma searchScore_sc : forall target step std t pcl v, good target step std t -> searchScore t pcl v = Ok (sc t pcl v).
Proof.
  intros target step std t pcl v G. unfold sc, searchScore.
  destruct (proj2 (scores_bounded _ _ _ _ G) (transformIndexes t (vx v) (vy v) (toIndexes t (rotateCloud (vz v) pcl))))
    as (s & -> & _). reflexivity.
Qed.

Lemma rotVoxels_ok : forall target step std c t pcl theta, good target step std t ->
  rotVoxels c t pcl theta = Ok (rotList c t pcl theta).
Proof.
  intros target step std c t pcl theta G. unfold rotVoxels, rotList. fold (shifts c).
  assert (K : forall L acc, foldM (fun acc (d : R * R) =>
      do s <- getScoreIdx t (transformIndexes t (fst d) (snd d) (toIndexes t (rotateCloud theta pcl)));
      Ok (acc ++ [mkVox (mkV (fst d) (snd d) theta) s])) L acc =
      Ok (acc ++ map (fun d : R * R => voxAt t pcl (mkV (fst d) (snd d) theta)) L)).
  { induction L as [|d L IH]; intros acc; [now rewrite app_nil_r|]. cbn [foldM map].
    pose proof (searchScore_sc _ _ _ _ pcl (mkV (fst d) (snd d) theta) G) as E. unfold searchScore in E. cbn [vx vy vz] in E.
    rewrite E. cbn [bind]. rewrite IH, <- app_assoc. reflexivity. }
  exact (K (shifts c) []).
Qed.

(** ** Collecting them *)
Lemma concat_upd : forall A (per : list (list A)) n i old x,
  nth_error per i = Some old -> (i < n)%nat ->
  Permutation (concat (firstn n (upd per i (old ++ x)))) (concat (firstn n per) ++ x).
Proof.
  intros A per. induction per as [|h per IH]; intros n i old x E L; [destruct i; discriminate|].
  destruct n as [|n]; [lia|]. destruct i as [|i].
  - cbn in E. injection E as ->. cbn. rewrite <- !app_assoc. apply Permutation_app_head. apply Permutation_app_comm.
  - cbn in E. cbn. rewrite <- app_assoc. apply Permutation_app_head. apply IH; [exact E|lia].
Qed.

Definition allVox (c : corrcfg) (t : lut) (pcl : list P2) (l : list R) : list voxel :=
  flat_map (rotList c t pcl) l.

Lemma collect_perm : forall target step std threads sched c t pcl, good target step std t ->
  scheduled threads (length (sweep (cc_rrange c) (cc_rot c))) sched ->
  exists l, collect threads sched c t pcl = Ok l /\
    Permutation l (allVox c t pcl (sweep (cc_rrange c) (cc_rot c))).
Proof.
  intros target step std threads sched c t pcl G [HP HT].
  set (rots := sweep (cc_rrange c) (cc_rot c)) in *.
  assert (K : forall L per, length per = (2 * threads)%nat ->
     (forall e, In e L -> (fst e < threads)%nat /\ (snd e < length rots)%nat) ->
     exists per', foldM (fun per (e : nat * nat) =>
        do theta <- vget rots (snd e);
        do local <- rotVoxels c t pcl theta;
        do old <- vget per (fst e);
        vset per (fst e) (old ++ local)) L per = Ok per' /\
     Permutation (concat (firstn threads per'))
       (concat (firstn threads per) ++ flat_map (fun i => rotList c t pcl (nth i rots 0)) (map snd L))).
  { induction L as [|[th i] L IH]; intros per LP HL.
    - exists per. cbn. rewrite app_nil_r. auto.
    - destruct (HL (th, i) (or_introl eq_refl)) as [H1 H2]. cbn [fst snd] in *.
      cbn [foldM fst snd]. unfold vget at 1. rewrite (nth_error_nth' rots 0 H2). cbn [bind].
      rewrite (rotVoxels_ok _ _ _ _ _ _ _ G). cbn [bind].
      assert (H3 : (th < length per)%nat) by lia.
      unfold vget at 1. rewrite (nth_error_nth' per [] H3). cbn [bind].
      rewrite vset_ok by lia. cbn [bind].
      destruct (IH (upd per th (nth th per [] ++ rotList c t pcl (nth i rots 0)))) as (per' & E & Q).
      + now rewrite length_upd.
      + intros e I. apply HL. now right.
      + exists per'. split; [exact E|]. rewrite Q. cbn [map flat_map snd].
        rewrite app_assoc. apply Permutation_app_tail. apply concat_upd; [|exact H1]. apply nth_error_nth'. lia. }
  destruct (K sched (repeat [] (2 * threads)) (repeat_length _ _)) as (per' & E & Q).
  { intros e I. split; [now apply HT|]. assert (J : In (snd e) (seq 0 (length rots))).
    { apply (Permutation_in _ HP). now apply in_map. } apply in_seq in J. lia. }
  exists (concat (firstn threads per')). unfold collect. fold rots. rewrite E. cbn [bind]. split; [reflexivity|].
  rewrite Q.
  assert (Z : concat (firstn threads (repeat (@nil voxel) (2 * threads))) = []).
  { generalize (2 * threads)%nat as m. clear. induction threads as [|n IH]; intros m; [reflexivity|].
    destruct m; [reflexivity|]. cbn. apply IH. }
  rewrite Z. cbn [app]. rewrite (Permutation_flat_map _ HP).
  assert (M : map (fun i => nth i rots 0) (seq 0 (length rots)) = rots).
  { clear. apply (nth_ext _ _ 0 0); [now rewrite map_length, seq_length|]. intros n Hn.
    rewrite map_length, seq_length in Hn.
    rewrite (nth_indep _ 0 ((fun i => nth i rots 0) 0%nat)) by (now rewrite map_length, seq_length).
    rewrite (map_nth (fun i => nth i rots 0)). now rewrite seq_nth. }
  unfold allVox. rewrite <- M at 2. rewrite flat_map_concat_map, (flat_map_concat_map _ (map _ _)), map_map. reflexivity.
Qed.

Lemma allVox_in : forall c t pcl v, usable c ->
  In v (allVox c t pcl (sweep (cc_rrange c) (cc_rot c))) <-> exists u, candidate c u /\ v = voxAt t pcl u.
Proof.
  intros c t pcl v (H1 & _ & H3 & _). unfold allVox. rewrite in_flat_map. split.
  - intros (th & I & J). unfold rotList, shifts in J. apply in_map_iff in J. destruct J as ([dx dy] & <- & J).
    apply in_prod_iff in J. destruct J as [JX JY]. rewrite sweep_in in I, JX, JY by assumption.
    destruct I as (k & -> & I), JX as (i & -> & JX), JY as (j & -> & JY). cbn [fst snd].
    eexists. split; [|reflexivity]. exists i, j, k. cbn. auto.
  - intros (u & (i & j & k & -> & A & B & C) & ->). cbn [vx vy vz] in *.
    exists (- cc_rrange c + INR k * cc_rot c). split; [apply sweep_in; eauto|].
    unfold rotList, shifts. apply in_map_iff.
    exists (- cc_range c + INR i * cc_step c, - cc_range c + INR j * cc_step c). split; [reflexivity|].
    apply in_prod_iff. rewrite !sweep_in by assumption. split; eexists; split; try reflexivity; assumption.
Qed.

(** ** The best one *)
Definition noMore (a b : xr) : Prop := xlt a b = false.

Lemma sc_shape : forall target step std t pcl, good target step std t ->
  (target <> [] -> forall v, exists x, sc t pcl v = Fin x) /\
  (target = [] -> forall v w, sc t pcl v = sc t pcl w).
Proof.
  intros target step std t pcl G. pose proof G as (_ & (_ & _ & _ & _ & _ & _ & EP) & _ & V). split.
  - intros NE v.
    destruct (proj2 (scores_bounded _ _ _ _ G) (transformIndexes t (vx v) (vy v) (toIndexes t (rotateCloud (vz v) pcl))))
      as (s & E & B). destruct (B NE) as (x & -> & _). exists x. unfold sc, searchScore. now rewrite E.
  - intros EN v w. subst target. cbn in EP.
    assert (ZI : forall i, idxScore t i = Ok 0%Z).
    { intros i. destruct (idxScore_ok _ _ _ _ i G) as (x & E & _ & I & N). rewrite E. f_equal.
      assert (D : inb (l_row t) (l_col t) (snd i) (fst i) \/ ~ inb (l_row t) (l_col t) (snd i) (fst i)) by (unfold inb; lia).
      destruct D as [D|D]; [|now apply N]. rewrite (I D). destruct (V _ _ D) as (_ & [[S|(r0 & c0 & (p & [] & _) & _)] _] & _). exact S. }
    assert (F : forall l, getScoreIdx t l = Ok (if (length l =? 0)%nat then Fin 0 else NaN)).
    { intros l. unfold getScoreIdx, scoreOf. rewrite (sum_fold _ (idxScore t) (fun _ => 0%Z) l 0%Z (fun p _ => ZI p)). cbn [bind].
      assert (S0 : fold_left (fun a (_ : Z * Z) => (a + 0)%Z) l 0%Z = 0%Z).
      { induction l as [|a l IH]; [reflexivity|]. cbn [fold_left]. exact IH. }
      rewrite S0, EP. f_equal. destruct (length l =? 0)%nat; [reflexivity|]. unfold xdiv, OCCUPIED. cbn [INR].
      destruct (Req_EM_T (100 * 0) 0) as [Q|Q]; [|exfalso; lra].
      unfold xinf. destruct (Rlt_dec 0 0); [exfalso; lra|reflexivity]. }
    unfold sc, searchScore. rewrite !F. unfold transformIndexes, moveIndexes, toIndexes, rotateCloud. now rewrite !map_length.
Qed.

Lemma max_exists : forall (l : list voxel), l <> [] ->
  ((forall v, In v l -> exists x, vo_score v = Fin x) \/ (forall v w, In v l -> In w l -> vo_score v = vo_score w)) ->
  exists best, sortedBack l best.
Proof.
  intros l NE [F|F].
  - induction l as [|v l IH]; [congruence|].
    destruct l as [|w l].
    + exists v. split; [now left|]. intros u [<-|[]]. destruct (F v (or_introl eq_refl)) as (x & E). rewrite E.
      cbn. destruct (Rlt_dec x x); [lra|reflexivity].
    + destruct (IH ltac:(discriminate) (fun u U => F u (or_intror U))) as (b & B1 & B2).
      destruct (F v (or_introl eq_refl)) as (x & E). destruct (F b (or_intror B1)) as (y & Y).
      destruct (Rlt_dec y x) as [L|L].
      * exists v. split; [now left|]. intros u [<-|U].
        -- rewrite E. cbn. destruct (Rlt_dec x x); [lra|reflexivity].
        -- specialize (B2 u U). destruct (F u (or_intror U)) as (z & Q). rewrite Y, Q in B2. rewrite E, Q. cbn in *.
           destruct (Rlt_dec y z); [discriminate|]. destruct (Rlt_dec x z); [lra|reflexivity].
      * exists b. split; [now right|]. intros u [<-|U]; [|now apply B2]. rewrite Y, E. cbn.
        destruct (Rlt_dec y x); [lra|reflexivity].
  - destruct l as [|v l]; [congruence|]. exists v. split; [now left|]. intros u U.
    rewrite (F u v U (or_introl eq_refl)). destruct (vo_score v); cbn; try reflexivity. destruct (Rlt_dec r r); [lra|reflexivity].
Qed.

(** ** A run *)
Lemma ctr : forall c n, 0 < cc_rot c -> rotCount c n -> length (sweep (cc_rrange c) (cc_rot c)) = n.
Proof. intros c n H1 H2. apply sweep_len; assumption. Qed.

Theorem search_runs : forall threads sched c source target guess n, usable c -> rotCount c n ->
  scheduled threads n sched ->
  (exists T, corrRun threads sched c source target guess (Ok (true, T))) /\
  (forall r, corrRun threads sched c source target guess r ->
     exists t v, initGrid target (cc_step c) (1 / 2) = Ok t /\ r = Ok (true, vecToMat v) /\ candidate c v /\
       forall u, candidate c u -> exists a b,
         searchScore t (map (t2apply guess) source) v = Ok a /\
         searchScore t (map (t2apply guess) source) u = Ok b /\ xlt a b = false).
Proof.
  intros threads sched c source target guess n U RC SC. pose proof U as (U1 & U2 & U3 & U4 & U5).
  rewrite <- (ctr c n U3 RC) in SC.
  destruct (init_good target (cc_step c) (1 / 2) U1 U2) as (t & ET & G).
  set (pcl := map (t2apply guess) source) in *.
  destruct (collect_perm _ _ _ threads sched c t pcl G SC) as (l & EL & PL).
  assert (IN : forall v, In v l <-> exists u, candidate c u /\ v = voxAt t pcl u).
  { intros v. rewrite <- (allVox_in c t pcl v U). split; apply Permutation_in; [exact PL|now apply Permutation_sym]. }
  assert (C0 : candidate c (mkV (- cc_range c) (- cc_range c) (- cc_rrange c))).
  { exists 0%nat, 0%nat, 0%nat. cbn. split; [f_equal; ring|lra]. }
  assert (NE : l <> []).
  { intros Q. assert (I : In (voxAt t pcl (mkV (- cc_range c) (- cc_range c) (- cc_rrange c))) l) by (apply IN; eauto).
    rewrite Q in I. exact I. }
  assert (SP : is_ok (getScorePts t pcl) /\ is_ok (getScorePts t target)).
  { split; [destruct (proj1 (scores_bounded _ _ _ _ G) pcl) as (s & -> & _)|
            destruct (proj1 (scores_bounded _ _ _ _ G) target) as (s & -> & _)]; eexists; reflexivity. }
  split.
  - destruct (sc_shape _ _ _ _ pcl G) as [S1 S2].
    destruct (max_exists l NE) as (best & B).
    { destruct target as [|p target'].
      - right. intros v w Hv Hw. apply IN in Hv. apply IN in Hw. destruct Hv as (a & _ & ->), Hw as (b & _ & ->). cbn. now apply S2.
      - left. intros v Hv. apply IN in Hv. destruct Hv as (a & _ & ->). cbn. apply S1. discriminate. }
    exists (vecToMat (vo_trans best)). apply CorrOk with t l; try assumption; apply SP.
  - intros r R. inversion R as [E|t' l' best E1 E2 E3 E4 E5]; subst.
    + exfalso. rewrite ET in E. cbn [bind] in E. fold pcl in E.
      destruct SP as [[s1 S1] [s2 S2]]. rewrite S1, S2, EL in E. cbn [bind] in E. destruct l; [congruence|discriminate].
    + rewrite ET in E1. injection E1 as <-. fold pcl in E4. rewrite EL in E4. injection E4 as <-.
      destruct E5 as [B1 B2]. apply IN in B1. destruct B1 as (v & CV & ->). exists t, v.
      split; [exact ET|]. split; [reflexivity|]. split; [exact CV|]. intros u CU.
      exists (sc t pcl v), (sc t pcl u). rewrite !(searchScore_sc _ _ _ _ _ _ G). repeat split.
      apply (B2 (voxAt t pcl u)). apply IN. eauto.
Qed.

Lemma xlt_antisym : forall a b, xlt a b = false -> xlt b a = false ->
  (exists x y, a = Fin x /\ b = Fin y) -> a = b.
Proof.
  intros a b A B (x & y & -> & ->). cbn in *. destruct (Rlt_dec x y); [discriminate|]. destruct (Rlt_dec y x); [discriminate|].
  f_equal. lra.
Qed.

Theorem search_schedule : forall th1 s1 th2 s2 c source target guess n T1 T2, usable c -> rotCount c n ->
  scheduled th1 n s1 -> scheduled th2 n s2 ->
  corrRun th1 s1 c source target guess (Ok (true, T1)) ->
  corrRun th2 s2 c source target guess (Ok (true, T2)) ->
  exists t v1 v2 s, initGrid target (cc_step c) (1 / 2) = Ok t /\ candidate c v1 /\ candidate c v2 /\
    T1 = vecToMat v1 /\ T2 = vecToMat v2 /\
    searchScore t (map (t2apply guess) source) v1 = Ok s /\
    searchScore t (map (t2apply guess) source) v2 = Ok s.
Proof.
  intros th1 s1 th2 s2 c source target guess n T1 T2 U RC C1 C2 R1 R2.
  destruct (search_runs th1 s1 c source target guess n U RC C1) as [_ K1].
  destruct (search_runs th2 s2 c source target guess n U RC C2) as [_ K2].
  destruct (K1 _ R1) as (t & v1 & ET & E1 & V1 & M1). destruct (K2 _ R2) as (t' & v2 & ET' & E2 & V2 & M2).
  rewrite ET in ET'. injection ET' as <-. injection E1 as ->. injection E2 as ->.
  pose proof U as (U1 & U2 & _).
  destruct (init_good target (cc_step c) (1 / 2) U1 U2) as (t' & ET' & G). rewrite ET in ET'. injection ET' as <-.
  set (pcl := map (t2apply guess) source) in *.
  exists t, v1, v2, (sc t pcl v1). repeat split; try assumption; try reflexivity.
  - apply (searchScore_sc _ _ _ _ _ _ G).
  - rewrite (searchScore_sc _ _ _ _ _ _ G). f_equal.
    destruct (M1 v2 V2) as (a & b & A1 & A2 & A3). destruct (M2 v1 V1) as (a' & b' & B1 & B2 & B3).
    rewrite (searchScore_sc _ _ _ _ pcl v1 G) in A1, B2. rewrite (searchScore_sc _ _ _ _ pcl v2 G) in A2, B1.
    injection A1 as <-. injection A2 as <-. injection B1 as <-. injection B2 as <-.
    destruct (sc_shape _ _ _ _ pcl G) as [S1 S2]. destruct target as [|p tg].
    + now apply S2.
    + apply xlt_antisym; auto. destruct (S1 ltac:(discriminate) v1) as (x & X). destruct (S1 ltac:(discriminate) v2) as (y & Y).
      eauto.
Qed.

(** ** What an offset really scores *)
Definition moved (t : lut) (v : V3) (p : P2) : P2 :=
  (fst p + (IZR (floorR (vx v / l_step t)) - IZR (l_border t)) * l_step t,
   snd p + (IZR (floorR (vy v / l_step t)) + IZR (l_border t)) * l_step t).

Lemma offset_pt : forall target step std t p v, good target step std t -> strictly t (moved t v p) ->
  idxScore t (floorR ((fst p - l_minx t + l_half t) / l_step t) + floorR (vx v / l_step t),
              floorR ((- snd p + l_maxy t + l_half t) / l_step t) + - floorR (vy v / l_step t))%Z
  = ptScore t (moved t v p).
Proof.
  intros target step std t p v G S. pose proof G as (Hs & (G1 & G2 & _) & _).
  set (ex := floorR (vx v / l_step t)) in *. set (ey := floorR (vy v / l_step t)) in *.
  set (i := floorR ((fst p - l_minx t + l_half t) / l_step t)).
  set (j := floorR ((- snd p + l_maxy t + l_half t) / l_step t)).
  replace (i + ex, j + - ey)%Z with ((i + ex - l_border t) + l_border t, (j - ey - l_border t) + l_border t)%Z by (f_equal; lia).
  apply (idx_point target step std); [exact G|exact S|].
  pose proof (toIndexes_falls target step std t p G) as [A B]. fold i in A. fold j in B.
  replace (i + l_border t - l_border t)%Z with i in A by lia.
  replace (j + l_border t - l_border t)%Z with j in B by lia.
  unfold fallsInto, moved. cbn [fst snd]. fold ex ey.
  replace (i + ex - l_border t + l_border t - l_border t)%Z with (i + ex - l_border t)%Z by lia.
  replace (j - ey - l_border t + l_border t - l_border t)%Z with (j - ey - l_border t)%Z by lia.
  rewrite !minus_IZR, plus_IZR. split; split; lra.
Qed.

Theorem offset_score : forall target step std t pcl v, good target step std t ->
  (forall p, In p (rotateCloud (vz v) pcl) -> strictly t (moved t v p)) ->
  searchScore t pcl v = getScorePts t (map (moved t v) (rotateCloud (vz v) pcl)).
Proof.
  intros target step std t pcl v G S. unfold searchScore, getScoreIdx, getScorePts. apply scoreOf_ext.
  unfold transformIndexes, moveIndexes, toIndexes. rewrite map_map. cbn [fst snd].
  revert S. generalize (rotateCloud (vz v) pcl) as l. induction l as [|p l IH]; intros S; [constructor|].
  cbn [map]. constructor.
  - apply (offset_pt target step std); [exact G|apply S; now left].
  - apply IH. intros q Q. apply S. now right.
Qed.

Theorem offset_spec : forall target step std t pcl v m n, 0 < step -> std * step <= 997 / 100 ->
  initGrid target step std = Ok t ->
  IZR m * step <= vx v < IZR (m + 1) * step -> IZR n * step <= vy v < IZR (n + 1) * step ->
  (forall p, In p pcl -> strictly t (lookedAt t (vz v) m n p)) ->
  searchScore t pcl v = getScorePts t (map (lookedAt t (vz v) m n) pcl).
Proof.
  intros target step std t pcl v m n Hs Hw E HM HN S. destruct (init_good target step std Hs Hw) as (t' & E' & G).
  rewrite E in E'. injection E' as <-. pose proof G as (_ & (G1 & _) & _).
  assert (Q : forall z x, IZR z * step <= x < IZR (z + 1) * step -> floorR (x / step) = z).
  { intros z x [A B]. rewrite plus_IZR in B. assert (D : x / step * step = x) by (field; lra).
    apply floorR_unique. split; [apply (Rmult_le_reg_r step)|apply (Rmult_lt_reg_r step)]; lra. }
  assert (ML : map (moved t v) (rotateCloud (vz v) pcl) = map (lookedAt t (vz v) m n) pcl).
  { unfold rotateCloud. rewrite map_map. apply map_ext. intros p. unfold moved, lookedAt. cbn [fst snd].
    rewrite G1, (Q m _ HM), (Q n _ HN). f_equal; ring. }
  rewrite <- ML. apply (offset_score target step std); [exact G|].
  intros p I. assert (J : In (moved t v p) (map (moved t v) (rotateCloud (vz v) pcl))) by now apply in_map.
  rewrite ML in J. apply in_map_iff in J. destruct J as (q & <- & J). now apply S.
Qed.
