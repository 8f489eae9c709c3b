(** The finished lookup table and its scores. *)
From Coq Require Import Reals ZArith List Bool Lia Lra Psatz.
From Verif Require Import Base LinAlg3 GeoModel OptModel RegModel CorrModel CorrSpec CorrTable CorrBuild.
Import ListNotations.
Open Scope R_scope.

(** ** The box *)
Definition boxInv (l : list P2) (b : R * R * R * R) : Prop :=
  let '(minx, miny, maxx, maxy) := b in
  (forall p, p = (0, 0) \/ In p l -> minx <= fst p <= maxx /\ miny <= snd p <= maxy) /\
  (exists p, (p = (0, 0) \/ In p l) /\ fst p = minx) /\
  (exists p, (p = (0, 0) \/ In p l) /\ fst p = maxx) /\
  (exists p, (p = (0, 0) \/ In p l) /\ snd p = miny) /\
  (exists p, (p = (0, 0) \/ In p l) /\ snd p = maxy).

Lemma minMax_inv : forall l, boxInv l (minMaxR l).
Proof.
  intros l. induction l as [|p l IH] using rev_ind.
  - cbn. split; [intros p [-> |[]]; cbn; lra|]. repeat split; exists (0, 0); cbn; auto.
  - unfold minMaxR. rewrite fold_left_app. fold (minMaxR l). destruct (minMaxR l) as [[[minx miny] maxx] maxy].
    cbn [fold_left]. destruct p as [x y]. cbn [fst snd]. destruct IH as (A & B & C & D & E).
    assert (G : forall q, q = (0, 0) \/ In q l -> q = (0, 0) \/ In q (l ++ [(x, y)])).
    { intros q [Q|Q]; [now left|]. right. apply in_or_app. now left. }
    assert (N : (x, y) = (0, 0) \/ In (x, y) (l ++ [(x, y)])) by (right; apply in_or_app; right; now left).
    unfold boxInv. split.
    + intros q Q. assert (Q' : (q = (0, 0) \/ In q l) \/ q = (x, y)).
      { destruct Q as [Q|Q]; [now left; left|]. apply in_app_or in Q. destruct Q as [Q|[Q|[]]]; [left; now right|right; now symmetry]. }
      destruct Q' as [Q'|Q'].
      * specialize (A q Q').
        destruct (Rlt_dec x minx), (Rlt_dec maxx x), (Rlt_dec y miny), (Rlt_dec maxy y); lra.
      * rewrite Q'. cbn. assert (Z : minx <= 0 <= maxx /\ miny <= 0 <= maxy) by (apply (A (0, 0)); now left).
        destruct (Rlt_dec x minx), (Rlt_dec maxx x), (Rlt_dec y miny), (Rlt_dec maxy y); lra.
    + repeat split.
      * destruct (Rlt_dec x minx); [exists (x, y); auto|]. destruct B as (q & Q1 & Q2). exists q. auto.
      * destruct (Rlt_dec maxx x); [exists (x, y); auto|]. destruct C as (q & Q1 & Q2). exists q. auto.
      * destruct (Rlt_dec y miny); [exists (x, y); auto|]. destruct D as (q & Q1 & Q2). exists q. auto.
      * destruct (Rlt_dec maxy y); [exists (x, y); auto|]. destruct E as (q & Q1 & Q2). exists q. auto.
Qed.

(** ** Positions *)
Lemma insideBox_spec : forall t p, insideBox t p = true <-> strictly t p.
Proof.
  intros t p. unfold insideBox, strictly.
  destruct (Rlt_dec (fst p) (l_maxx t)), (Rlt_dec (snd p) (l_maxy t)), (Rlt_dec (l_minx t) (fst p)),
    (Rlt_dec (l_miny t) (snd p)); cbn; split; intros; try discriminate; try lra; auto.
Qed.

Lemma floor_cell : forall d s z, 0 < s ->
  floorR ((d + s / 2) / s) = z <-> IZR z * s - s / 2 <= d < IZR z * s + s / 2.
Proof.
  intros d s z Hs. assert (E : (d + s / 2) / s * s = d + s / 2) by (field; lra). split.
  - intros <-. pose proof (floorR_spec ((d + s / 2) / s)) as [A B].
    apply (Rmult_le_compat_r s) in A; [|lra]. apply (Rmult_lt_compat_r s) in B; [|lra]. lra.
  - intros [A B]. apply floorR_unique. split.
    + apply (Rmult_le_reg_r s); lra.
    + apply (Rmult_lt_reg_r s); lra.
Qed.

Definition cellsOf (t : lut) : Prop := 0 < l_step t /\ l_half t = l_step t / 2.
Lemma falls_iff : forall t p r c, cellsOf t -> fallsInto t p r c <-> rowOf t (snd p) = r /\ colOf t (fst p) = c.
Proof.
  intros t p r c [Hs Hh]. unfold fallsInto, rowOf, colOf. rewrite Hh.
  replace (- snd p + l_maxy t + l_step t / 2) with (l_maxy t - snd p + l_step t / 2) by ring.
  rewrite <- !floor_cell by exact Hs. lia.
Qed.

(** the table's geometry: [t] is as initGrid leaves it *)
Definition geom (target : list P2) (step std : R) (t : lut) : Prop :=
  l_step t = step /\ l_half t = step / 2 /\ boxOf t target /\ l_border t = hf (sigma step std) /\
  l_row t = (ceilR ((l_maxx t - l_minx t) / step) + 1 + 2 * l_border t)%Z /\
  l_col t = (ceilR ((l_maxy t - l_miny t) / step) + 1 + 2 * l_border t)%Z /\
  l_points t = length target.

Lemma cell_of_point : forall target step std t p, 0 < step -> geom target step std t -> strictly t p ->
  (l_border t <= rowOf t (snd p) < l_col t - l_border t)%Z /\
  (l_border t <= colOf t (fst p) < l_row t - l_border t)%Z.
Proof.
  intros target step std t [x y] Hs (G1 & G2 & G3 & G4 & G5 & G6 & _) [SX SY]. cbn [fst snd] in *.
  unfold rowOf, colOf. rewrite G5, G6, G1, G2.
  assert (K : forall d D, 0 < d < D -> (0 <= floorR ((d + step / 2) / step) <= ceilR (D / step))%Z).
  { intros d D [P Q]. pose proof (floorR_spec ((d + step / 2) / step)) as [A B].
    pose proof (ceilR_spec (D / step)) as C. split.
    - assert (0 < (d + step / 2) / step) by (apply Rmult_lt_0_compat; [lra|now apply Rinv_0_lt_compat]).
      assert (L : IZR (-1) < IZR (floorR ((d + step / 2) / step))) by (cbn; lra). apply lt_IZR in L. lia.
    - assert (E : (d + step / 2) / step = d / step + 1 / 2) by (field; lra).
      assert (d / step < D / step) by (apply Rmult_lt_compat_r; [now apply Rinv_0_lt_compat|lra]).
      assert (L : IZR (floorR ((d + step / 2) / step)) < IZR (ceilR (D / step) + 1)) by (rewrite plus_IZR; lra).
      apply lt_IZR in L. lia. }
  pose proof (K (x - l_minx t) (l_maxx t - l_minx t) ltac:(lra)).
  pose proof (K (- y + l_maxy t) (l_maxy t - l_miny t) ltac:(lra)). lia.
Qed.

Lemma geom_with : forall target step std t tab, geom target step std t -> geom target step std (withTable t tab).
Proof. intros target step std t tab H. exact H. Qed.

(** ** Marking the target *)
Definition mstep (t : lut) (p : P2) : res lut :=
  if insideBox t p then do idx <- ptIdx t p; do tab <- zset (l_table t) idx OCCUPIED; Ok (withTable t tab)
  else Ok t.

Lemma border_pos : forall target step std t, geom target step std t -> (1 <= l_border t)%Z.
Proof. intros target step std t (_ & _ & _ & -> & _). apply hf_pos, sigma_half. Qed.

Lemma ptIdx_ok : forall target step std t p, 0 < step -> geom target step std t -> strictly t p ->
  ptIdx t p = Ok (rowOf t (snd p) * l_row t + colOf t (fst p))%Z /\
  inb (l_row t) (l_col t) (rowOf t (snd p)) (colOf t (fst p)).
Proof.
  intros target step std t p Hs G S. pose proof (cell_of_point _ _ _ _ _ Hs G S) as C.
  pose proof (border_pos _ _ _ _ G) as B. unfold ptIdx.
  destruct (Z.ltb_spec (colOf t (fst p)) 0); [lia|]. destruct (Z.ltb_spec (rowOf t (snd p)) 0); [lia|].
  split; [reflexivity|]. unfold inb. lia.
Qed.

Lemma mark_fold : forall target step std t0, 0 < step -> geom target step std t0 ->
  forall L P t, (exists tab, t = withTable t0 tab) ->
  length (l_table t) = Z.to_nat (l_row t0 * l_col t0) ->
  (forall r c, inb (l_row t0) (l_col t0) r c ->
     (val (l_row t0) (l_table t) r c = 0%Z \/ val (l_row t0) (l_table t) r c = 100%Z) /\
     (val (l_row t0) (l_table t) r c = 100%Z <-> exists p, In p P /\ strictly t0 p /\ fallsInto t0 p r c)) ->
  exists tab', foldM mstep L t = Ok (withTable t0 tab') /\ length tab' = Z.to_nat (l_row t0 * l_col t0) /\
  (forall r c, inb (l_row t0) (l_col t0) r c ->
     (val (l_row t0) tab' r c = 0%Z \/ val (l_row t0) tab' r c = 100%Z) /\
     (val (l_row t0) tab' r c = 100%Z <-> exists p, In p (P ++ L) /\ strictly t0 p /\ fallsInto t0 p r c)).
Proof.
  intros target step std t0 Hs G L. pose proof G as (G1 & G2 & _).
  assert (CO : cellsOf t0) by (split; [now rewrite G1|now rewrite G2, G1]).
  induction L as [|p L IH]; intros P t (tab & ->) LN HV.
  - exists tab. rewrite app_nil_r. cbn in *. auto.
  - cbn [foldM]. unfold mstep at 1. change (insideBox (withTable t0 tab) p) with (insideBox t0 p).
    cbn [l_table withTable] in *. destruct (insideBox t0 p) eqn:E.
    + apply insideBox_spec in E. destruct (ptIdx_ok _ _ _ _ _ Hs G E) as [EI IB].
      change (ptIdx (withTable t0 tab) p) with (ptIdx t0 p). rewrite EI. cbn [bind].
      destruct (set_cell _ _ tab LN _ _ OCCUPIED IB) as (tab1 & E1 & L1 & V1). rewrite E1. cbn [bind].
      destruct (IH (P ++ [p]) (withTable (withTable t0 tab) tab1)) as (tab' & E2 & L2 & V2).
      * now exists tab1.
      * cbn. congruence.
      * intros r c J. cbn [l_table withTable]. rewrite (V1 r c J). destruct (HV r c J) as [A B].
        destruct (Z.eqb_spec r (rowOf t0 (snd p))) as [R|R]; [destruct (Z.eqb_spec c (colOf t0 (fst p))) as [C|C]|]; cbn [andb].
        -- split; [right; reflexivity|]. split; [|reflexivity]. intros _. exists p. split; [apply in_or_app; right; now left|].
           split; [exact E|]. apply falls_iff; auto.
        -- split; [exact A|]. rewrite B. split; intros (q & Q1 & Q2 & Q3); exists q; (split; [|split; assumption]).
           ++ apply in_or_app. now left.
           ++ apply in_app_or in Q1. destruct Q1 as [Q1|[Q1|[]]]; [exact Q1|]. subst q. apply falls_iff in Q3; [|exact CO]. lia.
        -- split; [exact A|]. rewrite B. split; intros (q & Q1 & Q2 & Q3); exists q; (split; [|split; assumption]).
           ++ apply in_or_app. now left.
           ++ apply in_app_or in Q1. destruct Q1 as [Q1|[Q1|[]]]; [exact Q1|]. subst q. apply falls_iff in Q3; [|exact CO]. lia.
      * exists tab'. rewrite <- app_assoc in V2. cbn in V2. auto.
    + cbn [bind]. destruct (IH (P ++ [p]) (withTable t0 tab)) as (tab' & E2 & L2 & V2).
      * now exists tab.
      * exact LN.
      * intros r c J. destruct (HV r c J) as [A B]. split; [exact A|]. cbn [l_table withTable]. rewrite B.
        split; intros (q & Q1 & Q2 & Q3); exists q; (split; [|split; assumption]).
        -- apply in_or_app. now left.
        -- apply in_app_or in Q1. destruct Q1 as [Q1|[Q1|[]]]; [exact Q1|]. subst q.
           apply insideBox_spec in Q2. congruence.
      * exists tab'. rewrite <- app_assoc in V2. cbn in V2. auto.
Qed.

(** ** The whole construction *)
Theorem init_table : forall target step std, 0 < step -> std * step <= 997 / 100 ->
  exists t, initGrid target step std = Ok t /\ geom target step std t /\
    length (l_table t) = Z.to_nat (l_row t * l_col t) /\
    forall r c, inb (l_row t) (l_col t) r c ->
      (0 <= val (l_row t) (l_table t) r c <= 100)%Z /\
      smeared t target step std r c (val (l_row t) (l_table t) r c) /\
      (val (l_row t) (l_table t) r c = 100%Z <-> occupied t target r c).
Proof.
  intros target step std Hs Hw.
  assert (S1 : sigma step std <= 997 / 100).
  { unfold sigma. apply Rmax_lub; [lra|]. apply Rle_trans with (std * step); [apply Rmin_l|exact Hw]. }
  pose proof (sigma_half step std) as S0.
  unfold initGrid. rewrite (kernel_half step std Hs).
  pose proof (minMax_inv target) as BX. destruct (minMaxR target) as [[[minx miny] maxx] maxy].
  set (row := (ceilR ((maxx - minx) / step) + 1 + 2 * hf (sigma step std))%Z).
  set (col := (ceilR ((maxy - miny) / step) + 1 + 2 * hf (sigma step std))%Z).
  set (t0 := mkLut step (step / 2) minx miny maxx maxy row col (hf (sigma step std)) (length target)
               (repeat 0%Z (Z.to_nat (row * col)))).
  assert (G : geom target step std t0) by (unfold geom; split; [reflexivity|]; split; [reflexivity|]; split; [exact BX|]; cbn; repeat split).
  pose proof G as (G1 & G2 & _).
  assert (CO : cellsOf t0) by (split; [now rewrite G1|now rewrite G2, G1]).
  destruct (mark_fold target step std t0 Hs G target [] t0) as (tab1 & E1 & L1 & V1).
  { exists (l_table t0). reflexivity. }
  { unfold t0. cbn. apply repeat_length. }
  { intros r c J. assert (Z : val (l_row t0) (l_table t0) r c = 0%Z).
    { unfold val, t0. cbn [l_table l_row]. apply nth_repeat. }
    rewrite Z. split; [now left|]. split; [discriminate|]. intros (p & [] & _). }
  unfold markPoints. change (foldM _ target t0) with (foldM mstep target t0). rewrite E1. cbn [bind].
  cbn [app] in V1.
  destruct (smooth_ok step std row col Hs tab1) with (t := withTable t0 tab1) as (tab2 & E2 & L2 & V2); auto.
  { intros r c N. now apply wt_side. }
  { intros r c J. apply (V1 r c J). }
  { intros r c [J O]. apply (V1 r c J) in O. destruct O as (p & P1 & P2 & P3).
    apply falls_iff in P3; [|exact CO]. destruct P3 as [<- <-].
    pose proof (cell_of_point _ _ _ _ _ Hs G P2) as C. exact C. }
  rewrite E2. exists (withTable (withTable t0 tab1) tab2).
  split; [reflexivity|]. split; [exact G|]. split; [exact L2|].
  assert (OC : forall r c, occ row col tab1 r c <-> occupied t0 target r c).
  { intros r c. unfold occ, occupied. split.
    - intros [J O]. apply (V1 r c J) in O. exact O.
    - intros (p & P1 & P2 & P3). pose proof P3 as P4. apply falls_iff in P4; [|exact CO]. destruct P4 as [<- <-].
      destruct (ptIdx_ok _ _ _ _ _ Hs G P2) as [_ IB]. split; [exact IB|]. apply (V1 _ _ IB). exists p. auto. }
  intros r c J. cbn [l_row l_table withTable] in *. destruct (V2 r c J) as (A & B & C).
  change (l_row t0) with row. change (l_table t0) with (repeat 0%Z (Z.to_nat (row * col))).
  split; [exact A|]. split.
  - split.
    + destruct B as [B|(r0 & c0 & O & [N1 N2] & B)]; [now left|]. right. exists r0, c0. rewrite B.
      split; [now apply OC|]. split; [exact N1|]. split; [exact N2|]. apply wt_weight.
    + intros r0 c0 w O N1 N2 Hww. apply OC in O.
      assert (X : w = wt (sigma step std) (r - r0) (c - c0)) by (eapply nearest_unique; [exact Hww|apply wt_weight]).
      rewrite X. apply C; [exact O|now split].
  - split.
    + intros Q. destruct B as [B|(r0 & c0 & O & _ & B)]; [lia|].
      destruct (zz_dec (r - r0, c - c0)%Z (0, 0)%Z) as [D|D].
      * injection D as D1 D2. replace r with r0 by lia. replace c with c0 by lia. now apply OC.
      * pose proof (wt_side (sigma step std) _ _ S0 S1 D). lia.
    + intros O. apply OC in O. assert (N : near step std r c r c) by (unfold near; pose proof (hf_pos _ S0); lia).
      specialize (C r c O N). rewrite !Z.sub_diag, wt_centre in C. lia.
Qed.

(** ** Scores *)
(** what [init_table] says of a table *)
Definition good (target : list P2) (step std : R) (t : lut) : Prop :=
  0 < step /\ geom target step std t /\ length (l_table t) = Z.to_nat (l_row t * l_col t) /\
  forall r c, inb (l_row t) (l_col t) r c ->
    (0 <= val (l_row t) (l_table t) r c <= 100)%Z /\
    smeared t target step std r c (val (l_row t) (l_table t) r c) /\
    (val (l_row t) (l_table t) r c = 100%Z <-> occupied t target r c).

Lemma init_good : forall target step std, 0 < step -> std * step <= 997 / 100 ->
  exists t, initGrid target step std = Ok t /\ good target step std t.
Proof.
  intros target step std Hs Hw. destruct (init_table target step std Hs Hw) as (t & E & G & L & V).
  exists t. split; [exact E|]. unfold good. auto.
Qed.

Lemma ptScore_ok : forall target step std t p, good target step std t ->
  ptScore t p = Ok (if insideBox t p then val (l_row t) (l_table t) (rowOf t (snd p)) (colOf t (fst p)) else 0%Z) /\
  (insideBox t p = true -> inb (l_row t) (l_col t) (rowOf t (snd p)) (colOf t (fst p))).
Proof.
  intros target step std t p (Hs & G & L & V). unfold ptScore.
  destruct (insideBox t p) eqn:E; [|split; [reflexivity|discriminate]].
  apply insideBox_spec in E. destruct (ptIdx_ok _ _ _ _ _ Hs G E) as [EI IB].
  rewrite EI. cbn [bind]. split; [now apply (get_cell _ (l_col t))|intros _; exact IB].
Qed.
Lemma idxScore_ok : forall target step std t i, good target step std t ->
  exists v, idxScore t i = Ok v /\ (0 <= v <= 100)%Z /\
    (inb (l_row t) (l_col t) (snd i) (fst i) -> v = val (l_row t) (l_table t) (snd i) (fst i)) /\
    (~ inb (l_row t) (l_col t) (snd i) (fst i) -> v = 0%Z).
Proof.
  intros target step std t [x y] (Hs & G & L & V). unfold idxScore, inb. cbn [fst snd].
  destruct (Z.ltb_spec x 0) as [A|A]; [exists 0%Z; cbn [orb]; repeat split; lia|].
  destruct (Z.ltb_spec y 0) as [B|B]; [exists 0%Z; cbn [orb]; repeat split; lia|].
  destruct (Z.leb_spec (l_row t) x) as [C|C]; [exists 0%Z; cbn [orb]; repeat split; lia|].
  destruct (Z.leb_spec (l_col t) y) as [D|D]; [exists 0%Z; cbn [orb]; repeat split; lia|].
  cbn [orb]. assert (I : inb (l_row t) (l_col t) y x) by (unfold inb; lia).
  exists (val (l_row t) (l_table t) y x). unfold cellIdx. split; [now apply (get_cell _ (l_col t))|].
  destruct (V y x I) as (A1 & _). split; [exact A1|]. split; [reflexivity|]. lia.
Qed.

Definition total {A} (sc : A -> res Z) (l : list A) (n : Z) : Prop :=
  foldM (fun acc p => do v <- sc p; Ok (acc + v)%Z) l 0%Z = Ok n.
Lemma sum_fold : forall A (sc : A -> res Z) (f : A -> Z) l acc, (forall p, In p l -> sc p = Ok (f p)) ->
  foldM (fun acc p => do v <- sc p; Ok (acc + v)%Z) l acc = Ok (fold_left (fun a p => (a + f p)%Z) l acc).
Proof.
  intros A sc f l. induction l as [|p l IH]; intros acc Hf; [reflexivity|].
  cbn [foldM fold_left]. rewrite (Hf p) by now left. cbn [bind]. apply IH. intros q Q. apply Hf. now right.
Qed.
Lemma sum_bound : forall A (f : A -> Z) l acc, (forall p, In p l -> (0 <= f p <= 100)%Z) ->
  (acc <= fold_left (fun a p => (a + f p)%Z) l acc <= acc + 100 * Z.of_nat (length l))%Z.
Proof.
  intros A f l. induction l as [|p l IH]; intros acc Hf; cbn [fold_left length]; [lia|].
  pose proof (Hf p (or_introl eq_refl)). specialize (IH (acc + f p)%Z (fun q Q => Hf q (or_intror Q))). lia.
Qed.

Lemma scoreOf_bound : forall A (sc : A -> res Z) t (l : list A),
  (forall p, exists v, sc p = Ok v /\ (0 <= v <= 100)%Z) ->
  exists s, scoreOf sc t l = Ok s /\ (l_points t <> 0%nat -> scoreBound (length l) (l_points t) s).
Proof.
  intros A sc t l Hsc.
  set (f := fun p => match sc p with Ok v => v | _ => 0%Z end).
  assert (F : forall p, sc p = Ok (f p) /\ (0 <= f p <= 100)%Z).
  { intros p. unfold f. destruct (Hsc p) as (v & -> & B). auto. }
  unfold scoreOf. rewrite (sum_fold _ sc f l 0%Z (fun p _ => proj1 (F p))). cbn [bind].
  eexists. split; [reflexivity|]. intros NZ.
  pose proof (sum_bound _ f l 0%Z (fun p _ => proj2 (F p))) as B. set (n := fold_left _ l 0%Z) in *.
  assert (PP : 0 < INR (l_points t)) by (apply lt_0_INR; lia).
  destruct (Nat.eqb_spec (length l) 0) as [E|E].
  - exists 0. split; [reflexivity|]. rewrite E. cbn. split; [lra|]. apply Rmult_le_pos; [lra|]. left. now apply Rinv_0_lt_compat.
  - exists (IZR n / (IZR OCCUPIED * INR (l_points t))). unfold OCCUPIED in *.
    split.
    + unfold xdiv. destruct (Req_EM_T (100 * INR (l_points t)) 0) as [Q|Q]; [exfalso; lra|reflexivity].
    + destruct B as [B1 B2]. apply IZR_le in B1. apply IZR_le in B2.
      replace (0 + 100 * Z.of_nat (length l))%Z with (100 * Z.of_nat (length l))%Z in B2 by lia.
      rewrite mult_IZR, <- INR_IZR_INZ in B2.
      assert (0 < / INR (l_points t)) by now apply Rinv_0_lt_compat. split.
      * apply Rmult_le_pos; [exact B1|]. left. apply Rinv_0_lt_compat. lra.
      * unfold Rdiv. rewrite Rinv_mult by lra.
        replace (INR (length l) * / INR (l_points t)) with (100 * INR (length l) * (/ 100 * / INR (l_points t)))
          by (field; lra).
        apply Rmult_le_compat_r; [nra|exact B2].
Qed.

Theorem scores_bounded : forall target step std t, good target step std t ->
  (forall pcl, exists s, getScorePts t pcl = Ok s /\
     (target <> [] -> scoreBound (length pcl) (length target) s)) /\
  (forall idx, exists s, getScoreIdx t idx = Ok s /\
     (target <> [] -> scoreBound (length idx) (length target) s)).
Proof.
  intros target step std t G. pose proof G as (Hs & (_ & _ & _ & _ & _ & _ & EP) & L & V).
  assert (NE : target <> [] -> l_points t <> 0%nat) by (rewrite EP; destruct target; [congruence|discriminate]).
  rewrite <- EP. split; intros l.
  - destruct (scoreOf_bound _ (ptScore t) t l) as (s & E & B); [|exists s; split; auto].
    intros p. destruct (ptScore_ok _ _ _ _ p G) as [E IB]. eexists. split; [exact E|].
    destruct (insideBox t p); [|lia]. exact (proj1 (V _ _ (IB eq_refl))).
  - destruct (scoreOf_bound _ (idxScore t) t l) as (s & E & B); [|exists s; split; auto].
    intros p. destruct (idxScore_ok _ _ _ _ p G) as (v & E & B & _). now exists v.
Qed.

(** ** Index scoring *)
(** an index shifted by the border scores like the point *)
Lemma idx_point : forall target step std t p i j, good target step std t -> strictly t p ->
  fallsInto t p (j + l_border t) (i + l_border t) -> idxScore t (i + l_border t, j + l_border t)%Z = ptScore t p.
Proof.
  intros target step std t p i j G S Fa. pose proof G as (Hs & Gm & _). pose proof Gm as (G1 & G2 & _).
  destruct (ptScore_ok _ _ _ _ p G) as [E IB]. rewrite E. pose proof S as S'. apply insideBox_spec in S'.
  rewrite S' in *. specialize (IB eq_refl).
  apply falls_iff in Fa; [|split; [now rewrite G1|now rewrite G2, G1]]. destruct Fa as [E1 E2]. rewrite E1, E2 in *.
  destruct (idxScore_ok _ _ _ _ (i + l_border t, j + l_border t)%Z G) as (v & Ev & _ & In' & _).
  rewrite Ev. f_equal. now apply In'.
Qed.
Lemma toIndexes_falls : forall target step std t p, good target step std t ->
  fallsInto t p (floorR ((- snd p + l_maxy t + l_half t) / l_step t) + l_border t)
                (floorR ((fst p - l_minx t + l_half t) / l_step t) + l_border t).
Proof.
  intros target step std t p (Hs & (G1 & G2 & _) & _).
  apply falls_iff; [split; [now rewrite G1|now rewrite G2, G1]|]. split; reflexivity.
Qed.

Lemma scoreOf_ext : forall A B (f : A -> res Z) (g : B -> res Z) t (la : list A) (lb : list B),
  Forall2 (fun a b => f a = g b) la lb -> scoreOf f t la = scoreOf g t lb.
Proof.
  intros A B f g t la lb F. unfold scoreOf.
  assert (E : forall acc, foldM (fun acc p => do v <- f p; Ok (acc + v)%Z) la acc =
                          foldM (fun acc p => do v <- g p; Ok (acc + v)%Z) lb acc).
  { clear t. induction F as [|a b la lb Hab F IH]; intros acc; [reflexivity|].
    cbn [foldM]. rewrite Hab. destruct (g b); cbn [bind]; auto. }
  assert (LL : length la = length lb) by (clear E; induction F; cbn; congruence).
  now rewrite E, LL.
Qed.

Theorem indexes_moved : forall target step std t pcl, good target step std t ->
  (forall p, In p pcl -> strictly t p) ->
  getScoreIdx t (moveIndexes (l_border t) (l_border t) (toIndexes t pcl)) = getScorePts t pcl.
Proof.
  intros target step std t pcl G S. unfold getScoreIdx, getScorePts. apply scoreOf_ext.
  unfold moveIndexes, toIndexes. rewrite map_map. cbn [fst snd].
  induction pcl as [|p pcl IH]; [constructor|]. cbn [map]. constructor.
  - apply (idx_point target step std); [exact G|apply S; now left|now apply (toIndexes_falls target step std)].
  - apply IH. intros q Q. apply S. now right.
Qed.

(** ** The statements *)
Lemma good_geom : forall target step std t, good target step std t ->
  boxOf t target /\ l_step t = step /\ nearest (2 * sigma step std) (l_border t) /\
  l_row t = (ceilR ((l_maxx t - l_minx t) / step) + 1 + 2 * l_border t)%Z /\
  l_col t = (ceilR ((l_maxy t - l_miny t) / step) + 1 + 2 * l_border t)%Z.
Proof.
  intros target step std t (_ & (G1 & G2 & G3 & G4 & G5 & G6 & G7) & _). rewrite G4 in *.
  split; [exact G3|]. split; [exact G1|]. split; [|now split]. apply lround_nearest. pose proof (sigma_half step std). lra.
Qed.
Theorem table_spec : forall target step std, 0 < step -> std * step <= 997 / 100 ->
  exists t, initGrid target step std = Ok t /\ boxOf t target /\ l_step t = step /\
    nearest (2 * sigma step std) (l_border t) /\
    (forall p, strictly t p -> exists r c, fallsInto t p r c /\ inTable t r c) /\
    forall r c, inTable t r c -> exists v, tabAt t r c = Some v /\ (0 <= v <= 100)%Z /\ smeared t target step std r c v /\
      (v = 100%Z <-> occupied t target r c).
Proof.
  intros target step std Hs Hw. destruct (init_good target step std Hs Hw) as (t & E & G).
  exists t. split; [exact E|]. destruct (good_geom _ _ _ _ G) as (A & B & C & _).
  split; [exact A|]. split; [exact B|]. split; [exact C|].
  pose proof G as (_ & GM & L & V). split.
  - intros p S. destruct (ptIdx_ok _ _ _ _ _ Hs GM S) as [_ I]. exists (rowOf t (snd p)), (colOf t (fst p)). split; [|exact I].
    apply falls_iff; [destruct GM as (G1 & G2 & _); split; [now rewrite G1|now rewrite G2, G1]|]. now split.
  - intros r c I. destruct (V r c I) as (V1 & V2 & V3). exists (val (l_row t) (l_table t) r c).
    split; [|auto]. unfold tabAt, val. apply nth_error_nth'. apply idx_range in I. lia.
Qed.
Theorem scores_spec : forall target step std t, 0 < step -> std * step <= 997 / 100 -> initGrid target step std = Ok t ->
  (forall pcl, exists s, getScorePts t pcl = Ok s /\
     (target <> [] -> scoreBound (length pcl) (length target) s)) /\
  (forall idx, exists s, getScoreIdx t idx = Ok s /\
     (target <> [] -> scoreBound (length idx) (length target) s)).
Proof.
  intros target step std t Hs Hw E. destruct (init_good target step std Hs Hw) as (t' & E' & G).
  rewrite E in E'. injection E' as <-. now apply scores_bounded with step std.
Qed.
(** one point scores its cell *)
Theorem point_cell : forall target step std t p, 0 < step -> std * step <= 997 / 100 -> initGrid target step std = Ok t ->
  target <> [] ->
  (forall r c v, strictly t p -> fallsInto t p r c -> tabAt t r c = Some v ->
     getScorePts t [p] = Ok (Fin (IZR v / (100 * INR (length target))))) /\
  (~ strictly t p -> getScorePts t [p] = Ok (Fin 0)).
Proof.
  intros target step std t p Hs Hw E NE. destruct (init_good target step std Hs Hw) as (t' & E' & G).
  rewrite E in E'. injection E' as <-. pose proof G as (_ & GM & L & V). pose proof GM as (G1 & G2 & _ & _ & _ & _ & G7).
  destruct (ptScore_ok _ _ _ _ p G) as [ES IB].
  assert (PP : 0 < INR (length target)) by (apply lt_0_INR; destruct target; [congruence|cbn; lia]).
  assert (K : forall z, ptScore t p = Ok z -> getScorePts t [p] = Ok (Fin (IZR z / (100 * INR (length target))))).
  { intros z Q. unfold getScorePts, scoreOf. cbn [foldM]. rewrite Q. cbn [bind length Nat.eqb]. rewrite G7. unfold xdiv, OCCUPIED.
    destruct (Req_EM_T (100 * INR (length target)) 0); [exfalso; lra|]. now rewrite Z.add_0_l. }
  split.
  - intros r c v S Fa T. apply K. rewrite ES. pose proof S as S'. apply insideBox_spec in S'. rewrite S' in *.
    apply falls_iff in Fa; [|split; [now rewrite G1|now rewrite G2, G1]]. destruct Fa as [-> ->]. f_equal.
    unfold val. unfold tabAt in T. now apply nth_error_nth.
  - intros N. assert (I : insideBox t p = false).
    { destruct (insideBox t p) eqn:I; [|reflexivity]. apply insideBox_spec in I. contradiction. }
    rewrite I in ES. rewrite (K _ ES). f_equal. f_equal. unfold Rdiv. ring.
Qed.
