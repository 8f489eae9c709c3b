(** Building the lookup table. *)
From Coq Require Import Reals ZArith List Bool Lia Lra Psatz.
From Verif Require Import Base LinAlg3 GeoModel OptModel RegModel CorrModel CorrSpec CorrTable.
Import ListNotations.
Open Scope R_scope.

Definition val (W : Z) (tab : list Z) (r c : Z) : Z := nth (Z.to_nat (r * W + c)) tab 0%Z.
Definition inb (W H r c : Z) : Prop := (0 <= r < H /\ 0 <= c < W)%Z.

Lemma idx_range : forall W H r c, inb W H r c -> (0 <= r * W + c < W * H)%Z.
Proof. unfold inb. intros. nia. Qed.
Lemma idx_inj : forall W H r c r' c', inb W H r c -> inb W H r' c' ->
  (r * W + c = r' * W + c')%Z -> r = r' /\ c = c'.
Proof.
  unfold inb. intros W H r c r' c' A B E.
  assert (r = r') by nia. subst. lia.
Qed.

Definition zz_dec : forall a b : Z * Z, {a = b} + {a <> b}.
Proof. decide equality; apply Z.eq_dec. Defined.

Section Cells.
Context (W H : Z) (tab : list Z).
Hypothesis LEN : length tab = Z.to_nat (W * H).
Lemma get_cell : forall r c, inb W H r c -> zget tab (r * W + c) = Ok (val W tab r c).
Proof using LEN.
  intros r c I. apply idx_range in I. apply zget_ok; [lia|]. apply nth_error_nth'. lia.
Qed.
Lemma set_cell : forall r c v, inb W H r c -> exists tab',
  zset tab (r * W + c) v = Ok tab' /\ length tab' = length tab /\
  forall r' c', inb W H r' c' -> val W tab' r' c' = if (r' =? r)%Z && (c' =? c)%Z then v else val W tab r' c'.
Proof using LEN.
  intros r c v I. pose proof (idx_range _ _ _ _ I) as J.
  exists (upd tab (Z.to_nat (r * W + c)) v). unfold zset.
  destruct (Z.ltb_spec (r * W + c) 0); [lia|]. rewrite vset_ok by lia. repeat split; [apply length_upd|].
  intros r' c' I'. pose proof (idx_range _ _ _ _ I') as J'. unfold val.
  assert (L' : (Z.to_nat (r' * W + c') < length (upd tab (Z.to_nat (r * W + c)) v))%nat) by (rewrite length_upd; lia).
  assert (E : Some (nth (Z.to_nat (r' * W + c')) (upd tab (Z.to_nat (r * W + c)) v) 0%Z) =
              Some (if (r' =? r)%Z && (c' =? c)%Z then v else nth (Z.to_nat (r' * W + c')) tab 0%Z)).
  { rewrite <- nth_error_nth' by exact L'.
    destruct ((r' =? r)%Z && (c' =? c)%Z) eqn:E.
    - apply andb_true_iff in E. destruct E as [E1 E2]. apply Z.eqb_eq in E1. apply Z.eqb_eq in E2. subst r' c'.
      rewrite nth_error_upd. destruct (Nat.eqb_spec (Z.to_nat (r * W + c)) (Z.to_nat (r * W + c))); [|lia].
      destruct (Nat.ltb_spec (Z.to_nat (r * W + c)) (length tab)); [reflexivity|lia].
    - rewrite nth_error_upd. destruct (Nat.eqb_spec (Z.to_nat (r' * W + c')) (Z.to_nat (r * W + c))) as [Q|Q].
      + exfalso. assert (D : r' = r /\ c' = c) by (apply (idx_inj W H); auto; lia).
        destruct D as [-> ->]. rewrite !Z.eqb_refl in E. discriminate.
      + apply nth_error_nth'. lia. }
  now injection E.
Qed.
End Cells.

(** ** One kernel *)
Section Build.
Context (step std : R) (W H : Z).
Hypothesis HS : 0 < step.
Notation s := (sigma step std).
Notation h := (hf (sigma step std)).
Notation k := (initKernel (1 / step) OCCUPIED std).

Definition near (r c r0 c0 : Z) : Prop := (Z.abs (r - r0) <= h /\ Z.abs (c - c0) <= h)%Z.

Definition kstep (t : lut) (row col : Z) (tab : list Z) (rc : Z * Z) : res (list Z) :=
  let idx := cellIdx t (row + fst rc) (col + snd rc) in
  do kernel_val <- kAt k (fst rc) (snd rc);
  do old <- zget tab idx;
  if (old <? kernel_val)%Z then zset tab idx kernel_val else Ok tab.

Lemma kstep_fold : forall t row col L tab,
  l_row t = W -> length tab = Z.to_nat (W * H) ->
  (forall r c, In (r, c) L -> (- h <= r <= h)%Z /\ (- h <= c <= h)%Z /\ inb W H (row + r) (col + c)) ->
  exists tab', foldM (kstep t row col) L tab = Ok tab' /\ length tab' = length tab /\
    forall r c, inb W H r c ->
      (In (r - row, c - col)%Z L -> val W tab' r c = Z.max (val W tab r c) (wt s (r - row) (c - col))) /\
      (~ In (r - row, c - col)%Z L -> val W tab' r c = val W tab r c).
Proof using HS.
  intros t row col L. induction L as [|[r0 c0] L IH]; intros tab EW LEN HL.
  - exists tab. cbn. repeat split; tauto.
  - destruct (HL r0 c0 (or_introl eq_refl)) as (A & B & I).
    cbn [foldM]. unfold kstep at 1. cbn [fst snd].
    rewrite (kernel_at step std r0 c0 HS A B). cbn [bind]. unfold cellIdx. rewrite EW.
    rewrite (get_cell W H tab LEN _ _ I). cbn [bind].
    set (w := wt s r0 c0).
    assert (X : exists tab1, (if (val W tab (row + r0) (col + c0) <? w)%Z
        then zset tab ((row + r0) * W + (col + c0)) w else Ok tab) = Ok tab1 /\ length tab1 = length tab /\
        forall r c, inb W H r c -> val W tab1 r c =
          if (r =? row + r0)%Z && (c =? col + c0)%Z then Z.max (val W tab r c) w else val W tab r c).
    { destruct (Z.ltb_spec (val W tab (row + r0) (col + c0)) w) as [Q|Q].
      - destruct (set_cell W H tab LEN _ _ w I) as (tab1 & E & L1 & V). exists tab1. repeat split; auto.
        intros r c J. rewrite V by exact J.
        destruct (Z.eqb_spec r (row + r0)) as [-> |]; [|reflexivity].
        destruct (Z.eqb_spec c (col + c0)) as [-> |]; [|reflexivity]. cbn. lia.
      - exists tab. repeat split; auto. intros r c J.
        destruct (Z.eqb_spec r (row + r0)) as [-> |]; [|reflexivity].
        destruct (Z.eqb_spec c (col + c0)) as [-> |]; [|reflexivity]. cbn. lia. }
    destruct X as (tab1 & E1 & L1 & V1). rewrite E1. cbn [bind].
    destruct (IH tab1 EW ltac:(congruence) (fun r c Q => HL r c (or_intror Q))) as (tab' & E & L' & V).
    exists tab'. split; [exact E|]. split; [congruence|].
    intros r c J. destruct (V r c J) as [VI VN]. specialize (V1 r c J).
    destruct (Z.eqb_spec r (row + r0)) as [R|R]; [destruct (Z.eqb_spec c (col + c0)) as [C|C]|]; cbn in V1.
    + assert (W0 : w = wt s (r - row) (c - col)) by (unfold w; f_equal; lia).
      split; [|intros N; elim N; left; f_equal; lia].
      intros _. destruct (in_dec zz_dec (r - row, c - col)%Z L) as [D|D].
      * rewrite (VI D), V1. lia.
      * rewrite (VN D), V1. lia.
    + split; [intros [Q|Q]; [injection Q; intros; lia|]|intros N]; [rewrite VI by exact Q|rewrite VN by (intros Q; apply N; now right)]; now rewrite V1.
    + split; [intros [Q|Q]; [injection Q; intros; lia|]|intros N]; [rewrite VI by exact Q|rewrite VN by (intros Q; apply N; now right)]; now rewrite V1.
Qed.

Lemma applyKernel_ok : forall t row col,
  l_row t = W -> length (l_table t) = Z.to_nat (W * H) ->
  (h <= row < H - h)%Z -> (h <= col < W - h)%Z ->
  exists tab', applyKernel k t row col = Ok (withTable t tab') /\ length tab' = length (l_table t) /\
    forall r c, inb W H r c ->
      (near r c row col -> val W tab' r c = Z.max (val W (l_table t) r c) (wt s (r - row) (c - col))) /\
      (~ near r c row col -> val W tab' r c = val W (l_table t) r c).
Proof using HS.
  intros t row col EW LEN HR HC.
  pose proof (kernel_half step std HS) as K.
  destruct (kstep_fold t row col (list_prod (zrange (- h) h) (zrange (- h) h)) (l_table t) EW LEN)
    as (tab' & E & L & V).
  { intros r c I. apply in_prod_iff in I. rewrite !zrange_in in I. unfold inb. lia. }
  exists tab'. split; [|split; [exact L|]].
  - unfold applyKernel. rewrite K. fold (kstep t row col). rewrite E. reflexivity.
  - intros r c J. destruct (V r c J) as [VI VN].
    assert (Q : In (r - row, c - col)%Z (list_prod (zrange (- h) h) (zrange (- h) h)) <-> near r c row col)
      by (rewrite in_prod_iff, !zrange_in; unfold near; lia).
    split; intros N; [apply VI|apply VN]; tauto.
Qed.

(** ** The scan *)
Section Scan.
Context (tab0 : list Z).
Hypothesis SIDE : forall r c, (r, c) <> (0, 0)%Z -> (wt s r c < 100)%Z.
Definition occ (r c : Z) : Prop := inb W H r c /\ val W tab0 r c = 100%Z.
Hypothesis LEN0 : length tab0 = Z.to_nat (W * H).
Hypothesis BIN : forall r c, inb W H r c -> val W tab0 r c = 0%Z \/ val W tab0 r c = 100%Z.
Hypothesis OCC : forall r c, occ r c -> (h <= r < H - h)%Z /\ (h <= c < W - h)%Z.

Definition smInv (P : list (Z * Z)) (tab : list Z) : Prop :=
  length tab = Z.to_nat (W * H) /\
  forall r c, inb W H r c ->
    (val W tab r c = val W tab0 r c \/
     exists r0 c0, In (r0, c0) P /\ occ r0 c0 /\ near r c r0 c0 /\ val W tab r c = wt s (r - r0) (c - c0)) /\
    (val W tab0 r c <= val W tab r c)%Z /\
    (forall r0 c0, In (r0, c0) P -> occ r0 c0 -> near r c r0 c0 -> (wt s (r - r0) (c - c0) <= val W tab r c)%Z).

Lemma smInv_100 : forall P tab r c, smInv P tab -> inb W H r c ->
  (val W tab r c <= 100)%Z /\ (val W tab r c = 100%Z <-> occ r c).
Proof using LEN0 BIN OCC SIDE.
  intros P tab r c [L I] J. destruct (I r c J) as (A & B & C).
  pose proof (sigma_half step std) as SH.
  destruct (BIN r c J) as [Z0|Z0].
  - destruct A as [A|(r0 & c0 & IP & O & N & A)].
    + split; [lia|]. split; [lia|]. intros [_ Q]. lia.
    + pose proof (wt_range s (r - r0) (c - c0) SH). split; [lia|]. split.
      * intros Q. destruct (zz_dec (r - r0, c - c0)%Z (0, 0)%Z) as [D|D].
        -- injection D as D1 D2. assert (r0 = r) by lia. assert (c0 = c) by lia. now subst.
        -- pose proof (SIDE _ _ D). lia.
      * intros [_ Q]. lia.
  - split; [|split; intros _; [split; [exact J|exact Z0]|]].
    + destruct A as [A|(r0 & c0 & IP & O & N & A)]; [lia|].
      pose proof (wt_range s (r - r0) (c - c0) SH). lia.
    + destruct A as [A|(r0 & c0 & IP & O & N & A)]; [lia|].
      pose proof (wt_range s (r - r0) (c - c0) SH). lia.
Qed.

Definition sstep (t : lut) (rc : Z * Z) : res lut :=
  do v <- zget (l_table t) (cellIdx t (fst rc) (snd rc));
  if (v =? OCCUPIED)%Z then applyKernel k t (fst rc) (snd rc) else Ok t.

Lemma scan_fold : forall L P t, l_row t = W -> smInv P (l_table t) ->
  (forall r c, In (r, c) L -> inb W H r c) ->
  exists tab', foldM sstep L t = Ok (withTable t tab') /\ smInv (P ++ L) tab'.
Proof using HS LEN0 BIN OCC SIDE.
  induction L as [|[r0 c0] L IH]; intros P t EW I HL.
  - exists (l_table t). rewrite app_nil_r. split; [|exact I]. destruct t; reflexivity.
  - assert (J : inb W H r0 c0) by (apply HL; now left).
    destruct (smInv_100 P (l_table t) r0 c0 I J) as [LE IFF].
    destruct I as [LN I].
    cbn [foldM]. unfold sstep at 1. cbn [fst snd]. unfold cellIdx. rewrite EW.
    rewrite (get_cell W H (l_table t) LN _ _ J). cbn [bind].
    destruct (Z.eqb_spec (val W (l_table t) r0 c0) OCCUPIED) as [Q|Q].
    + apply IFF in Q. destruct (OCC r0 c0 Q) as [HR HC].
      destruct (applyKernel_ok t r0 c0 EW LN HR HC) as (tab1 & E1 & L1 & V1). rewrite E1. cbn [bind].
      destruct (IH (P ++ [(r0, c0)]) (withTable t tab1)) as (tab' & E & S').
      * exact EW.
      * split; [cbn; congruence|]. intros r c K. cbn [l_table withTable].
        destruct (V1 r c K) as [VN VF]. destruct (I r c K) as (A & B & C).
        assert (DN : near r c r0 c0 \/ ~ near r c r0 c0) by (unfold near; lia).
        destruct DN as [DN|DN]; [rewrite (VN DN)|rewrite (VF DN)].
        -- split; [|split].
           ++ destruct (Z.max_spec (val W (l_table t) r c) (wt s (r - r0) (c - c0))) as [[_ ->]|[_ ->]].
              ** right. exists r0, c0. repeat split; auto; try apply DN; try apply Q. apply in_or_app. right. now left.
              ** destruct A as [A|(r1 & c1 & IP & A)]; [now left|]. right. exists r1, c1.
                 split; [apply in_or_app; now left|exact A].
           ++ lia.
           ++ intros r1 c1 IP O N. apply in_app_or in IP. destruct IP as [IP|[IP|[]]].
              ** specialize (C r1 c1 IP O N). lia.
              ** injection IP as <- <-. lia.
        -- split; [|split].
           ++ destruct A as [A|(r1 & c1 & IP & A)]; [now left|]. right. exists r1, c1.
              split; [apply in_or_app; now left|exact A].
           ++ lia.
           ++ intros r1 c1 IP O N. apply in_app_or in IP. destruct IP as [IP|[IP|[]]].
              ** exact (C r1 c1 IP O N).
              ** injection IP as <- <-. contradiction.
      * intros r c K. apply HL. now right.
      * exists tab'. rewrite <- app_assoc in S'. cbn in S'. split; [exact E|exact S'].
    + destruct (IH (P ++ [(r0, c0)]) t EW) as (tab' & E & S').
      * split; [exact LN|]. intros r c K. destruct (I r c K) as (A & B & C). split; [|split; [exact B|]].
        -- destruct A as [A|(r1 & c1 & IP & A)]; [now left|]. right. exists r1, c1.
           split; [apply in_or_app; now left|exact A].
        -- intros r1 c1 IP O N. apply in_app_or in IP. destruct IP as [IP|[IP|[]]]; [exact (C r1 c1 IP O N)|].
           injection IP as <- <-. elim Q. now apply IFF.
      * intros r c K. apply HL. now right.
      * exists tab'. rewrite <- app_assoc in S'. cbn in S'. split; [exact E|exact S'].
Qed.

Lemma smooth_ok : forall t, l_row t = W -> l_col t = H -> l_table t = tab0 ->
  exists tab', smooth k t = Ok (withTable t tab') /\ length tab' = Z.to_nat (W * H) /\
    forall r c, inb W H r c -> (0 <= val W tab' r c <= 100)%Z /\
      (val W tab' r c = 0%Z \/
       exists r0 c0, occ r0 c0 /\ near r c r0 c0 /\ val W tab' r c = wt s (r - r0) (c - c0)) /\
      (forall r0 c0, occ r0 c0 -> near r c r0 c0 -> (wt s (r - r0) (c - c0) <= val W tab' r c)%Z).
Proof using HS LEN0 BIN OCC SIDE.
  intros t EW EH ET.
  destruct (scan_fold (list_prod (zrange 1 (H - 2)) (zrange 1 (W - 2))) [] t EW) as (tab' & E & S').
  - rewrite ET. split; [exact LEN0|]. intros r c J. split; [now left|]. split; [lia|]. intros r0 c0 [].
  - intros r c I. apply in_prod_iff in I. rewrite !zrange_in in I. unfold inb. lia.
  - cbn [app] in S'. exists tab'. split; [|split; [exact (proj1 S')|]].
    + unfold smooth. rewrite EW, EH. exact E.
    + intros r c J. destruct (smInv_100 _ _ r c S' J) as [LE _]. destruct S' as [_ S'].
      pose proof (sigma_half step std) as SH. pose proof (hf_pos s SH) as HP.
      destruct (S' r c J) as (A & B & C). split; [|split].
      * split; [|exact LE]. destruct (BIN r c J); lia.
      * destruct A as [A|(r0 & c0 & _ & A)]; [|right; exists r0, c0; exact A].
        destruct (BIN r c J) as [Z0|Z0]; [left; lia|]. right. exists r, c. split; [split; assumption|].
        split; [unfold near; lia|]. rewrite A, Z0, !Z.sub_diag. symmetry. apply wt_centre.
      * intros r0 c0 O N. apply C; auto. pose proof (OCC r0 c0 O). apply in_prod_iff.
        rewrite !zrange_in. lia.
Qed.
End Scan.
End Build.
