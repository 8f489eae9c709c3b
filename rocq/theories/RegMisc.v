(** Proofs about the settings and the robust registration. *)
From Coq Require Import Reals ZArith List Bool Lra Lia.
From Verif Require Import Base LinAlg3 GeoModel OptModel RegModel RegSpec.
Import ListNotations.
Open Scope R_scope.

(** ** The pyramid *)
Definition sizesOf (n : nat) (cell : R) : list R := map (fun i => cell * 2 ^ i) (rev (seq 0 n)).
Lemma sizes_length n cell : length (sizesOf n cell) = n.
Proof. unfold sizesOf. rewrite map_length, rev_length, seq_length. reflexivity. Qed.
Lemma rev_seq_nth n i : (i < n)%nat -> nth_error (rev (seq 0 n)) i = Some (n - 1 - i)%nat.
Proof.
  revert i. induction n as [|n IH]; intros i H; [lia|].
  rewrite seq_S, rev_app_distr. cbn [rev app Nat.add]. destruct i as [|i].
  - cbn. f_equal. lia.
  - cbn [nth_error]. rewrite IH by lia. f_equal. lia.
Qed.
Lemma sizes_pyramid n cell : pyramid n cell (sizesOf n cell).
Proof.
  split; [apply sizes_length|]. intros i H. unfold sizesOf.
  rewrite nth_error_map, rev_seq_nth by exact H. reflexivity.
Qed.
Lemma sizes_back n cell : (1 <= n)%nat -> vback (sizesOf n cell) = Ok cell.
Proof.
  intro H. unfold vback. apply vget_ok. rewrite sizes_length.
  destruct (sizes_pyramid n cell) as (_ & P). rewrite P by lia.
  replace (n - 1 - (n - 1))%nat with 0%nat by lia. cbn. f_equal. ring.
Qed.

Definition fitOf (ratio : R) (sizes : list R) : list fparams := map (fun s => calcParams ratio (1 / s)) sizes.
Definition goodCfg (n : nat) (cell ratio : R) : regcfg :=
  mkCfg n (sizesOf n cell) ratio (fitOf ratio (sizesOf n cell)).

Lemma init_good n n' cell ratio ps base : (1 <= n)%nat -> (1 <= n')%nat ->
  exists b, initCellSizes (mkCfg n' (sizesOf n cell) ratio ps) base =
    Ok (mkCfg n' (sizesOf n' base) ratio ps, b) /\ (b = false -> n = n' /\ cell = base).
Proof.
  intros H H'. unfold initCellSizes. cbn [cf_sizes cf_layers cf_ratio cf_params].
  rewrite sizes_length, sizes_back by exact H. destruct (Nat.eqb_spec n 0) as [Z|_]; [lia|].
  cbn [bind]. destruct (Req_EM_T cell base) as [-> |D]; cbn [andb].
  - destruct (Nat.eqb_spec n n') as [-> |D].
    + exists false. auto.
    + exists true. split; [reflexivity|discriminate].
  - exists true. split; [reflexivity|discriminate].
Qed.
Lemma step_good n cell ratio o : (1 <= n)%nat ->
  match o with SetLayers m => (1 <= m)%nat | _ => True end ->
  cfgstep (goodCfg n cell ratio) o =
  Ok (goodCfg (match o with SetLayers m => m | _ => n end)
              (match o with SetCell s => s | _ => cell end)
              (match o with SetRatio s => s | _ => ratio end)).
Proof.
  intros H HO. destruct o as [m|s|r|]; unfold cfgstep.
  - unfold setNumLayers, goodCfg at 1. cbn [cf_sizes]. rewrite sizes_back by exact H. cbn [bind].
    destruct (init_good n m cell ratio (cf_params (goodCfg n cell ratio)) cell H HO) as (b & E & _).
    unfold goodCfg at 1 2. cbn [cf_sizes cf_ratio]. rewrite E. reflexivity.
  - unfold setCellSize, goodCfg at 1.
    destruct (init_good n n cell ratio (fitOf ratio (sizesOf n cell)) s H H) as (b & E & B).
    rewrite E. cbn [bind fst snd]. destruct b; [reflexivity|].
    destruct (B eq_refl) as (_ & ->). reflexivity.
  - reflexivity.
  - unfold getCellSize, goodCfg at 1. cbn [cf_sizes]. rewrite sizes_back by exact H. reflexivity.
Qed.
Lemma new_good ratio : newReg ratio = Ok (goodCfg 4 (1 / 4) ratio).
Proof. reflexivity. Qed.

Theorem settings r ops :
  Forall (fun o => match o with SetLayers m => (1 <= m)%nat | _ => True end) ops ->
  exists c, (do c <- newReg r; foldM cfgstep ops c) = Ok c /\
    cf_layers c = asked_layers ops /\
    pyramid (asked_layers ops) (asked_cell ops) (cf_sizes c) /\
    getCellSize c = Ok (asked_cell ops) /\
    cf_params c = map (fun s => calcParams (asked_ratio r ops) (1 / s)) (cf_sizes c).
Proof.
  intro H. rewrite new_good. cbn [bind].
  assert (X : forall n cell ratio, (1 <= n)%nat ->
     foldM cfgstep ops (goodCfg n cell ratio) =
     Ok (goodCfg (fold_left (fun n o => match o with SetLayers m => m | _ => n end) ops n)
                 (fold_left (fun c o => match o with SetCell s => s | _ => c end) ops cell)
                 (fold_left (fun c o => match o with SetRatio s => s | _ => c end) ops ratio)) /\
     (1 <= fold_left (fun n o => match o with SetLayers m => m | _ => n end) ops n)%nat).
  { induction ops as [|o ops IH]; intros n cell ratio N; [split; [reflexivity|exact N]|].
    inversion H as [|? ? H1 H2]; subst. cbn [foldM fold_left]. rewrite step_good by assumption. cbn [bind].
    apply IH; [exact H2|]. destruct o; assumption. }
  destruct (X 4%nat (1 / 4) r ltac:(lia)) as (E & N). rewrite E.
  eexists. split; [reflexivity|]. unfold goodCfg. cbn [cf_layers cf_sizes cf_params].
  split; [reflexivity|]. split; [apply sizes_pyramid|]. split; [|reflexivity].
  unfold getCellSize. cbn [cf_sizes]. apply sizes_back. exact N.
Qed.

(** ** The robust registration *)
Theorem robust_accept d2d corr proof limit guess r : limit <= 6 / 10 ->
  robustAlign d2d corr proof limit guess = Ok r -> rb_conv r = true ->
  limit <= rb_quality r /\ rb_quality r = proof (rb_final r) /\
  (rb_final r = snd (d2d guess) \/ (fst (corr guess) = true /\ fst (d2d (snd (corr guess))) = true /\
                                    rb_final r = snd (d2d (snd (corr guess))))).
Proof.
  intros L. unfold robustAlign. cbv zeta.
  destruct (fst (d2d guess)) eqn:C1; cbn [andb].
  - destruct (Rlt_dec (7 / 10) _) as [G|G].
    + destruct (Rlt_dec _ limit) as [B|B]; [lra|]. intros [= <-] _. cbn. repeat split; auto; lra.
    + destruct (fst (corr guess)) eqn:C2; cbn [negb].
      2:{ intros [= <-] D. discriminate D. }
      destruct (fst (d2d (snd (corr guess)))) eqn:C3; cbn [negb].
      2:{ intros [= <-] D. discriminate D. }
      destruct (Rlt_dec _ limit) as [B|B].
      * destruct (Rlt_dec (6 / 10) _) as [B2|B2].
        -- intros [= <-] _. cbn. repeat split; auto; lra.
        -- intros [= <-] D. discriminate D.
      * intros [= <-] _. cbn. repeat split; auto; lra.
  - destruct (fst (corr guess)) eqn:C2; cbn [negb].
    2:{ intros [= <-] D. discriminate D. }
    destruct (fst (d2d (snd (corr guess)))) eqn:C3; cbn [negb].
    2:{ intros [= <-] D. discriminate D. }
    destruct (Rlt_dec _ limit) as [B|B].
    * destruct (Rlt_dec (6 / 10) _) as [B2|B2].
      -- intros [= <-] _. cbn. repeat split; auto; lra.
      -- intros [= <-] D. discriminate D.
    * intros [= <-] _. cbn. repeat split; auto; lra.
Qed.
Theorem robust_defined d2d corr proof limit guess : limit <= 7 / 10 ->
  exists r, robustAlign d2d corr proof limit guess = Ok r.
Proof.
  intros L. unfold robustAlign. cbv zeta.
  destruct (fst (d2d guess) && _) eqn:C1.
  - apply andb_prop in C1. destruct C1 as (_ & C1). destruct (Rlt_dec (7 / 10) _) as [G|G]; [|discriminate].
    destruct (Rlt_dec _ limit) as [B|B]; [lra|]. eexists; reflexivity.
  - destruct (fst (corr guess)); cbn [negb]; [|eexists; reflexivity].
    destruct (fst (d2d (snd (corr guess)))); cbn [negb]; [|eexists; reflexivity].
    destruct (Rlt_dec _ limit); [destruct (Rlt_dec (6 / 10) _)|]; eexists; reflexivity.
Qed.
(** a good first result is kept; a bad one is replaced by the result of the
    second try if that is good enough *)
Theorem robust_first d2d corr proof limit guess : limit <= 7 / 10 ->
  fst (d2d guess) = true -> 7 / 10 < proof (snd (d2d guess)) ->
  robustAlign d2d corr proof limit guess = Ok (mkRob true (snd (d2d guess)) (proof (snd (d2d guess)))).
Proof.
  intros L C G. unfold robustAlign. cbv zeta. rewrite C. cbn [andb].
  destruct (Rlt_dec (7 / 10) _) as [_|B]; [|contradiction].
  destruct (Rlt_dec _ limit) as [B|B]; [lra|]. reflexivity.
Qed.
Theorem robust_second d2d corr proof limit guess :
  ~ (fst (d2d guess) = true /\ 7 / 10 < proof (snd (d2d guess))) ->
  fst (corr guess) = true -> fst (d2d (snd (corr guess))) = true ->
  limit <= proof (snd (d2d (snd (corr guess)))) ->
  robustAlign d2d corr proof limit guess =
  Ok (mkRob true (snd (d2d (snd (corr guess)))) (proof (snd (d2d (snd (corr guess)))))).
Proof.
  intros N C2 C3 G. unfold robustAlign. cbv zeta.
  replace (fst (d2d guess) && _) with false.
  - rewrite C2. cbn [negb]. rewrite C3. cbn [negb].
    destruct (Rlt_dec _ limit) as [B|B]; [lra|]. reflexivity.
  - symmetry. destruct (fst (d2d guess)); [|reflexivity]. cbn [andb].
    destruct (Rlt_dec _ _); [|reflexivity]. exfalso. apply N. auto.
Qed.
(** nothing acceptable anywhere: failure *)
Theorem robust_reject d2d corr proof limit guess : limit <= 6 / 10 ->
  proof (snd (d2d guess)) < limit ->
  (fst (corr guess) = true -> fst (d2d (snd (corr guess))) = true ->
   proof (snd (d2d (snd (corr guess)))) < limit) ->
  exists r, robustAlign d2d corr proof limit guess = Ok r /\ rb_conv r = false.
Proof.
  intros L P1 P2. destruct (robust_defined d2d corr proof limit guess ltac:(lra)) as (r & E).
  exists r. split; [exact E|]. destruct (rb_conv r) eqn:C; [|reflexivity]. exfalso.
  destruct (robust_accept _ _ _ _ _ _ L E C) as (A & B & [D|(D1 & D2 & D)]).
  - rewrite B, D in A. lra.
  - specialize (P2 D1 D2). rewrite B, D in A. lra.
Qed.
Theorem limit_setter l : (0 < l < 1 -> setRejectionLimit l = Ok l) /\
  (~ 0 < l < 1 -> setRejectionLimit l = Throw).
Proof.
  unfold setRejectionLimit. split; intro H; destruct (Rlt_dec l 1), (Rlt_dec 0 l); auto; try lra.
Qed.
