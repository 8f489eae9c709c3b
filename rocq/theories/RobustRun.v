(** Proofs about whole histories with robust constraints. *)
From Coq Require Import Reals ZArith List Bool Arith Lia Lra.
From Verif Require Import Base LinAlg3 GeoModel GeoSpec GraphModel GraphSpec GraphProofs LoopModel
  SlamModel SlamSpec SlamProofs OptModel OptSpec OptProofs RobustModel RobustSpec RobustProofs.
Import ListNotations.
Open Scope nat_scope.

Section R.
Context {Obj Guess D : Type}.
Notation slam := (slam pose Obj M3).
Notation senv := (senv pose Obj M3 Guess D).
Notation sop := (sop pose Obj M3 D).
Notation sev := (sev pose Obj M3).
Notation robust := (robust Obj).
Notation rop := (rop Obj D).
Implicit Types (env : senv) (s : slam) (r : robust) (l : list rop).

Definition goodSw (x : nat * switch) : Prop := sw_x (snd x) = sw_est (snd x) /\ in01 (sw_x (snd x)).
Definition swform env (k : nat) (q : option nat * option nat * pose * M3) :=
  let '(f, g, tr, i) := q in (k, f, g, se2 env tr, i).

Record RI env one l r log : Prop := {
  ri_run : srun env (erase l) = Ok (relabel (r_slam r), log);
  ri_pid : map v_id (s_verts (r_slam r)) = places true 0 (arrivals l);
  ri_sid : map fst (r_sw r) = places false 0 (arrivals l);
  ri_vseq : s_vseq (r_slam r) = length (arrivals l);
  ri_lt : forall k, In k (edge_ids r) -> k < s_eseq (r_slam r);
  ri_nd : NoDup (edge_ids r);
  ri_sw : Forall goodSw (r_sw r);
  ri_pr : map (fun p => (pr_v p, pr_meas p, pr_info p)) (r_prior r) =
          map (fun k => (k, 1%R, one)) (seq 0 (length (r_sw r)));
  ri_se : map (fun e => (sg_sw e, sg_from e, sg_to e, sg_meas e, sg_info e)) (r_swedges r) =
          imap (swform env) 0 (switch_requests 0 l);
  ri_sl : length (r_sw r) = length (switch_requests 0 l);
  ri_mix : wellposed 0 l -> Forall2 (settledQ env (r_slam r)) (mixture_requests l) (r_mix r) }.

Lemma RI_init env one : RI env one [] robust_init [].
Proof.
  split; cbn; auto; try constructor. intros k [].
Qed.

Lemma ri_poses env one l r log : RI env one l r log ->
  length (s_verts (r_slam r)) = length (places true 0 (arrivals l)) /\
  SI env (relabel (r_slam r)) /\
  forall k, map_get (s_map (r_slam r)) k = known (length (places true 0 (arrivals l))) k.
Proof.
  intro I. pose proof (srun_ok env _ _ _ (ri_run _ _ _ _ _ I)) as [S _].
  assert (L : length (s_verts (r_slam r)) = length (places true 0 (arrivals l))).
  { rewrite <- (ri_pid _ _ _ _ _ I), map_length. reflexivity. }
  split; [exact L|]. split; [exact S|]. intro k.
  pose proof (si_map _ _ S) as M. pose proof (si_vlen _ _ S) as V. cbn [relabel s_map s_graph s_verts] in M, V.
  rewrite imap_length in V. rewrite M, <- V, L, map_get_id. unfold known. cbn [Nat.leb andb Nat.add]. reflexivity.
Qed.

(** adding one operation *)
Lemma seq_lt_in n k : forall m, In k (seq m n) -> m <= k < m + n.
Proof. intros m H. apply in_seq in H. exact H. Qed.
Lemma nodup_mid {A} (a b c : list A) : NoDup (a ++ c) -> NoDup b ->
  (forall x, In x b -> ~ In x (a ++ c)) -> NoDup (a ++ b ++ c).
Proof.
  intros N Nb X. induction a as [|y a IH]; cbn [app] in *.
  - induction b as [|z b IHb]; cbn [app]; [exact N|]. inversion Nb; subst. constructor.
    + rewrite in_app_iff. intros [H|H]; [auto|]. apply (X z); [left; auto|exact H].
    + apply IHb; auto. intros x Hx. apply X. right; auto.
  - inversion N; subst. constructor.
    + rewrite !in_app_iff in *. intros [H|[H|H]]; try tauto. apply (X y); [exact H|left; auto].
    + apply IH; auto. intros x Hx Hn. apply (X x Hx). right. exact Hn.
Qed.

Lemma new_edges (ids a b c : list nat) (n k : nat) : (forall x, In x (a ++ b) -> x < n) -> NoDup (a ++ b) ->
  c = seq n k -> (forall x, In x (a ++ c ++ b) -> x < n + k) /\ NoDup (a ++ c ++ b).
Proof.
  intros L N ->. split.
  - intros x H. rewrite !in_app_iff in H. specialize (L x). rewrite in_app_iff in L.
    destruct H as [H|[H|H]]; [specialize (L (or_introl H)); lia|apply in_seq in H; lia|specialize (L (or_intror H)); lia].
  - apply nodup_mid; [exact N|apply seq_NoDup|]. intros x H G. apply in_seq in H. apply L in G. lia.
Qed.

(** the unchanged parts, for steps of the plain object *)
Definition sop_of (o : rop) : option sop :=
  match o with
  | RAddPose p x => Some (SAddPose p x)
  | RAddConstr a f t tr i => Some (SAddConstr a f t tr i)
  | RAddLast a tr i => Some (SAddLast a tr i)
  | RLoop id ch fr => Some (SLoop id ch fr)
  | RLoopLast ch fr => Some (SLoopLast ch fr)
  | _ => None
  end.
Lemma sop_plain (o : rop) x : sop_of o = Some x -> plain x = true /\ erase1 o = [x] /\
  length (arrivals [o]) = new_poses x /\ places true 0 (arrivals [o]) = seq 0 (new_poses x) /\
  arrivals [o] = repeat true (new_poses x) /\
  (forall n, switch_requests n [o] = []) /\ mixture_requests [o] = [] /\
  (forall n, wellposed n [o]) /\
  forall env one r, rstep env one r o = (do y <- sstep env (r_slam r) x; Ok (on_slam r (fst y), [snd y])).
Proof. destruct o; intro H; try discriminate H; injection H as <-; cbn; repeat split; auto. Qed.

Lemma places_true n k : places true n (repeat true k) = seq n k.
Proof. revert n. induction k as [|k IH]; intro n; cbn; [reflexivity|]. rewrite IH. reflexivity. Qed.
Lemma places_false n k : places false n (repeat true k) = [].
Proof. revert n. induction k as [|k IH]; intro n; cbn; auto. Qed.

Lemma srun_snoc env l (o : rop) s log : srun env (erase l) = Ok (s, log) ->
  srun env (erase (l ++ [o])) = foldM (sstep_log env) (erase1 o) (s, log).
Proof. intro H. unfold srun in *. rewrite erase_app, foldM_app, H. reflexivity. Qed.

Lemma RI_plain env one l r log o x s' ev : RI env one l r log -> sop_of o = Some x ->
  sstep env (r_slam r) x = Ok (s', ev) -> RI env one (l ++ [o]) (on_slam r s') (ev :: log).
Proof.
  intros I O E. destruct (sop_plain o x O) as (P & E1 & LA & _ & AR & SW & MX & WP & _).
  pose proof (sstep_grows env _ x _ _ P E) as ((vs & V1 & V2) & VS & es & G1 & G2 & ES).
  assert (AP : arrivals (l ++ [o]) = arrivals l ++ repeat true (new_poses x)) by (rewrite arrivals_app, AR; reflexivity).
  assert (SR : switch_requests 0 (l ++ [o]) = switch_requests 0 l) by (rewrite switch_app, SW, app_nil_r; reflexivity).
  destruct I as [I1 I2 I3 I4 I5 I6 I7 I8 I9 I9' I10]. split; cbn [on_slam r_slam r_sw r_prior r_swedges r_mix].
  - rewrite (srun_snoc env l o _ _ I1), E1. cbn [foldM]. unfold sstep_log. cbn [fst snd].
    rewrite (sstep_relabel env _ x P), E. reflexivity.
  - rewrite AP, places_app, places_true, V1, map_app, V2, I2, I4. reflexivity.
  - rewrite AP, places_app, places_false, app_nil_r. exact I3.
  - rewrite AP, app_length, repeat_length, VS, I4. reflexivity.
  - unfold edge_ids in *. cbn [on_slam r_slam r_sw r_prior r_swedges r_mix]. rewrite G1, map_app, <- app_assoc, ES.
    eapply (proj1 (new_edges [] _ _ _ _ _ I5 I6 G2)).
  - unfold edge_ids in *. cbn [on_slam r_slam r_sw r_prior r_swedges r_mix]. rewrite G1, map_app, <- app_assoc.
    eapply (proj2 (new_edges [] _ _ _ _ _ I5 I6 G2)).
  - exact I7.
  - exact I8.
  - rewrite SR. exact I9.
  - rewrite SR. exact I9'.
  - intro W. apply wellposed_app in W. rewrite mixture_app, MX, app_nil_r.
    eapply settledQ_more; [exact V1|]. apply I10, W.
Qed.

Lemma RI_throw env one l r log o : RI env one l r log -> rstep env one r o = Throw ->
  RI env one (l ++ [o]) r (SvThrow :: log).
Proof.
  intros I T. pose proof (ri_poses _ _ _ _ _ I) as (_ & S & _).
  assert (O : exists x, sop_of o = Some x /\ sstep env (r_slam r) x = Throw).
  { destruct (sop_of o) as [x|] eqn:O.
    - exists x. split; [reflexivity|]. rewrite (proj2 (proj2 (proj2 (proj2 (proj2 (proj2 (proj2 (proj2 (sop_plain o x O)))))))) env one r) in T.
      destruct (sstep env (r_slam r) x); [discriminate T|discriminate T|reflexivity].
    - exfalso. destruct o as [| | | | |pre fin|f t tr i|f t tr i]; cbn [sop_of] in O; try discriminate O.
      + cbn [rstep] in T. destruct (optimalizeRobust env r pre fin) eqn:E; cbn [bind] in T; try discriminate T.
        apply (optimise_nothrow env r pre fin S E).
      + pose proof (fun log r' log' H => rstep_relabel env one r log (RMixture f t tr i) r' log' H S) as K.
        specialize (K [] r [SvThrow]). unfold rstep_log in K. cbn [fst snd] in K. rewrite T in K.
        specialize (K eq_refl). cbn in K. discriminate K.
      + discriminate T. }
  destruct O as (x & O & E). destruct (sop_plain o x O) as (P & E1 & LA & _ & AR & SW & MX & WP & _).
  assert (NP : new_poses x = 0).
  { destruct x; auto. cbn [sstep] in E. destruct (addPose env (r_slam r) p o0). discriminate E. }
  assert (AP : arrivals (l ++ [o]) = arrivals l) by (rewrite arrivals_app, AR, NP, app_nil_r; reflexivity).
  assert (SR : switch_requests 0 (l ++ [o]) = switch_requests 0 l) by (rewrite switch_app, SW, app_nil_r; reflexivity).
  destruct I as [I1 I2 I3 I4 I5 I6 I7 I8 I9 I9' I10]. split; rewrite ?AP, ?SR; auto.
  - rewrite (srun_snoc env l o _ _ I1), E1. cbn [foldM]. unfold sstep_log. cbn [fst snd].
    rewrite (sstep_relabel env _ x P), E. reflexivity.
  - intro W. apply wellposed_app in W. rewrite mixture_app, MX, app_nil_r. apply I10, W.
Qed.

Lemma iterates_fields : forall its r r', foldM iterate its r = Ok r' ->
  (exists vs, r_slam r' = with_verts (r_slam r) vs /\ map v_id vs = map v_id (s_verts (r_slam r))) /\
  r_prior r' = r_prior r /\ r_swedges r' = r_swedges r /\ map fst (r_mix r') = map fst (r_mix r) /\
  map fst (r_sw r') = map fst (r_sw r) /\ (Forall goodSw (r_sw r) -> Forall goodSw (r_sw r')).
Proof.
  induction its as [|it its IH]; intros r r' H; cbn [foldM] in H.
  - injection H as <-. split; [|auto 6]. exists (s_verts (r_slam r)). split; [|reflexivity]. destruct (r_slam r). reflexivity.
  - apply bind_ok_inv in H. destruct H as (r1 & E & H).
    destruct (iterate_slam _ _ _ E) as (A1 & A2 & A3 & A4 & A5).
    destruct (IH _ _ H) as ((vs & B1 & B1') & B2 & B3 & B4 & B5 & B6).
    split; [|split; [congruence|split; [congruence|split; [|split]]]].
    + exists vs. rewrite B1, A1. split; [reflexivity|]. rewrite B1', A1. cbn [with_verts s_verts].
      unfold moveAt. rewrite map_imap. erewrite imap_ext; [apply imap_map|]. intros k v. cbn beta.
      destruct (v_fixed v); reflexivity.
    + rewrite B4. eapply evalMix_ids; eauto.
    + rewrite B5, A5, map_imap. cbn [fst]. apply imap_map.
    + intro F. apply B6. rewrite A5. clear -F. generalize 0. induction F as [|x t [X Y] F IH]; intro n; cbn [imap]; constructor; auto.
      split; cbn [snd].
      * cbn [swstep sw_x sw_est]. reflexivity.
      * apply switch_step; [exact Y|exact Logic.I].
Qed.

Lemma RI_opt env one l r log pre fin r' : RI env one l r log -> optimalizeRobust env r pre fin = Ok r' ->
  RI env one (l ++ [ROptimize pre fin]) r' (SvOpt :: log).
Proof.
  intros I E. pose proof (ri_poses _ _ _ _ _ I) as (VL & S & _).
  pose proof (rstep_relabel env one r log (ROptimize pre fin) r' (SvOpt :: log)) as RR.
  unfold rstep_log in RR. cbn [fst snd rstep] in RR. rewrite E in RR. specialize (RR eq_refl S).
  unfold optimalizeRobust in E. apply bind_ok_inv in E. destruct E as (r1 & E1 & E).
  apply bind_ok_inv in E. destruct E as (ms & E2 & E). apply bind_ok_inv in E. destruct E as (s' & E3 & E).
  injection E as <-.
  destruct (iterates_fields _ _ _ E1) as ((vs & A1 & A1') & A2 & A3 & A4 & A5 & A6).
  pose proof (pulls_grow env _ _ _ E3) as (P1 & P2 & P3 & P4). pose proof (evalMix_ids _ _ _ E2) as P5.
  cbn [r_slam] in RR.
  assert (AP : arrivals (l ++ [ROptimize pre fin]) = arrivals l) by (rewrite arrivals_app, app_nil_r; reflexivity).
  assert (SR : switch_requests 0 (l ++ [ROptimize pre fin]) = switch_requests 0 l) by (rewrite switch_app, app_nil_r; reflexivity).
  rewrite A1 in P1, P2, P3, P4. cbn [with_verts s_verts s_vseq s_gedges s_eseq] in P1, P2, P3, P4.
  assert (EI : edge_ids (mkRob s' (r_sw r1) (r_prior r1) (r_swedges r1) ms) = edge_ids r).
  { unfold edge_ids. cbn [r_slam r_prior r_swedges r_mix]. rewrite P3, A2, A3, P5, A4. reflexivity. }
  pose proof I as [I1 I2 I3 I4 I5 I6 I7 I8 I9 I9' I10].
  assert (LS : length (r_sw r1) = length (r_sw r)) by (rewrite <- (map_length fst (r_sw r1)), A5, map_length; reflexivity).
  split; rewrite ?AP, ?SR, ?EI; cbn [r_slam r_sw r_prior r_swedges r_mix]; rewrite ?LS, ?A2, ?A3; auto.
  - rewrite (srun_snoc env l _ _ _ I1). exact RR.
  - rewrite P1, A1'. exact I2.
  - rewrite A5. exact I3.
  - rewrite P2. exact I4.
  - rewrite P4. exact I5.
  - intro W. apply wellposed_app in W. destruct W as [W _]. specialize (I10 W). rewrite mixture_app, app_nil_r.
    destruct (iterates_rest env (pre ++ [fin]) r _ (settled_held _ _ _ _ I10)) as (r2 & F1 & F2).
    rewrite E1 in F1. injection F1 as <-.
    destruct (eval_all env (r_slam r1) _ _ F2) as (ms' & F3 & F4). rewrite E2 in F3. injection F3 as <-.
    eapply (settledQ_more env _ _ []); [|exact F4]. rewrite app_nil_r, P1, A1. reflexivity.
Qed.

Lemma mixture_made env s f g tr i : f < length (s_verts s) -> g < length (s_verts s) -> (0 < mdet i)%R ->
  exists m, initComponents (estOf s) (newMixture (mkSE 0 0 (mkP 0 0 0) mid (mkP 0 0 0)))
     (map (component env f g tr) [i; information_invalid]) mm_weights = Ok m /\
  forall id, settledQ env s (f, g, tr, i) (id, m).
Proof.
  intros Hf Hg Hi. assert (F : fitQ s (f, g, tr, i)) by (unfold fitQ; auto).
  pose proof (comps_proper env s _ F) as P. unfold initComponents. set (m0 := mkMix _ _ _ _ _ _).
  assert (H : held (comps env (f, g, tr, i)) mm_weights m0).
  { unfold m0, held, newMixture. cbn [mx_n mx_w mx_det mx_edges app]. split; [reflexivity|]. split; [reflexivity|].
    split; [reflexivity|]. split; [reflexivity|]. intros k e K. exists e. split; [exact K|]. unfold like. auto. }
  destruct (eval_one env s (f, g, tr, i) (0, m0)) as (m & C & [[_ HQ] B]); [split; [exact F|exact H]|].
  cbn [snd] in C. exists m. split; [exact C|]. intro id. split; [split; [exact F|exact HQ]|exact B].
Qed.

Lemma RI_mix env one l r log f t tr i r' : RI env one l r log ->
  rstep env one r (RMixture f t tr i) = Ok (r', []) -> RI env one (l ++ [RMixture f t tr i]) r' log.
Proof.
  intros I E. pose proof (ri_poses _ _ _ _ _ I) as (VL & S & MG).
  pose proof (rstep_relabel env one r log (RMixture f t tr i) r' log) as RR.
  unfold rstep_log in RR. cbn [fst snd] in RR. rewrite E in RR. specialize (RR eq_refl S).
  cbn [rstep] in E. apply bind_ok_inv in E. destruct E as (x & E & X). injection X as <-.
  unfold addMaxMixtureEdge in E. rewrite !MG in E.
  destruct (known _ f) as [f'|] eqn:KF; [|discriminate E]. destruct (known _ t) as [t'|] eqn:KT; [|discriminate E].
  unfold known in KF, KT. destruct (Nat.ltb_spec f (length (places true 0 (arrivals l)))) as [Lf|]; [|discriminate KF].
  destruct (Nat.ltb_spec t (length (places true 0 (arrivals l)))) as [Lt|]; [|discriminate KT].
  injection KF as <-. injection KT as <-. rewrite <- VL in Lf, Lt.
  apply bind_ok_inv in E. destruct E as (v1 & _ & E). apply bind_ok_inv in E. destruct E as (v2 & _ & E).
  apply bind_ok_inv in E. destruct E as (m & EM & E). injection E as <-.
  set (o := RMixture f t tr i) in *.
  assert (AP : arrivals (l ++ [o]) = arrivals l) by (rewrite arrivals_app; cbn; rewrite app_nil_r; reflexivity).
  assert (SR : switch_requests 0 (l ++ [o]) = switch_requests 0 l) by (rewrite switch_app; cbn; rewrite app_nil_r; reflexivity).
  pose proof I as [I1 I2 I3 I4 I5 I6 I7 I8 I9 I9' I10].
  assert (EI : forall s, edge_ids (mkRob s (r_sw r) (r_prior r) (r_swedges r) (r_mix r ++ [(s_eseq (r_slam r), m)])) =
    (map ge_id (s_gedges s) ++ map pr_id (r_prior r) ++ map sg_id (r_swedges r) ++ map fst (r_mix r)) ++ [s_eseq (r_slam r)] ++ []).
  { intro s0. unfold edge_ids. cbn [r_slam r_prior r_swedges r_mix]. rewrite map_app, !app_assoc, app_nil_r. reflexivity. }
  split; rewrite ?AP, ?SR, ?EI; cbn [r_slam r_sw r_prior r_swedges r_mix with_seq s_verts s_vseq s_gedges s_eseq]; auto.
  - rewrite (srun_snoc env l _ _ _ I1). exact RR.
  - rewrite <- Nat.add_1_r. apply (fun H K => proj1 (new_edges [] (edge_ids r) [] [s_eseq (r_slam r)] _ 1 H K eq_refl));
      rewrite app_nil_r; assumption.
  - apply (fun H K => proj2 (new_edges [] (edge_ids r) [] [s_eseq (r_slam r)] (s_eseq (r_slam r)) 1 H K eq_refl));
      rewrite app_nil_r; assumption.
  - intro W. apply wellposed_app in W. destruct W as [W1 W2]. cbn [wellposed o Nat.add] in W2.
    destruct W2 as (_ & _ & Hi & _). rewrite mixture_app. cbn [mixture_requests o].
    apply Forall2_app.
    + eapply (settledQ_more env (r_slam r) _ []); [rewrite app_nil_r; reflexivity|]. apply I10, W1.
    + constructor; [|constructor]. destruct (mixture_made env (r_slam r) f t tr i Lf Lt Hi) as (m' & EM' & SM).
      rewrite EM in EM'. injection EM' as <-. exact (SM _).
Qed.

Lemma RI_switch env one l r log f t tr i r' : RI env one l r log ->
  rstep env one r (RSwitch f t tr i) = Ok (r', []) -> RI env one (l ++ [RSwitch f t tr i]) r' log.
Proof.
  intros I E. pose proof (ri_poses _ _ _ _ _ I) as (VL & S & MG).
  pose proof (rstep_relabel env one r log (RSwitch f t tr i) r' log) as RR.
  unfold rstep_log in RR. cbn [fst snd] in RR. rewrite E in RR. specialize (RR eq_refl S).
  cbn [rstep] in E. injection E as <-. unfold addSwitchConstrainEdge. unfold addSwitchConstrainEdge in RR.
  set (o := RSwitch f t tr i) in *.
  assert (AP : arrivals (l ++ [o]) = arrivals l ++ [false]) by (rewrite arrivals_app; reflexivity).
  assert (SR : switch_requests 0 (l ++ [o]) = switch_requests 0 l ++
    [(known (length (places true 0 (arrivals l))) f, known (length (places true 0 (arrivals l))) t, tr, i)])
    by (rewrite switch_app; reflexivity).
  pose proof I as [I1 I2 I3 I4 I5 I6 I7 I8 I9 I9' I10].
  split; rewrite ?AP, ?SR; cbn [r_slam r_sw r_prior r_swedges r_mix with_seq s_verts s_vseq s_gedges s_eseq] in *; auto.
  - rewrite (srun_snoc env l _ _ _ I1). exact RR.
  - rewrite places_app. cbn [places Bool.eqb]. rewrite app_nil_r. exact I2.
  - rewrite places_app, map_app, I3. cbn [places Bool.eqb map fst Nat.add]. rewrite I4. reflexivity.
  - rewrite app_length, I4. cbn. lia.
  - unfold edge_ids in *. cbn [r_slam r_prior r_swedges r_mix with_seq s_gedges]. rewrite !map_app. cbn [map].
    intros k K. assert (In k (map ge_id (s_gedges (r_slam r)) ++ map pr_id (r_prior r) ++ map sg_id (r_swedges r) ++ map fst (r_mix r))
      \/ k = s_eseq (r_slam r) \/ k = Datatypes.S (s_eseq (r_slam r))) as [H|H].
    { rewrite !in_app_iff in *. cbn [In pr_id sg_id] in K. intuition. }
    + apply I5 in H. lia.
    + lia.
  - unfold edge_ids in *. cbn [r_slam r_prior r_swedges r_mix with_seq s_gedges]. rewrite !map_app. cbn [map pr_id sg_id].
    set (a := map ge_id (s_gedges (r_slam r))) in *. set (b := map pr_id (r_prior r)) in *.
    set (c := map sg_id (r_swedges r)) in *. set (d := map fst (r_mix r)) in *. set (n := s_eseq (r_slam r)) in *.
    assert (N1 : NoDup ((a ++ b) ++ [n] ++ (c ++ d))).
    { apply nodup_mid; [rewrite <- app_assoc; exact I6|constructor; [intros []|constructor]|].
      intros x [<- | []] H. rewrite <- app_assoc in H. apply I5 in H. lia. }
    replace (a ++ (b ++ [n]) ++ (c ++ [Datatypes.S n]) ++ d)
      with (((a ++ b) ++ [n] ++ c) ++ [Datatypes.S n] ++ d) by (rewrite <- !app_assoc; reflexivity).
    apply nodup_mid; [replace (((a ++ b) ++ [n] ++ c) ++ d) with ((a ++ b) ++ [n] ++ c ++ d) by (rewrite <- !app_assoc; reflexivity); exact N1|constructor; [intros []|constructor]|].
    intros x [<- | []] H. assert (K : In (Datatypes.S n) (a ++ b ++ c ++ d) \/ Datatypes.S n = n).
    { rewrite !in_app_iff in *. cbn [In] in H. intuition. }
    destruct K as [K|K]; [apply I5 in K|]; lia.
  - apply Forall_app. split; [exact I7|]. constructor; [|constructor]. split; [reflexivity|]. cbn. exists 1%R. split; [reflexivity|lra].
  - rewrite map_app, I8, app_length, seq_app, map_app. reflexivity.
  - rewrite map_app, I9, imap_app. cbn [map imap swform sg_sw sg_from sg_to sg_meas sg_info Nat.add].
    rewrite <- I9', !MG. reflexivity.
  - rewrite !app_length, I9'. reflexivity.
  - intro W. apply wellposed_app in W. rewrite mixture_app. cbn [mixture_requests o]. rewrite app_nil_r.
    eapply (settledQ_more env (r_slam r) _ []); [rewrite app_nil_r; reflexivity|]. apply I10, W.
Qed.

Lemma rrun_snoc env one l o : rrun env one (l ++ [o]) =
  bind (rrun env one l) (fun st => rstep_log env one st o).
Proof.
  unfold rrun. rewrite foldM_app. destruct (foldM _ l _) as [st| |]; cbn [bind foldM]; auto.
  destruct (rstep_log env one st o); reflexivity.
Qed.

Theorem rrun_ok env one l : forall r log, rrun env one l = Ok (r, log) -> RI env one l r log.
Proof.
  induction l as [|o l IH] using rev_ind; intros r log H.
  - injection H as <- <-. apply RI_init.
  - rewrite rrun_snoc in H. apply bind_ok_inv in H. destruct H as ([r1 log1] & E & H). specialize (IH _ _ E).
    unfold rstep_log in H. cbn [fst snd] in H.
    destruct (rstep env one r1 o) as [[r2 ev]| |] eqn:S; [|discriminate H|].
    + injection H as <- <-. destruct (sop_of o) as [x|] eqn:O.
      * rewrite (proj2 (proj2 (proj2 (proj2 (proj2 (proj2 (proj2 (proj2 (sop_plain o x O)))))))) env one r1) in S.
        apply bind_ok_inv in S. destruct S as ([s' e] & E1 & S). injection S as <- <-. cbn [fst snd app].
        eapply RI_plain; eauto.
      * destruct o as [| | | | |pre fin|f t tr i|f t tr i]; try discriminate O.
        -- cbn [rstep] in S. apply bind_ok_inv in S. destruct S as (x & E1 & S). injection S as <- <-. eapply RI_opt; eauto.
        -- assert (ev = []) as -> by (cbn [rstep] in S; apply bind_ok_inv in S; destruct S as (x & _ & S); injection S as _ <-; reflexivity).
           eapply RI_mix; eauto.
        -- assert (ev = []) as -> by (cbn [rstep] in S; injection S as _ <-; reflexivity).
           eapply RI_switch; eauto.
    + injection H as <- <-. apply RI_throw; auto.
Qed.

(** nothing else goes wrong *)
Theorem rrun_total env one l : wellposed 0 l ->
  rmap snd (rrun env one l) = rmap snd (srun env (erase l)).
Proof.
  induction l as [|o l IH] using rev_ind; intro W; [reflexivity|].
  apply wellposed_app in W. destruct W as [W1 W2]. specialize (IH W1). cbn [Nat.add] in W2.
  rewrite rrun_snoc. destruct (rrun env one l) as [[r log]| |] eqn:E; cbn [bind].
  2, 3: unfold srun in *; rewrite erase_app, foldM_app; destruct (foldM _ (erase l) _); try discriminate IH; reflexivity.
  pose proof (rrun_ok env one l r log E) as I. pose proof (ri_poses _ _ _ _ _ I) as (VL & S & MG).
  rewrite (srun_snoc env l o _ _ (ri_run _ _ _ _ _ I)).
  assert (K : forall st, rstep_log env one (r, log) o = Ok st ->
     rmap snd (rstep_log env one (r, log) o) = rmap snd (foldM (sstep_log env) (erase1 o) (relabel (r_slam r), log))).
  { intros [r' log'] K. rewrite (rstep_relabel env one r log o r' log' K S), K. reflexivity. }
  destruct (rstep_log env one (r, log) o) as [st| |] eqn:RL; [apply (K st eq_refl)| |].
  - unfold rstep_log in RL. cbn [fst snd] in RL. destruct (rstep env one r o) as [[r2 ev]| |] eqn:ST; try discriminate RL.
    destruct (sop_of o) as [x|] eqn:O.
    + destruct (sop_plain o x O) as (P & E1 & _ & _ & _ & _ & _ & _ & RS). rewrite RS in ST. rewrite E1. cbn [foldM].
      unfold sstep_log. cbn [fst snd]. rewrite (sstep_relabel env _ x P).
      destruct (sstep env (r_slam r) x); [discriminate ST|reflexivity|discriminate ST].
    + exfalso. destruct o as [| | | | |pre fin|f t tr i|f t tr i]; try discriminate O.
      * cbn [rstep] in ST. pose proof (ri_mix _ _ _ _ _ I W1) as M.
        destruct (iterates_rest env (pre ++ [fin]) r _ (settled_held _ _ _ _ M)) as (r1 & F1 & F2).
        destruct (eval_all env (r_slam r1) _ _ F2) as (ms' & F3 & F4).
        unfold optimalizeRobust in ST. rewrite F1 in ST. cbn [bind] in ST. rewrite F3 in ST. cbn [bind] in ST.
        rewrite (iterates_slam _ _ _ _ F1) in ST.
        destruct (pull_ok env (r_slam r) (fst fin) S) as (s' & PK). rewrite PK in ST. discriminate ST.
      * cbn [rstep wellposed] in ST, W2. destruct W2 as (Lf & Lt & Hi & _).
        rewrite !MG in ST. unfold known in ST. rewrite (proj2 (Nat.ltb_lt _ _) Lf), (proj2 (Nat.ltb_lt _ _) Lt) in ST.
        rewrite <- VL in Lf, Lt. unfold addMaxMixtureEdge, vget in ST.
        destruct (nth_len _ _ Lf) as [v1 N1]. destruct (nth_len _ _ Lt) as [v2 N2]. rewrite N1, N2 in ST. cbn [bind] in ST.
        destruct (mixture_made env (r_slam r) f t tr i Lf Lt Hi) as (m & EM & _). rewrite EM in ST. discriminate ST.
      * discriminate ST.
  - unfold rstep_log in RL. cbn [fst snd] in RL. destruct (rstep env one r o) as [[r2 ev]| |]; discriminate RL.
Qed.

(** poses can always be added and optimised *)
Lemma srun_pose env (l : list sop) p o : (exists s log, srun env l = Ok (s, log)) ->
  exists s log, srun env (l ++ [SAddPose p o]) = Ok (s, log).
Proof.
  intros (s & log & H). unfold srun in *. rewrite foldM_app, H. cbn [bind foldM]. unfold sstep_log. cbn [fst snd sstep].
  destruct (addPose env s p o) as [s' id]. cbn [bind]. eauto.
Qed.
Lemma srun_opt env (l : list sop) est : (exists s log, srun env l = Ok (s, log)) ->
  exists s log, srun env (l ++ [SOptimize est]) = Ok (s, log).
Proof.
  intros (s & log & H). destruct (srun_ok env l s log H) as [I _].
  destruct (optimalize_ok env s est I) as (s' & E & _).
  unfold srun in *. rewrite foldM_app, H. cbn [bind foldM]. unfold sstep_log. cbn [fst snd sstep]. rewrite E.
  cbn [bind fst]. eauto.
Qed.
End R.
