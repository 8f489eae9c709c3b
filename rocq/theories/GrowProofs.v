(** Proofs about the size of the graph. *)
From Coq Require Import Reals Qreals Lra Psatz List ZArith QArith Bool Lia Arith.
From Verif Require Import Base LinAlg3 GeoModel GeoSpec GeoProofs GraphModel GraphSpec GraphProofs LoopModel LoopSpec LoopProofs SlamModel SlamSpec SlamProofs.
From Verif Require Import AlgModel AlgSpec AlgProofs NodeModel NodeSpec NodeProofs VoxelModel GridModel MapModel SysModel SysSpec SysProofs LoopEdges.
From Verif Require Import RealSpec IncModel IncProofs RunModel RunSpec RunProofs GrowSpec.
Import ListNotations.
Open Scope R_scope.
Set Default Proof Using "Type".

(** ** lengths *)
Lemma norm_triangle a b c d : sqrt ((a + c) ^ 2 + (b + d) ^ 2) <= sqrt (a ^ 2 + b ^ 2) + sqrt (c ^ 2 + d ^ 2).
Proof.
  pose proof (sqrt_pos (a ^ 2 + b ^ 2)) as P1. pose proof (sqrt_pos (c ^ 2 + d ^ 2)) as P2.
  assert (S1 : sqrt (a ^ 2 + b ^ 2) * sqrt (a ^ 2 + b ^ 2) = a ^ 2 + b ^ 2) by (apply sqrt_sqrt; nra).
  assert (S2 : sqrt (c ^ 2 + d ^ 2) * sqrt (c ^ 2 + d ^ 2) = c ^ 2 + d ^ 2) by (apply sqrt_sqrt; nra).
  set (u := sqrt (a ^ 2 + b ^ 2)) in *. set (v := sqrt (c ^ 2 + d ^ 2)) in *.
  assert (CS : a * c + b * d <= u * v).
  { destruct (Rle_dec (a * c + b * d) 0) as [N|N]; [nra|].
    apply Rsqr_incr_0_var; [|nra]. unfold Rsqr.
    replace (u * v * (u * v)) with ((u * u) * (v * v)) by ring. rewrite S1, S2.
    pose proof (pow2_ge_0 (a * d - b * c)). nra. }
  rewrite <- (sqrt_Rsqr (u + v)) by lra. apply sqrt_le_1_alt. unfold Rsqr. nra.
Qed.
Lemma disp_mul s t : rigid s -> getDisplacement (t2mul s t) <= getDisplacement s + getDisplacement t.
Proof.
  intros (A & B & C). unfold getDisplacement. cbn [t2mul tx ty].
  rewrite (Rplus_comm (ta s * tx t + tb s * ty t)), (Rplus_comm (tc s * tx t + td s * ty t)).
  eapply Rle_trans; [apply norm_triangle|]. apply Rplus_le_compat_l. right. f_equal.
  rewrite <- A. assert (tb s = - tc s) as -> by lra.
  replace ((ta s * tx t + - tc s * ty t) ^ 2 + (tc s * tx t + ta s * ty t) ^ 2)
    with ((ta s * ta s + tc s * tc s) * (tx t ^ 2 + ty t ^ 2)) by ring. rewrite C. ring.
Qed.

(** ** the length of the path *)
Lemma way_app l m : way (l ++ m) = way l + way m.
Proof. induction l as [|[] l IH]; cbn [way app]; rewrite ?IH; lra. Qed.
Lemma way_rev l : way (rev l) = way l.
Proof. induction l as [|[] l IH]; [reflexivity|..]; cbn [rev]; rewrite way_app, IH; cbn [way]; lra. Qed.
Lemma way_pos l : 0 <= way l.
Proof. induction l as [|[] l IH]; cbn [way]; try lra. pose proof (sqrt_pos (tx t ^ 2 + ty t ^ 2)). lra. Qed.
Lemma used_app l m : used_calls (l ++ m) = (used_calls l + used_calls m)%nat.
Proof. induction l as [|[] l IH]; cbn [used_calls app]; rewrite ?IH; lia. Qed.
Lemma used_rev l : used_calls (rev l) = used_calls l.
Proof. induction l as [|[] l IH]; [reflexivity|..]; cbn [rev]; rewrite used_app, IH; cbn [used_calls]; lia. Qed.

(** path since the newest node *)
Fixpoint way_since (log : list aev) : R :=
  match log with
  | [] => 0
  | AInc t :: r => getDisplacement t + way_since r
  | ANode _ :: _ => 0
  | _ :: r => way_since r
  end.
Definition rigid_incs (log : list aev) : Prop := forall t, In (AInc t) log -> rigid t.
Lemma since_way log : rigid_incs log -> rigid (since_node log) /\ getDisplacement (since_node log) <= way_since log.
Proof.
  induction log as [|e log IH]; intro R.
  - split; [apply rigid_id|]. unfold getDisplacement. cbn. replace (0 * (0 * 1) + 0 * (0 * 1)) with 0 by ring. rewrite sqrt_0. lra.
  - assert (R' : rigid_incs log) by (intros t I; apply R; right; exact I).
    destruct (IH R') as [A B]. clear IH. destruct e; cbn [since_node way_since]; try (split; assumption).
    + pose proof (R t (or_introl eq_refl)) as T. split; [apply rigid_mul; assumption|].
      eapply Rle_trans; [apply disp_mul; exact A|]. lra.
    + split; [apply rigid_id|]. unfold getDisplacement. cbn. replace (0 * (0 * 1) + 0 * (0 * 1)) with 0 by ring. rewrite sqrt_0. lra.
Qed.
Lemma nodes_way d log : rigid_incs log -> nodes_when_due d log -> INR (length (made log)) * d + way_since log <= way log.
Proof.
  induction log as [|e log IH]; intros R N; [cbn; lra|].
  assert (R' : rigid_incs log) by (intros t I; apply R; right; exact I).
  assert (N' : nodes_when_due d log) by (destruct e; apply N).
  specialize (IH R' N'). destruct e; cbn [made way way_since] in *; try exact IH.
  - unfold getDisplacement. lra.
  - cbn [length]. rewrite S_INR. cbn [nodes_when_due] in N. destruct N as [N _].
    destruct log as [|[] r]; try contradiction.
    destruct (since_way _ R') as [_ S]. lra.
Qed.

Lemma made_used d log : nodes_when_due d log -> (length (made log) <= used_calls log)%nat.
Proof.
  assert (K : nodes_when_due d log -> (length (made log) <= used_calls log /\ match log with AInc _ :: r => length (made r) <= used_calls r | _ => True end)%nat).
  { induction log as [|e log IH]; intro N; [cbn; lia|].
    assert (N' : nodes_when_due d log) by (destruct e; apply N). destruct (IH N') as [A B]. clear IH.
    destruct e; cbn [made used_calls length]; try (split; [lia|exact I]); [split; lia|].
    cbn [nodes_when_due] in N. destruct N as [N _]. destruct log as [|[] r]; try contradiction.
    cbn [made used_calls] in *. split; [lia|exact I]. }
  intro N. exact (proj1 (K N)).
Qed.

(** ** what a call adds *)
Lemma graph_way {B W S G D} (e : aenv B W S G D) a i inc cov a' evs : updateGraph e a i inc cov = Ok (a', evs) ->
  way evs = getDisplacement inc /\ used_calls evs = 1%nat.
Proof.
  unfold updateGraph. destruct (leftWindow _ _).
  - intro H. apply bind_ok_inv in H. destruct H as ([a1 ev1] & NN & H). injection H as _ <-. cbn [snd].
    unfold newNode in NN. destruct (addPose _ _ _ _) as [s1 id].
    apply bind_ok_inv in NN. destruct NN as (s2 & _ & NN). apply bind_ok_inv in NN. destruct NN as ([s3 cl] & _ & NN).
    apply bind_ok_inv in NN. destruct NN as (s4 & _ & NN). apply bind_ok_inv in NN. destruct NN as (p & _ & NN).
    injection NN as _ <-. unfold getDisplacement. destruct cl; cbn [way used_calls app]; split; try lra; reflexivity.
  - intro H. injection H as _ <-. unfold getDisplacement. cbn [way used_calls]. split; [lra|reflexivity].
Qed.
Lemma update_way {B W S G D} (e : aenv B W S G D) a i a' evs : update e a i = Ok (a', evs) ->
  (way evs = 0 /\ used_calls evs = 0%nat /\ forall t, ~ In (AInc t) evs) \/
  exists t, In (AInc t) evs /\ way evs = getDisplacement t /\ used_calls evs = 1%nat /\ (rigid (i_motion i) -> rigid t) /\
    forall t', In (AInc t') evs -> t' = t.
Proof.
  unfold update. destruct (a_init a).
  2:{ intro H. injection H as _ <-. left. split; [reflexivity|]. split; [reflexivity|]. intros t I. cbn in I. intuition discriminate. }
  destruct (a_win a) as [w|]; [|discriminate]. destruct (movedEnough _).
  2:{ intro H. injection H as _ <-. left. split; [reflexivity|]. split; [reflexivity|]. intros t I. cbn in I. intuition discriminate. }
  assert (K : forall a0 inc cov a1 ev1 k p, updateGraph e a0 i inc cov = Ok (a1, ev1) -> (rigid (i_motion i) -> rigid inc) ->
     exists t, In (AInc t) (ev1 ++ [ARep k p]) /\ way (ev1 ++ [ARep k p]) = getDisplacement t /\
       used_calls (ev1 ++ [ARep k p]) = 1%nat /\ (rigid (i_motion i) -> rigid t) /\
       forall t', In (AInc t') (ev1 ++ [ARep k p]) -> t' = t).
  { intros a0 inc cov a1 ev1 k p U R. exists inc. destruct (graph_way _ _ _ _ _ _ _ U) as [A C].
    rewrite way_app, used_app, A, C. cbn [way used_calls].
    assert (IN : In (AInc inc) ev1).
    { unfold updateGraph in U. destruct (leftWindow _ _).
      - apply bind_ok_inv in U. destruct U as (x & _ & U). injection U as _ <-. left. reflexivity.
      - injection U as _ <-. left. reflexivity. }
    split; [apply in_or_app; left; exact IN|]. split; [lra|]. split; [reflexivity|]. split; [exact R|].
    intros t' I. apply in_app_or in I. destruct I as [I|[I|[]]]; [exact (graph_inc _ _ _ _ _ _ _ _ U I)|discriminate]. }
  destruct (i_match i) as [reg|]; intro H; right; apply bind_ok_inv in H; destruct H as ([a1 ev1] & U & H); cbn [fst snd] in H.
  - destruct (w_move e (w_merge e w (i_scan i) reg) reg) as [w2 c]. injection H as _ <-. eapply K; [exact U|].
    intros _. apply rigid_mul; [apply rigid_inv|]; apply rigid_pose.
  - injection H as _ <-. eapply K; [exact U|]. auto.
Qed.

(** ** the number of edges *)
Lemma kept_length {A} (f : A -> bool) l : (length (filter f l) <= length l)%nat.
Proof. induction l as [|x l IH]; cbn [filter length]; [lia|]. destruct (f x); cbn [length]; lia. Qed.
Section Edges.
Context {Body Win Scan Guess D : Type}.
Notation aenv := (aenv Body Win Scan Guess D).
Notation alg := (alg Body Win).
Definition EB (a : alg) : Prop := (length (edges (a_slam a)) <= 51 * length (nodes (a_slam a)))%nat.
Lemma newNode_size (env : aenv) (a : alg) i temp ctemp a' evs :
  SI (e_senv env) (a_slam a) -> newNode env a i temp ctemp = Ok (a', evs) -> EB a -> EB a'.
Proof.
  intros I H L. unfold EB in *. unfold newNode in H.
  destruct (addPose_SI (e_senv env) (a_slam a) (f_origin (a_frame a)) (a_frame a) I) as [I1 ID].
  destruct (addPose_effect (e_senv env) (a_slam a) (f_origin (a_frame a)) (a_frame a) I) as (GE1 & LN1 & _).
  destruct (addPose (e_senv env) (a_slam a) (f_origin (a_frame a)) (a_frame a)) as [s1 id].
  cbn [fst snd] in *. subst id.
  apply bind_ok_inv in H. destruct H as (s2 & E2 & H).
  assert (K2 : SI (e_senv env) s2 /\ same_nodes (s_graph s1) (s_graph s2) /\ (length (edges s2) <= S (length (edges (a_slam a))))%nat).
  { destruct (a_first a).
    - apply bind_ok_inv in E2. destruct E2 as ([s2' eid] & AC & E2). injection E2 as <-.
      cbn [fst]. unfold addLastConstrain in AC.
      destruct (addConstrain_ok _ _ _ _ _ _ _ _ _ I1 AC) as (I2 & _ & _ & _ & GE & SN & _).
      split; [exact I2|]. split; [exact SN|]. unfold edges. rewrite GE, GE1, app_length. cbn [length]. lia.
    - injection E2 as <-. split; [auto|]. split; [apply same_nodes_refl|]. unfold edges. rewrite GE1. lia. }
  clear E2. destruct K2 as (I2 & SN2 & GE2).
  apply bind_ok_inv in H. destruct H as ([s3 closed] & E3 & H).
  unfold tryLoopCloseLast in E3.
  destruct (tryLoopClose_ok _ _ _ _ _ _ _ I2 E3) as (I3 & SN3 & _ & loops & calls & xs & GL & GE3 & F & _ & HQ).
  destruct (gen_result (s_graph s2) (si_ready _ _ I2) _ (i_choice i) _ HQ _ _ _ GL) as (_ & _ & LC & MC & _).
  assert (LX : (length xs <= 50)%nat).
  { rewrite <- (Forall2_length _ _ _ F). assert (LL : length loops = length (filter snd calls)).
    { rewrite <- (map_length (@lc_to _ _)), MC, rev_length, map_length. reflexivity. }
    unfold max_search_depth in LC. pose proof (kept_length snd calls). lia. }
  apply bind_ok_inv in H. destruct H as (s4 & E4 & H).
  assert (GE4 : edges s4 = edges s3 /\ length (nodes s4) = length (nodes s3)).
  { destruct closed.
    - apply bind_ok_inv in E4. destruct E4 as ([s4' b4] & E4 & Y). injection Y as <-. cbn [fst].
      unfold optimalizeIterationaly in E4.
      destruct (optimalize_ok (e_senv env) s3 (i_est i) I3) as (s5 & E5 & _ & GE5 & _ & _ & LN5 & _).
      rewrite E5 in E4. cbn [bind fst] in E4. injection E4 as <- <-. split; [exact GE5|exact LN5].
    - injection E4 as <-. split; reflexivity. }
  apply bind_ok_inv in H. destruct H as (p & GP & H). injection H as <- <-. cbn [a_slam].
  rewrite (proj1 GE4), (proj2 GE4).
  assert (LN : length (nodes s3) = S (length (nodes (a_slam a)))).
  { unfold nodes. rewrite (proj1 SN3), (proj1 SN2). exact LN1. }
  unfold edges in *. rewrite GE3, app_length, LN. lia.
Qed.
Lemma update_size (env : aenv) (a : alg) i a' evs log : AI env a log -> update env a i = Ok (a', evs) -> EB a -> EB a'.
Proof.
  intros [C _ _ _] U L. destruct (update_graph _ _ _ _ _ U) as [E|(a0 & temp & ctemp & a1 & ev1 & E0 & F0 & N & E1)].
  - unfold EB. rewrite E. exact L.
  - unfold EB. rewrite E1. apply (newNode_size env a0 i temp ctemp a1 ev1).
    + rewrite E0. apply (ai_SI _ _ _ C).
    + exact N.
    + unfold EB. rewrite E0. exact L.
Qed.
End Edges.

Lemma differs_disp r t t' : differs r t t' -> getDisplacement t' <= getDisplacement t + r.
Proof.
  intros (p & q & -> & -> & L). unfold getDisplacement. cbn [getTransFromPose tx ty].
  replace (px q) with (px p + (px q - px p)) at 1 by ring. replace (py q) with (py p + (py q - py p)) at 1 by ring.
  eapply Rle_trans; [apply norm_triangle|]. apply Rplus_le_compat_l. eapply Rle_trans; [|exact L].
  apply sqrt_le_1_alt. pose proof (pow2_ge_0 (pth q - pth p)). lra.
Qed.
Lemma told_disp a o b mo : t2mul (getTransFromPose b) mo = getTransFromPose o -> a = sqrt ((px o - px b) ^ 2 + (py o - py b) ^ 2) ->
  getDisplacement mo = a.
Proof.
  intros M ->. pose proof (rigid_pose b) as (A & B & C).
  assert (EX : px o = ta (getTransFromPose b) * tx mo + tb (getTransFromPose b) * ty mo + px b).
  { change (px o) with (tx (getTransFromPose o)). rewrite <- M. reflexivity. }
  assert (EY : py o = tc (getTransFromPose b) * tx mo + td (getTransFromPose b) * ty mo + py b).
  { change (py o) with (ty (getTransFromPose o)). rewrite <- M. reflexivity. }
  rewrite EX, EY. unfold getDisplacement. f_equal. rewrite <- A.
  assert (tb (getTransFromPose b) = - tc (getTransFromPose b)) as -> by lra.
  set (u := ta (getTransFromPose b)) in *. set (v := tc (getTransFromPose b)) in *.
  replace ((u * tx mo + - v * ty mo + px b - px b) ^ 2 + (v * tx mo + u * ty mo + py b - py b) ^ 2)
    with ((u * u + v * v) * (tx mo ^ 2 + ty mo ^ 2)) by ring. rewrite C. ring.
Qed.

Section System.
Context {X Guess D : Type}.
Notation cell := (ncell X).
Notation grid := (ngrid X).
Notation body := (res grid).
Variable merge : cell -> cell -> cell.
Variable dflt : cell.
Variable addPt : cell -> point -> cell.
Variable compute : cell -> cell.
Variable tcell : qt -> cell -> cell.
Variable occRay : cell -> point -> cell -> cell.
Variable rawOcc : cell -> Q.
Variable btw : qpose -> qpose -> qt.
Variable tp : qt -> point -> point.
Variable noLin : T2.
Variable moveOrigin : qpose -> qt -> qpose.
Variable moveScan : T2 -> point -> point.
Variable dbl : R -> Q.
Variable radius : Q.
Variable le : lenv pose (frame body) M3 Guess D.
Variable se2' : pose -> pose.
Variable odo : M3.
Variable dist : R.
Variable oob : option bool.
Variable ser : bool.
Notation env := (sysEnv merge dflt addPt compute tcell occRay btw tp noLin moveOrigin moveScan dbl radius le se2' odo dist).
Notation yreach := (yreach merge dflt tcell occRay rawOcc btw tp dbl env).
Notation rreach := (RunModel.rreach merge dflt tcell occRay rawOcc btw tp dbl oob ser env).
Notation graph_of r := (s_graph (a_slam (y_alg (r_sys r)))).

Lemma EB_reach h y : yreach h y -> EB (y_alg y).
Proof.
  induction 1 as [|h y e y' R IH S]; [unfold EB; cbn; lia|].
  pose proof (yreach_AI _ _ _ _ _ _ _ _ _ _ _ _ _ _ _ _ _ _ h y R) as A.
  destruct S as [i ts a' evs m' o' U DM]. cbn [y_alg]. exact (update_size env (y_alg y) i a' evs _ A U IH).
Qed.
Lemma rigid_reach h y : yreach h y -> Forall (fun e => rigid (i_motion (v_in e))) h -> rigid_incs (events h).
Proof.
  induction 1 as [|h y e y' R IH S]; intros F t I; [destruct I|]. inversion F as [|? ? RE F']; subst.
  cbn [events] in I. apply in_app_or in I. destruct I as [I|I]; [|exact (IH F' t I)].
  apply in_rev in I. destruct S as [i ts a' evs m' o' U DM]. cbn [v_evs v_in] in *.
  destruct (update_way _ _ _ _ _ U) as [(_ & _ & N)|(t0 & _ & _ & _ & RT & U1)]; [destruct (N t I)|].
  rewrite (U1 t I). exact (RT RE).
Qed.
Lemma used_reach h y : yreach h y -> (used_calls (events h) <= length h)%nat.
Proof.
  induction 1 as [|h y e y' R IH S]; [cbn; lia|]. cbn [events length]. rewrite used_app, used_rev.
  destruct S as [i ts a' evs m' o' U DM]. cbn [v_evs].
  destruct (update_way _ _ _ _ _ U) as [(_ & N & _)|(t0 & _ & _ & N & _)]; lia.
Qed.
Lemma count_made h y : yreach h y -> nodeCount (s_graph (a_slam (y_alg y))) = length (made (events h)).
Proof.
  intro R. pose proof (yreach_AI _ _ _ _ _ _ _ _ _ _ _ _ _ _ _ _ _ _ h y R) as A.
  pose proof (ai_made _ _ _ (ai_core _ _ _ A)) as M.
  rewrite <- (rev_length (made _)), M, seq_length. reflexivity.
Qed.
(** the path along the estimate *)
Theorem grow_nodes t h r : rreach t h r -> INR (nodeCount (graph_of r)) * dist <= way (events h).
Proof.
  intro RR. destruct (run_calls _ _ _ _ _ _ _ _ _ _ _ _ _ _ _ _ _ _ _ _ _ _ _ RR) as [R T].
  pose proof (told_rigid _ _ T) as RM. rewrite (count_made _ _ R).
  pose proof (ai_due _ _ _ (ai_core _ _ _ (yreach_AI _ _ _ _ _ _ _ _ _ _ _ _ _ _ _ _ _ _ h _ R))) as [DU _].
  cbn [gen_dist sysEnv] in DU.
  pose proof (nodes_way _ _ (rigid_reach _ _ R RM) DU) as N.
  assert (P : 0 <= way_since (events h)).
  { clear. induction (events h) as [|[] l IH]; cbn [way_since]; try lra. unfold getDisplacement.
    match goal with |- _ <= sqrt ?u + _ => pose proof (sqrt_pos u) end. lra. }
  lra.
Qed.
(** one node for one message at most *)
Theorem grow_calls t h r : rreach t h r -> (nodeCount (graph_of r) <= used_calls (events h) <= length (took t))%nat.
Proof.
  intro RR. destruct (run_calls _ _ _ _ _ _ _ _ _ _ _ _ _ _ _ _ _ _ _ _ _ _ _ RR) as [R T]. rewrite (count_made _ _ R).
  pose proof (ai_due _ _ _ (ai_core _ _ _ (yreach_AI _ _ _ _ _ _ _ _ _ _ _ _ _ _ _ _ _ _ h _ R))) as [DU _].
  split; [exact (made_used _ _ DU)|]. pose proof (used_reach _ _ R) as U.
  assert (L : length h = length (took t)).
  { clear - T. revert h T. induction (took t) as [|[[a b] c] l IH]; intros [|e h] T; cbn [told] in T; try contradiction; [reflexivity|].
    cbn [length]. f_equal. apply IH. apply T. }
  lia.
Qed.
Theorem grow_edges t h r : rreach t h r -> (edgeCount (graph_of r) <= 51 * Z.of_nat (nodeCount (graph_of r)))%Z.
Proof.
  intro RR. destruct (run_calls _ _ _ _ _ _ _ _ _ _ _ _ _ _ _ _ _ _ _ _ _ _ _ RR) as [R _]. pose proof (EB_reach _ _ R) as E. unfold EB in E.
  pose proof (yreach_AI _ _ _ _ _ _ _ _ _ _ _ _ _ _ _ _ _ _ h _ R) as A.
  pose proof (pool_count _ (r_inv _ (si_ready _ _ (ai_SI _ _ _ (ai_core _ _ _ A))))) as P.
  unfold edgeCount, nodeCount, edges, nodes in *. unfold u64.
  etransitivity; [apply Z.mod_le; lia|]. lia.
Qed.
(** the path along the odometry *)
Fixpoint moved_way (h : list (yev D)) : R :=
  match h with [] => 0 | e :: r => getDisplacement (i_motion (v_in e)) + moved_way r end.
Lemma told_driven l : forall h : list (yev D), told l h -> moved_way h = driven l.
Proof.
  induction l as [|[[x o] s] l IH]; intros [|e h] T; try contradiction; [reflexivity|].
  cbn [told] in T. destruct T as (_ & _ & M & T). cbn [moved_way]. rewrite (IH _ T). destruct l as [|[[x1 o1] s1] l].
  - cbn [driven]. rewrite M. unfold getDisplacement. cbn [t2id tx ty]. replace (0 ^ 2 + 0 ^ 2) with 0 by ring. rewrite sqrt_0. lra.
  - rewrite (told_disp _ _ _ _ M eq_refl). reflexivity.
Qed.
Variable icovOf : cell -> M3.
Variable search : list point -> P2 -> nat -> list nat.
Variable solve : M3 -> V3 -> option V3.
Notation followed := (followed icovOf search solve merge dflt addPt compute tcell occRay rawOcc btw tp dbl env).
Theorem way_driven t h r : rreach t h r -> followed h (r_sys r) -> sharp dbl h ->
  way (events h) <= driven (took t) + 4 / 10 * INR (used_calls (events h)).
Proof using All.
  intros RR F SH. destruct (run_calls _ _ _ _ _ _ _ _ _ _ _ _ _ _ _ _ _ _ _ _ _ _ _ RR) as [R T].
  pose proof (told_rigid _ _ T) as RM. rewrite <- (told_driven _ _ T).
  pose proof (inc_near _ _ _ _ _ _ _ _ _ _ _ _ _ _ _ _ _ _ _ _ _ _ _ F (proj1 (Forall_forall _ _) RM) SH) as NEAR.
  assert (K : forall h0 y, yreach h0 y -> (forall e inc, In e h0 -> In (AInc inc) (v_evs e) -> differs (4 / 10) (i_motion (v_in e)) inc) ->
     way (events h0) <= moved_way h0 + 4 / 10 * INR (used_calls (events h0))).
  { clear. induction 1 as [|h y e y' R IH S]; intro N; [cbn; lra|].
    cbn [events moved_way]. rewrite way_app, used_app, way_rev, used_rev, plus_INR.
    specialize (IH (fun e0 i I => N e0 i (or_intror I))). specialize (N e).
    destruct S as [i ts a' evs m' o' U DM]. cbn [v_evs v_in] in *.
    destruct (update_way _ _ _ _ _ U) as [(W & UC & _)|(inc & IN & W & UC & _)]; rewrite W, UC; cbn [INR].
    - assert (0 <= getDisplacement (i_motion i)) by apply sqrt_pos. lra.
    - pose proof (differs_disp _ _ _ (N inc (or_introl eq_refl) IN)). lra. }
  exact (K _ _ R NEAR).
Qed.
End System.
