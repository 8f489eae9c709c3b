(** How far a loop closing edge lets the robot have travelled: the way back through the
    graph that the detector measured for it. *)
From Coq Require Import Reals List ZArith QArith Bool Lia Arith.
From Verif Require Import Base LinAlg3 GeoModel GeoSpec GeoProofs GraphModel GraphSpec GraphProofs LoopModel LoopSpec LoopProofs SlamModel SlamSpec SlamProofs.
From Verif Require Import AlgModel AlgSpec AlgProofs VoxelModel GridModel MapModel SysModel SysSpec SysProofs LoopEdges.
Import ListNotations.
Open Scope nat_scope.

Section Mono.
Context {Pose Obj Obj' Info D : Type}.
Lemma has_edge_in (g : graph Pose Obj Info) e : has_edge g e <-> exists x, In (Some (x, e)) (g_edges g).
Proof.
  split.
  - intros (id & x & N). exists x. eapply nth_error_In. exact N.
  - intros (x & I). apply In_nth_error in I. destruct I as (id & N). exists id, x. exact N.
Qed.
Lemma walk_more (add : D -> D -> D) (len : Pose -> D) (g : graph Pose Obj Info) (g' : graph Pose Obj' Info) s q c d :
  (forall x, In x (g_edges g) -> In x (g_edges g')) -> back_walk add len g s q c d -> back_walk add len g' s q c d.
Proof.
  intro H. assert (HE : forall e, has_edge g e -> has_edge g' e).
  { intros e (id & x & N). apply nth_error_In in N. apply H in N. apply In_nth_error in N.
    destruct N as (id' & N). exists id', x. exact N. }
  induction 1 as [e E Q|m d e W IH E Q].
  - apply bw_first; auto.
  - eapply bw_more; eauto.
Qed.
End Mono.

Section Walk.
Context {Body Win Scan Guess D : Type}.
Notation aenv := (aenv Body Win Scan Guess D).
Notation alg := (alg Body Win).

(** [cs]: the values the distance counter started from *)
Definition LW (env : aenv) (cs : list D) (a : alg) : Prop :=
  forall x e, In (Some (x, e)) (edges (a_slam a)) -> e_loop e = true ->
  exists s d, In s cs /\
    back_walk (dadd (e_lenv env)) (elen (e_lenv env)) (s_graph (a_slam a)) s (e_from e) (e_to e) d /\
    dlt (e_lenv env) d (min_dist (e_lenv env)) = false.

Lemma newNode_walk (env : aenv) (a : alg) i temp ctemp a' evs cs :
  SI (e_senv env) (a_slam a) -> newNode env a i temp ctemp = Ok (a', evs) ->
  LW env cs a -> LW env (d0 (i_choice i) :: cs) a'.
Proof.
  intros I H L. unfold newNode in H.
  destruct (addPose_SI (e_senv env) (a_slam a) (f_origin (a_frame a)) (a_frame a) I) as [I1 ID].
  destruct (addPose_effect (e_senv env) (a_slam a) (f_origin (a_frame a)) (a_frame a) I) as (GE1 & _ & _).
  destruct (addPose (e_senv env) (a_slam a) (f_origin (a_frame a)) (a_frame a)) as [s1 id].
  cbn [fst snd] in *. subst id.
  apply bind_ok_inv in H. destruct H as (s2 & E2 & H).
  assert (K2 : SI (e_senv env) s2 /\ exists new, edges s2 = edges (a_slam a) ++ new /\
     forall x e, In (Some (x, e)) new -> e_loop e = false).
  { destruct (a_first a).
    - apply bind_ok_inv in E2. destruct E2 as ([s2' eid] & AC & E2). injection E2 as <-.
      cbn [fst]. unfold addLastConstrain in AC.
      destruct (addConstrain_ok _ _ _ _ _ _ _ _ _ I1 AC) as (I2 & _ & _ & _ & GE & SN & _).
      split; [exact I2|]. eexists. split; [unfold edges; rewrite GE, GE1; reflexivity|].
      intros x e [N|[]]. injection N as _ <-. reflexivity.
    - injection E2 as <-. split; [auto|]. exists []. split; [unfold edges; rewrite GE1, app_nil_r; reflexivity|]. intros x e []. }
  clear E2. destruct K2 as (I2 & new & GE2 & NL).
  apply bind_ok_inv in H. destruct H as ([s3 closed] & E3 & H).
  unfold tryLoopCloseLast in E3.
  destruct (tryLoopClose_ok _ _ _ _ _ _ _ I2 E3) as (I3 & SN3 & _ & loops & calls & xs & GL & GE3 & F & _ & HQ).
  assert (L3 : forall x e, In (Some (x, e)) (edges s3) -> e_loop e = true ->
     exists s d, In s (d0 (i_choice i) :: cs) /\
       back_walk (dadd (e_lenv env)) (elen (e_lenv env)) (s_graph s3) s (e_from e) (e_to e) d /\
       dlt (e_lenv env) d (min_dist (e_lenv env)) = false).
  { intros x e N LP. unfold edges in N. rewrite GE3 in N. apply in_app_or in N. destruct N as [N|N].
    - unfold edges in GE2. rewrite GE2 in N. apply in_app_or in N. destruct N as [N|N].
      + destruct (L x e N LP) as (s & d & IS & W & M). exists s, d. split; [right; exact IS|]. split; [|exact M].
        eapply walk_more; [|exact W]. intros y Y. rewrite GE3, GE2. apply in_or_app. left. apply in_or_app. left. exact Y.
      + rewrite (NL x e N) in LP. discriminate.
    - destruct (Forall2_in_r _ _ _ _ F N) as (c & C & (x' & e' & E & EF & ET & TR & _)). injection E as <- <-.
      destruct (gen_result (s_graph s2) (si_ready _ _ I2) _ (i_choice i) _ HQ _ _ _ GL) as (_ & GC & _).
      destruct (GC c C) as (CF & CT & nq & nc & d & NQ & NC & W & M & _ & _).
      exists (d0 (i_choice i)), d. split; [left; reflexivity|]. rewrite EF, ET, CF. split; [|exact M].
      eapply walk_more; [|exact W]. intros y Y. rewrite GE3. apply in_or_app. left. exact Y. }
  apply bind_ok_inv in H. destruct H as (s4 & E4 & H).
  assert (GE4 : edges s4 = edges s3).
  { destruct closed.
    - apply bind_ok_inv in E4. destruct E4 as ([s4' b4] & E4 & Y). injection Y as <-. cbn [fst].
      unfold optimalizeIterationaly in E4.
      destruct (optimalize_ok (e_senv env) s3 (i_est i) I3) as (s5 & E5 & _ & GE5 & _).
      rewrite E5 in E4. cbn [bind fst] in E4. injection E4 as <- <-. exact GE5.
    - injection E4 as <-. reflexivity. }
  apply bind_ok_inv in H. destruct H as (p & GP & H). injection H as <- <-.
  unfold LW. cbn [a_slam]. rewrite GE4. intros x e N LP. destruct (L3 x e N LP) as (s & d & IS & W & M).
  exists s, d. split; [exact IS|]. split; [|exact M]. eapply walk_more; [|exact W].
  intros y Y. unfold edges in GE4. rewrite GE4. exact Y.
Qed.
Lemma LW_slam (env : aenv) cs c (a b : alg) : a_slam a = a_slam b -> LW env cs b -> LW env (c ++ cs) a.
Proof.
  unfold LW. intros -> H x e N LP. destruct (H x e N LP) as (s & d & IS & R). exists s, d. split; [|exact R].
  apply in_or_app. right. exact IS.
Qed.
Lemma update_walk (env : aenv) (a : alg) i a' evs log cs : AI env a log ->
  update env a i = Ok (a', evs) -> LW env cs a -> LW env (d0 (i_choice i) :: cs) a'.
Proof.
  intros [C _ _ _] U L. destruct (update_graph _ _ _ _ _ U) as [E|(a0 & temp & ctemp & a1 & ev1 & E0 & F0 & N & E1)].
  - exact (LW_slam env cs [_] a' a E L).
  - apply (LW_slam env _ [] a' a1 E1). apply (newNode_walk env a0 i temp ctemp a1 ev1).
    + rewrite E0. apply (ai_SI _ _ _ C).
    + exact N.
    + exact (LW_slam env cs [] a0 a E0 L).
Qed.
End Walk.

Section Sys.
Context {X Guess D : Type}.
Notation cell := (ncell X).
Notation body := (res (ngrid X)).
Variable merge : cell -> cell -> cell.
Variable dflt : cell.
Variable addPt : cell -> point -> cell.
Variable compute : cell -> cell.
Variable tcell : qt -> cell -> cell.
Variable occRay : cell -> point -> cell -> cell.
Variable rawOcc : cell -> Q.
Variable btw : qpose -> qpose -> qt.
Variable tp : qt -> point -> point.
Variable noLin : T2.
Variable moveOrigin : qpose -> qt -> qpose.
Variable moveScan : T2 -> point -> point.
Variable dbl : R -> Q.
Variable radius : Q.
Variable le : lenv pose (frame body) M3 Guess D.
Variable se2' : pose -> pose.
Variable odo : M3.
Variable dist : R.
Notation env := (sysEnv merge dflt addPt compute tcell occRay btw tp noLin moveOrigin moveScan dbl radius le se2' odo dist).
Notation yreach := (yreach merge dflt tcell occRay rawOcc btw tp dbl env).

Lemma LW_reach h y : yreach h y -> LW env (map (fun e => d0 (i_choice (v_in e))) h) (y_alg y).
Proof.
  induction 1 as [|h y e y' R IH S]; [intros x e []|].
  pose proof (yreach_AI _ _ _ _ _ _ _ _ _ _ _ _ _ _ _ _ _ _ h y R) as A.
  destruct S as [i ts a' evs m' o' U DM]. cbn [y_alg map v_in].
  exact (update_walk env (y_alg y) i a' evs _ _ A U IH).
Qed.
End Sys.
