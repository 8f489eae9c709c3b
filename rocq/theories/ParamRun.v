(** Proofs about runs of the configured program. *)
From Coq Require Import Reals Qreals List ZArith QArith Bool Ascii String Lra Arith.
From Verif Require Import Base LinAlg3 GeoModel GeoSpec OptModel RegModel RegSpec CorrModel CorrSpec MatchModel MatchSpec.
From Verif Require Import GraphModel GraphSpec GraphProofs LoopModel LoopProofs SlamProofs LoopSpec SlamModel AlgModel AlgSpec AlgProofs NodeModel NodeSpec.
From Verif Require Import VoxelModel VoxelSpec GridModel ScanInit MapModel ExportModel SysModel SysSpec SysProofs SysFacts.
From Verif Require Import RunModel RunSpec RunProofs CloseModel CloseSpec CloseProofs LoopWalk WinSpec WinSize.
From Verif Require Import ParamModel ParamSpec ParamProofs.
Import ListNotations.
Open Scope list_scope.
Open Scope nat_scope.

Section Run.
Set Default Proof Using "Type".
Context {X : Type}.
Notation cell := (ncell X).
Notation frame := (frame (res (ngrid X))).
Variable flt : R -> Q.
Variable d2d : frame -> frame -> T2 -> bool * T2.
Variable corr : R -> list P2 -> list P2 -> T2 -> res (bool * T2).
Variable over : option bool.
Variable merge : cell -> cell -> cell.
Variable dflt : cell.
Variable addPt : cell -> point -> cell.
Variable compute : cell -> cell.
Variable tcell : qt -> cell -> cell.
Variable occRay : cell -> point -> cell -> cell.
Variable rawOcc : cell -> Q.
Variable btw : qpose -> qpose -> qt.
Variable tp : qt -> point -> point.
Variable noLin : T2.
Variable moveOrigin : qpose -> qt -> qpose.
Variable moveScan : T2 -> point -> point.
Variable dbl : R -> Q.
Variable se2' : pose -> pose.
Variable odo : M3.
Variable oob : option bool.
Notation runs := (runs d2d corr over merge dflt addPt compute tcell occRay rawOcc btw tp noLin moveOrigin moveScan dbl se2' odo oob).
Notation fill := (fill merge dflt addPt compute tcell occRay btw tp moveScan dbl).
Notation graph_of r := (s_graph (a_slam (y_alg (r_sys r)))).

Lemma runs_calls c t h r : runs c t h r ->
  yreach merge dflt tcell occRay rawOcc btw tp dbl
    (envOf d2d corr over merge dflt addPt compute tcell occRay btw tp noLin moveOrigin moveScan dbl se2' odo c) h (r_sys r).
Proof. intro R. exact (proj1 (run_calls _ _ _ _ _ _ _ _ _ _ _ _ _ _ _ _ _ _ _ _ _ _ _ R)). Qed.

Lemma set_window p found c x t h r g : initParameters flt p found = Ok c -> number p "scanmatch_window_radius" 40 x ->
  runs c t h r -> a_win (y_alg (r_sys r)) = Some (Ok g) -> forall q, inbox (flt x) q -> isInside (n_vox g) q = true.
Proof.
  intros IN N R W. apply runs_calls in R. apply init_config in IN. destruct IN as (_ & ->). apply number_is in N.
  destruct (window_spans _ _ _ _ _ _ _ _ _ _ _ _ _ _ _ _ _ _ h _ R g W) as (C & CS & SP).
  cbn [c_radius] in SP. rewrite N in SP. exact (proj1 (spans_inside _ _ SP)).
Qed.
Lemma set_nodes p found c x t h r : initParameters flt p found = Ok c -> number p "node_gen_distance" 2 x ->
  runs c t h r -> nodes_when_due (Q2R (flt x)) (events h).
Proof.
  intros IN N R. apply runs_calls in R. apply init_config in IN. destruct IN as (_ & ->). apply number_is in N.
  pose proof (ai_due _ _ _ (ai_core _ _ _ (yreach_AI _ _ _ _ _ _ _ _ _ _ _ _ _ _ _ _ _ _ h _ R))) as [D _].
  cbn [gen_dist sysEnv envOf c_gen] in D. rewrite N in D. exact D.
Qed.
Lemma set_loops p found c mx th mn t h r k e :
  initParameters flt p found = Ok c ->
  number p "loop_max_distance" 30 mx -> number p "loop_score_threshold" (6 / 10) th -> number p "loop_min_distance" 14 mn ->
  runs c t h r -> getEdge (graph_of r) k = Ok e -> e_loop e = true ->
  e_to e < e_from e < List.length (born h) /\
  (exists fs ft : frame,
    f_body fs = fill (e_to e =? 0) (scans_of h (e_to e)) /\
    f_body ft = fill (e_from e =? 0) (scans_of h (e_from e)) /\
    (sqrt ((px (f_origin ft) - px (f_origin fs)) ^ 2 + (py (f_origin ft) - py (f_origin fs)) ^ 2) < Q2R (flt mx))%R /\
    (empty_fails (@cloudOf X) d2d -> (forall a b g, rigid (snd (d2d a b g))) ->
     overlap (1 / 2) (Rmin (Q2R (flt th)) (6 / 10) * INR (List.length (cloudOf ft)))
       (map (t2apply (getTransFromPose (e_trans e))) (cloudOf fs)) (cloudOf ft))) /\
  exists s d, In s (map (fun e => d0 (i_choice (v_in e))) h) /\
    back_walk Rplus (fun p => sqrt (px p ^ 2 + py p ^ 2)) (graph_of r) s (e_from e) (e_to e) d /\ (Q2R (flt mn) <= d)%R.
Proof.
  intros IN MX TH MN R G L. apply runs_calls in R. apply init_config in IN. destruct IN as (LIM & ->).
  apply number_is in MX, TH, MN. rewrite TH in LIM, R. rewrite MX, MN in R.
  destruct (loop_edges _ _ _ _ _ _ _ _ _ _ _ _ _ _ _ _ _ _ _ _ _ _ _ h _ k e R G L) as (A & fs & ft & s & m & B1 & B2 & B3 & B4 & B5 & B6).
  cbn [c_max c_min c_limit] in B3, B4, R.
  split; [exact A|]. split.
  - exists fs, ft. split; [exact B1|]. split; [exact B2|]. split; [exact B3|]. intros EF RG.
    pose proof (proj1 (frames_filled _ _ _ _ _ _ _ _ _ _ _ _ _ _ _ _ _ _ h _ R)) as FB.
    destruct (frames_filled _ _ _ _ _ _ _ _ _ _ _ _ _ _ _ _ _ _ h _ R) as (_ & FF & _).
    assert (GD : forall j, j < List.length (born h) -> exists f, getPoseData (a_slam (y_alg (r_sys r))) j = Ok f).
    { intros j J. apply FB in J. rewrite data_objs in *. destruct (nth_error _ j); [eauto|exfalso; apply J; reflexivity]. }
    destruct (GD (e_to e)) as (f1 & G1); [apply (Nat.lt_trans _ (e_from e)); apply A|].
    destruct (GD (e_from e)) as (f2 & G2); [apply A|].
    destruct (loop_overlap _ _ _ _ _ _ _ _ _ _ _ _ _ _ _ _ _ _ _ _ _ _ _ h _ k e f1 f2 EF RG R G L G1 G2) as (_ & _ & OV).
    assert (C1 : cloudOf fs = cloudOf f1) by (unfold cloudOf; rewrite B1, (FF _ _ G1); reflexivity).
    assert (C2 : cloudOf ft = cloudOf f2) by (unfold cloudOf; rewrite B2, (FF _ _ G2); reflexivity).
    rewrite C1, C2. revert OV. unfold asked. cbn [fold_left c_limit].
    destruct (Rlt_dec 0 (Q2R (flt th))); [|exfalso; lra]. destruct (Rlt_dec (Q2R (flt th)) 1); [|exfalso; lra]. auto.
  - pose proof (LW_reach _ _ _ _ _ _ _ _ _ _ _ _ _ _ _ _ _ _ h _ R) as W.
    assert (IN : exists x, In (Some (x, e)) (edges (a_slam (y_alg (r_sys r))))).
    { pose proof (yreach_AI _ _ _ _ _ _ _ _ _ _ _ _ _ _ _ _ _ _ h _ R) as AI.
      pose proof (r_inv _ (si_ready _ _ (ai_SI _ _ _ (ai_core _ _ _ AI)))) as IV.
      rewrite (getEdge_slot _ k IV) in G. unfold slot in G. unfold edges.
      destruct (nth_error (g_edges (graph_of r)) k) as [[[x e']|]|] eqn:N; try discriminate.
      injection G as <-. exists x. eapply nth_error_In; exact N. }
    destruct IN as (x & IN). destruct (W x e IN L) as (s0 & d & I & BW & LT). exists s0, d. split; [exact I|].
    cbn [envOf e_lenv sysEnv detector dadd elen dlt min_dist c_min] in BW, LT. split.
    + clear - BW. induction BW as [e0 E Q|m d e0 W IH E Q].
      * rewrite edge_len. apply (bw_first Rplus (fun p => sqrt (px p ^ 2 + py p ^ 2))%R); assumption.
      * rewrite edge_len. apply (bw_more Rplus (fun p => sqrt (px p ^ 2 + py p ^ 2))%R _ _ _ m); assumption.
    + unfold ltR in LT. destruct (Rlt_dec d (Q2R (flt mn))); [discriminate|lra].
Qed.
Lemma set_topics p found c b t h r m o : initParameters flt p found = Ok c -> switch p "serialize_graph" true b ->
  runs c ((m, o) :: t) h r ->
  map topic_of o =
    match accepted m with
    | Some _ => if List.length (took t) =? 0 then [TTf] else [TTf; TWin; TMap; TWinPcl; TPcl] ++ (if b then [TGraph] else [])
    | None => [TTf]
    end.
Proof.
  intros IN B R. apply init_config in IN. destruct IN as (_ & ->). apply switch_is in B.
  pose proof (run_topics _ _ _ _ _ _ _ _ _ _ _ _ _ _ _ _ _ _ _ _ _ _ _ _ _ R) as T. cbn [c_graph] in T. rewrite B in T. exact T.
Qed.
End Run.
