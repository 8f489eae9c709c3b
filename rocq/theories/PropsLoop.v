(** Loop detector properties C41-C43. Only statements, non-vacuity examples and
    [Print Assumptions]; the proofs live in LoopProofs.v and SlamProofs.v. *)
From Coq Require Import List ZArith Bool Arith Lia.
From Verif Require Import Base GraphModel GraphSpec LoopModel LoopSpec SlamModel SlamSpec SlamProofs PropsSlam.
Import ListNotations.
Open Scope nat_scope.

(** ** C41 *)
(** Full property: the accumulated path distance is at least the minimum
    distance.  It holds of the distance the code accumulates, which starts from
    an uninitialised number [d0 ch]; with [d0 ch] = 0 this is the full property. *)
Theorem C41_thresholds_partial {Pose Obj Info Guess D : Type}
    (env : lenv Pose Obj Info Guess D) ch (g : graph Pose Obj Info) q g' out calls :
  built_graph (Guess := Guess) (D := D) g -> genLoopClosures env ch g q = Ok (g', out, calls) ->
  length calls <= 50 /\
  map (@lc_to _ _) out = rev (map fst (filter snd calls)) /\
  forall c, In c out ->
    lc_from c = q /\ lc_to c <> q /\
    exists nq nc d, getNode g q = Ok nq /\ getNode g (lc_to c) = Ok nc /\
      back_walk (dadd env) (elen env) g (d0 ch) q (lc_to c) d /\
      dlt env d (min_dist env) = false /\
      dlt env (euclid env (n_pose nq) (n_pose nc)) (max_dist env) = true /\
      matcher env (n_obj nc) (n_obj nq) (guess env (n_pose nq) (n_pose nc)) = Some (lc_info c, lc_trans c).
Proof. exact (loop_thresholds env ch g q g' out calls). Qed.
Print Assumptions C41_thresholds_partial.

Definition ex_graph : res (slam Z bool Z * list (sev Z bool Z)) := srun ex_senv (firstn 8 ex_sops).
Example C41_example : exists s log out calls, ex_graph = Ok (s, log) /\
  genLoopClosures ex_lenv ex_choice (s_graph s) 3 = Ok (s_graph s, out, calls) /\
  length out = 2 /\ calls = [(0, true); (1, true)].
Proof. eexists _, _, _, _. split; [vm_compute; reflexivity|]. split; [vm_compute; reflexivity|]. split; vm_compute; reflexivity. Qed.

(** A closure with the neighbour two units away although the minimum is three. *)
Definition ex_line : list (sop Z bool Z Z) := [SAddPose 0%Z true; SAddPose 2%Z true; SAddLast 10 2%Z 1%Z].
Lemma C41_refuted_walk s log : srun ex_senv ex_line = Ok (s, log) ->
  forall c d, back_walk Z.add Z.abs (s_graph s) 0%Z 1 c d -> c = 0 /\ d = 2%Z.
Proof.
  intro R. vm_compute in R. injection R as <- _.
  assert (HE : forall e, has_edge (s_graph (mkSlam (Pose := Z) (Obj := bool) (Info := Z)
     (mkGraph [Some (10, mkEdge 0 0 1 Active false false 2%Z 500%Z)]
        [mkNode 0 false 0%Z true [10] []; mkNode 1 false 2%Z true [] [10]] []) 1 0 0 true 1 2
        [mkVtx 0 0%Z true; mkVtx 1 2%Z false] [mkGE 0 (Some 0) (Some 1) 2%Z 500%Z] [(0, 0); (1, 1)])) e ->
     e = mkEdge 0 0 1 Active false false 2%Z 500%Z).
  { intros e ([|[|id]] & a & X); cbn in X; try discriminate. congruence. }
  intros c d W. induction W as [e H T|m d e W IH H T].
  - rewrite (HE e H). cbn. auto.
  - rewrite (HE e H) in T. cbn in T. destruct IH as [-> _]. discriminate.
Qed.
Theorem C41_true_distance_refuted : exists s log ch g' out calls c,
  srun ex_senv ex_line = Ok (s, log) /\
  genLoopClosures ex_lenv ch (s_graph s) 1 = Ok (g', out, calls) /\ In c out /\
  min_dist ex_lenv = 3%Z /\
  forall d, back_walk Z.add Z.abs (s_graph s) 0%Z 1 (lc_to c) d -> (d < 3)%Z.
Proof.
  eexists _, _. exists (mkLChoice 50%Z (fun _ _ => 0)). eexists _, _, _, _.
  split; [vm_compute; reflexivity|]. split; [vm_compute; reflexivity|]. split; [left; reflexivity|].
  split; [reflexivity|]. intros d W.
  destruct (C41_refuted_walk _ _ eq_refl _ _ W) as [_ ->]. reflexivity.
Qed.
Print Assumptions C41_true_distance_refuted.

(** ** C42 *)
(** A query that comes back leaves the graph exactly as it was, unmarked, so the
    same query (same matcher, same content of uninitialised memory) gives the
    same result again. *)
Theorem C42_no_trace {Pose Obj Info Guess D : Type}
    (env : lenv Pose Obj Info Guess D) ch (g : graph Pose Obj Info) q g' out calls :
  built_graph (Guess := Guess) (D := D) g -> genLoopClosures env ch g q = Ok (g', out, calls) ->
  unmarked g' /\ g' = g.
Proof. exact (loop_no_trace env ch g q g' out calls). Qed.
Print Assumptions C42_no_trace.
(** Full property: every query terminates safely.  Proved if every node can be
    reached from the query node against the edge directions, and the machine does
    not trap on the iterators' read past the end (see C34). *)
Theorem C42_defined_partial {Pose Obj Info Guess D : Type}
    (env : lenv Pose Obj Info Guess D) ch (g : graph Pose Obj Info) q null :
  built_graph (Guess := Guess) (D := D) g -> oob env = Some null ->
  q < nodeCount g -> (forall k, k < nodeCount g -> back_reach g q k) ->
  exists out calls, genLoopClosures env ch g q = Ok (g, out, calls).
Proof. exact (loop_defined env ch g q null). Qed.
Print Assumptions C42_defined_partial.
(** In particular for the newest pose on a robot's way. *)
Theorem C42_drive {Pose Obj Info Guess D : Type} (env : senv Pose Obj Info Guess D) p0 o0 l s log ch null :
  srun env (SAddPose p0 o0 :: drive l) = Ok (s, log) -> oob (s_lenv env) = Some null ->
  exists out calls, genLoopClosures (s_lenv env) ch (s_graph s) (length l) = Ok (s_graph s, out, calls).
Proof. exact (loop_drive env p0 o0 l s log ch null). Qed.
Print Assumptions C42_drive.
Example C42_example : exists s log, srun ex_senv (SAddPose 0%Z true :: drive ex_drive) = Ok (s, log) /\
  oob (s_lenv ex_senv) = Some false.
Proof. eexists _, _. split; vm_compute; reflexivity. Qed.
(** A query for a node nothing leads to takes the top of an empty queue. *)
Theorem C42_no_way_back_refuted {Pose Obj Info Guess D : Type}
    (env : lenv Pose Obj Info Guess D) ch (g : graph Pose Obj Info) q :
  built_graph (Guess := Guess) (D := D) g -> q < nodeCount g -> 1 < nodeCount g ->
  (forall e, has_edge g e -> e_to e <> q) -> genLoopClosures env ch g q = UB.
Proof. exact (loop_no_way_back env ch g q). Qed.
Print Assumptions C42_no_way_back_refuted.
Example C42_example_refuted : exists s log, srun ex_senv ex_line = Ok (s, log) /\
  genLoopClosures ex_lenv ex_choice (s_graph s) 0 = UB.
Proof. eexists _, _. split; vm_compute; reflexivity. Qed.
(** By the letter of the language no query at all is defined: resetting the
    marks reads past the end of the vectors. *)
Theorem C42_strict_refuted {Pose Obj Info Guess D : Type}
    (env : lenv Pose Obj Info Guess D) ch (g : graph Pose Obj Info) q r :
  built_graph (Guess := Guess) (D := D) g -> oob env = None -> genLoopClosures env ch g q <> Ok r.
Proof. exact (loop_strict env ch g q r). Qed.
Print Assumptions C42_strict_refuted.

(** ** C43 *)
(** Full property: no pair is reported twice.  Proved if every node starts at most
    one edge. *)
Theorem C43_each_pair_once_partial {Pose Obj Info Guess D : Type}
    (env : lenv Pose Obj Info Guess D) ch (g : graph Pose Obj Info) q g' out calls :
  built_graph (Guess := Guess) (D := D) g -> single_out g ->
  genLoopClosures env ch g q = Ok (g', out, calls) ->
  NoDup (map (fun c => (lc_from c, lc_to c)) out).
Proof. exact (loop_nodup env ch g q g' out calls). Qed.
Print Assumptions C43_each_pair_once_partial.
Example C43_example : exists s log out calls, ex_graph = Ok (s, log) /\ single_out (s_graph s) /\
  genLoopClosures ex_lenv ex_choice (s_graph s) 3 = Ok (s_graph s, out, calls) /\ length out = 2.
Proof.
  eexists _, _, _, _. split; [vm_compute; reflexivity|].
  split; [|split; vm_compute; reflexivity].
  intros [|[|[|i]]] [|[|[|j]]] a b e f X Y F; cbn in X, Y; try reflexivity;
    try (destruct i; discriminate); try (destruct j; discriminate);
    inversion X; inversion Y; subst; discriminate.
Qed.
(** Two edges between the same nodes, and the pair is reported twice. *)
Definition ex_diamond : list (sop Z bool Z Z) :=
  [SAddPose 0%Z true; SAddPose 4%Z true; SAddPose 5%Z false;
   SAddConstr 10 0 1 4%Z 1%Z; SAddConstr 11 0 1 4%Z 1%Z; SAddConstr 12 2 0 5%Z 1%Z].
Theorem C43_each_pair_once_refuted : exists s log g' out calls,
  srun ex_senv ex_diamond = Ok (s, log) /\
  genLoopClosures ex_lenv ex_choice (s_graph s) 1 = Ok (g', out, calls) /\
  ~ NoDup (map (fun c => (lc_from c, lc_to c)) out).
Proof.
  eexists _, _, _, _, _. split; [vm_compute; reflexivity|]. split; [vm_compute; reflexivity|].
  cbn. intro N. inversion N as [|x l H _]. apply H. left. reflexivity.
Qed.
Print Assumptions C43_each_pair_once_refuted.
