(** C129: setting the poses to what the odometry tells (property statements; vocabulary in
    SeedSpec.v, proofs in SeedProofs.v). *)
From Coq Require Import Reals List ZArith Bool Arith Lia.
From Verif Require Import Base LinAlg3 GeoModel GeoSpec GeoProofs AlgProofs GraphModel LoopModel SlamModel SlamSpec SeedModel SeedSpec SeedProofs PropsSlam.
Import ListNotations.
Open Scope nat_scope.

(** Whatever was done with the graph before: if the constraints of the caller, followed
    from pose 0 on, lead to a pose that none leaves, the function ends, the poses on the way
    are where dead reckoning along these constraints puts them, and nothing else is changed. *)
Theorem C129_reckoned : forall (Pose Obj Info Guess D : Type) (zero : Pose) (concat : Pose -> Pose -> Pose)
    (env : senv Pose Obj Info Guess D) ops s log l, srun env ops = Ok (s, log) ->
  0 < n_poses log -> odo_way log 0 l ->
  exists s', (forall r, length l <= r -> initializeGrapFromOdom zero concat r s = Ok (s', true)) /\
    getPoseLocation s' 0 = Ok zero /\
    (forall k q, In (k, q) (reckon concat zero l) -> getPoseLocation s' k = Ok q) /\
    (forall k, k <> 0 -> ~ In k (map fst l) -> getPoseLocation s' k = getPoseLocation s k) /\
    rest_kept s s'.
Proof.
  intros Pose Obj Info Guess D zero concat env ops s log l R NP W.
  destruct (seed_ends zero concat env ops s log R l NP W) as (s' & E & M & A & B & C).
  exists s'. split; [exact E|]. split; [exact A|]. split; [exact B|]. split; [exact C|]. exact (rest_same zero concat s s' M).
Qed.
Print Assumptions C129_reckoned.

(** As the program builds the graph, every pose but the last being followed by a constraint
    to the next one: the function always ends and sets every pose. *)
Theorem C129_row : forall (Pose Obj Info Guess D : Type) (zero : Pose) (concat : Pose -> Pose -> Pose)
    (env : senv Pose Obj Info Guess D) ops s log t, srun env ops = Ok (s, log) ->
  0 < n_poses log -> in_a_row log t ->
  exists s', (forall r, n_poses log <= r -> initializeGrapFromOdom zero concat r s = Ok (s', true)) /\
    (forall k, k < n_poses log -> getPoseLocation s' k = Ok (along concat zero t k)) /\ rest_kept s s'.
Proof.
  intros Pose Obj Info Guess D zero concat env ops s log t R NP W.
  destruct (seed_row zero concat env ops s log R t NP W) as (s' & E & M & A).
  exists s'. split; [exact E|]. split; [exact A|]. exact (rest_same zero concat s s' M).
Qed.
Print Assumptions C129_row.

(** With the arithmetic of eigen_tools.h the place of a pose is the product of the
    transforms up to it. *)
Theorem C129_product : forall (t : nat -> pose) k,
  getTransFromPose (along (fun p e => transformConcat p (getTransFromPose e)) (mkP 0 0 0) t k) =
  fold_left t2mul (map (fun j => getTransFromPose (t j)) (seq 0 k)) t2id.
Proof.
  intros t k. induction k as [|k IH].
  - apply trans_zero.
  - rewrite seq_S, map_app, fold_left_app, <- IH. cbn [along map fold_left plus].
    apply (concat_spec (along (fun p e => transformConcat p (getTransFromPose e)) (mkP 0 0 0) t k)), rigid_pose.
Qed.
Print Assumptions C129_product.

(** "The function ends" is false: if the constraints of the caller lead back to a pose, it
    goes round for ever. *)
Theorem C129_goes_on : forall (Pose Obj Info Guess D : Type) (zero : Pose) (concat : Pose -> Pose -> Pose)
    (env : senv Pose Obj Info Guess D) ops s log, srun env ops = Ok (s, log) ->
  0 < n_poses log -> (forall l, ~ odo_way log 0 l) ->
  forall r, exists s', initializeGrapFromOdom zero concat r s = Ok (s', false).
Proof.
  intros Pose Obj Info Guess D zero concat env ops s log R NP W. exact (seed_goes_on zero concat env ops s log R NP W).
Qed.
Print Assumptions C129_goes_on.
Definition round_ops : list (sop Z bool Z Z) :=
  [SAddPose 0%Z true; SAddPose 2%Z true; SAddLast 10 2%Z 1%Z; SAddConstr 11 1 0 (-2)%Z 1%Z].
Theorem C129_ends_refuted : exists s log, srun ex_senv round_ops = Ok (s, log) /\ 0 < n_poses log /\
  forall r, exists s', initializeGrapFromOdom 0%Z Z.add r s = Ok (s', false).
Proof.
  eexists _, _. split; [vm_compute; reflexivity|]. split; [vm_compute; lia|].
  eapply (C129_goes_on _ _ _ _ _ 0%Z Z.add ex_senv round_ops); [vm_compute; reflexivity|vm_compute; lia|].
  assert (N : forall m l k, k < 2 -> length l <= m ->
    ~ odo_way [SvEdge 1 1 0 (-2)%Z 1%Z; SvLast 0 2%Z 1%Z; SvPose 1 2%Z true; SvPose 0 0%Z true] k l).
  { induction m as [|m IH]; intros l k K L W; inversion W as [k' NO | k' to t l' NX W']; subst; cbn [length] in L; try lia.
    - destruct k as [|[|k]]; [apply (NO 0 1 2%Z)|apply (NO 1 0 (-2)%Z)|lia]; eexists; vm_compute; reflexivity.
    - destruct k as [|[|k]]; [apply (NO 0 1 2%Z)|apply (NO 1 0 (-2)%Z)|lia]; eexists; vm_compute; reflexivity.
    - apply (IH l' to); [|lia|exact W']. destruct NX as (id & (i & E) & _).
      destruct id as [|[|id]]; cbn in E; [injection E as <- <- <- <-; lia|injection E as <- <- <- <-; lia|discriminate]. }
  intros l W. exact (N (length l) l 0 ltac:(lia) (le_n _) W).
Qed.
Print Assumptions C129_ends_refuted.

(** It does not reach the optimiser: whichever estimates that finds, the graph is the same
    after it, whether the poses were set before or not. *)
Theorem C129_optimiser : forall (Pose Obj Info Guess D : Type) (zero : Pose) (concat : Pose -> Pose -> Pose)
    (env : senv Pose Obj Info Guess D) ops s log l r s' est, srun env ops = Ok (s, log) ->
  0 < n_poses log -> odo_way log 0 l -> length l <= r -> initializeGrapFromOdom zero concat r s = Ok (s', true) ->
  exists a b, optimalize env s est = Ok (a, true) /\ optimalize env s' est = Ok (b, true) /\
    g_edges (s_graph b) = g_edges (s_graph a) /\ g_nodes (s_graph b) = g_nodes (s_graph a) /\ s_verts b = s_verts a.
Proof.
  intros Pose Obj Info Guess D zero concat env ops s log l r s' est R NP W L I.
  destruct (seed_ends zero concat env ops s log R l NP W) as (s2 & E & M & _).
  rewrite (E r L) in I. injection I as <-. exact (optimise_same zero concat env ops s log R s2 est M).
Qed.
Print Assumptions C129_optimiser.

(** Four poses in a row, two loop closures, after an optimisation. *)
Example C129_case : exists s log s', srun ex_senv ex_sops = Ok (s, log) /\ n_poses log = 4 /\ in_a_row log (fun _ => 2%Z) /\
  odo_way log 0 [(1, 2%Z); (2, 2%Z); (3, 2%Z)] /\
  initializeGrapFromOdom 0%Z Z.add 4 s = Ok (s', true) /\ getPoseLocation s 3 = Ok 3%Z /\ getPoseLocation s' 3 = Ok 6%Z.
Proof.
  eexists _, _, _. split; [vm_compute; reflexivity|]. split; [reflexivity|].
  match goal with |- in_a_row ?log _ /\ _ =>
    assert (NX : forall k, k < 3 -> next_odo log k (S k) 2%Z);
    [|assert (NO : no_odo log 3)] end.
  - intros k K. exists k. split.
    + exists 1%Z. destruct k as [|[|[|k]]]; [vm_compute; reflexivity..|lia].
    + intros j to' t' J (i & E). destruct k as [|[|[|k]]], j as [|[|j]]; try lia; cbn in E; congruence.
  - intros id to t (i & E). destruct id as [|[|[|id]]]; cbn in E; congruence.
  - split; [split; [intros k K; apply NX; cbn in K; lia|exact NO]|]. split.
    + apply way_on; [apply NX; lia|]. apply way_on; [apply NX; lia|]. apply way_on; [apply NX; lia|]. apply way_end, NO.
    + split; [vm_compute; reflexivity|]. split; vm_compute; reflexivity.
Qed.
