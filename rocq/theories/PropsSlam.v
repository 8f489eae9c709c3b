(** Slam2D properties C36-C40. Only statements, non-vacuity examples and
    [Print Assumptions]; the proofs live in SlamProofs.v. *)
From Coq Require Import List ZArith Bool Arith Lia.
From Verif Require Import Base GraphModel GraphSpec LoopModel LoopSpec SlamModel SlamSpec SlamProofs.
Import ListNotations.
Open Scope nat_scope.

(** An environment whose poses are integers on a line. *)
Definition ex_lenv : lenv Z bool Z Z Z :=
  mkLEnv Z.add Z.ltb (fun a b => Z.abs (a - b)) Z.abs 3%Z 10%Z (fun t s => (s - t)%Z)
         (fun (src tgt : bool) g => if src then Some (7%Z, g) else None) (Some false).
Definition ex_senv : senv Z bool Z Z Z :=
  mkSEnv ex_lenv (fun p => Z.modulo p 100) (fun _ o => o) 500%Z.
Definition ex_choice : lchoice Z := mkLChoice 0%Z (fun _ _ => 0).
(** four poses in a row, a constraint across, a call that throws, a loop query
    that finds two closures, an optimisation *)
Definition ex_sops : list (sop Z bool Z Z) :=
  [SAddPose 0%Z true; SAddPose 2%Z true; SAddLast 10 2%Z 1%Z;
   SAddPose 4%Z false; SAddLast 11 2%Z 1%Z; SAddConstr 12 9 0 1%Z 1%Z;
   SAddPose 6%Z true; SAddLast 13 2%Z 1%Z; SLoopLast ex_choice (fun k => 20 + k);
   SOptimize (fun k => Z.of_nat k)].
Example ex_sops_runs : exists s log, srun ex_senv ex_sops = Ok (s, log) /\
  n_poses log = 4 /\ length (g_edges (s_graph s)) = 5 /\ In (SvLoop true) log /\
  known_constr log 1 = Some (1, 2, 2%Z, 1%Z) /\ getPoseLocation s 3 = Ok 3%Z.
Proof.
  eexists _, _. split; [vm_compute; reflexivity|].
  split; [vm_compute; reflexivity|]. split; [vm_compute; reflexivity|].
  split; [right; left; reflexivity|]. split; vm_compute; reflexivity.
Qed.

(** ** C36 *)
(** The ids handed out are 0, 1, 2, ...; each pose added is returned (with its
    data) until the optimiser runs, and exactly the ids never handed out throw. *)
Theorem C36_poses {Pose Obj Info Guess D : Type} (env : senv Pose Obj Info Guess D) l s log :
  srun env l = Ok (s, log) ->
  rev (pose_ids log) = seq 0 (n_poses log) /\
  (forall id p o, known_pose log id = Some (p, o) ->
     getPoseLocation s id = Ok p /\ getPoseData s id = Ok o) /\
  (forall id, id < n_poses log -> exists p o, getPoseLocation s id = Ok p /\ getPoseData s id = Ok o) /\
  (forall id, n_poses log <= id -> getPoseLocation s id = Throw /\ getPoseData s id = Throw).
Proof. exact (slam_poses env l s log). Qed.
Print Assumptions C36_poses.
Example C36_example : exists s log, srun ex_senv (firstn 9 ex_sops) = Ok (s, log) /\
  known_pose log 2 = Some (4%Z, false) /\ getPoseLocation s 4 = Throw.
Proof. eexists _, _. split; [vm_compute; reflexivity|]. repeat split; vm_compute; reflexivity. Qed.

(** ** C37 *)
(** Full property: transform, end points and information matrix are returned as
    given.  The information matrix is not kept (next theorem). *)
Theorem C37_constraint_kept_partial {Pose Obj Info Guess D : Type}
    (env : senv Pose Obj Info Guess D) l s log id f t tr i :
  srun env l = Ok (s, log) -> known_constr log id = Some (f, t, tr, i) ->
  getConstrainTransform s id = Ok tr /\ getConstrainPoses s id = Ok (f, t) /\
  getConstrainInformMat s id = Ok (odo_info env).
Proof. exact (slam_constraints env l s log id f t tr i). Qed.
Print Assumptions C37_constraint_kept_partial.
Example C37_example : exists s log, srun ex_senv ex_sops = Ok (s, log) /\
  known_constr log 2 = Some (2, 3, 2%Z, 1%Z).
Proof. eexists _, _. split; vm_compute; reflexivity. Qed.

(** The information matrix the caller supplied is lost. *)
Theorem C37_information_refuted : exists (env : senv Z bool Z Z Z) l s log id f t tr i,
  srun env l = Ok (s, log) /\ known_constr log id = Some (f, t, tr, i) /\
  getConstrainInformMat s id <> Ok i.
Proof.
  exists ex_senv, ex_sops. eexists _, _. exists 1, 1, 2, 2%Z, 1%Z.
  split; [vm_compute; reflexivity|]. split; [vm_compute; reflexivity|]. vm_compute. discriminate.
Qed.
Print Assumptions C37_information_refuted.

(** ** C38 *)
(** addLastConstrain joins the pose before the most recent one to the most
    recent one. *)
Theorem C38_last_constraint {Pose Obj Info Guess D : Type}
    (env : senv Pose Obj Info Guess D) l s log a tr i s' id :
  srun env l = Ok (s, log) -> sstep env s (SAddLast a tr i) = Ok (s', SvLast id tr i) ->
  1 <= n_poses log /\ getConstrainPoses s' id = Ok (n_poses log - 2, n_poses log - 1) /\
  getConstrainTransform s' id = Ok tr.
Proof. exact (slam_last env l s log a tr i s' id). Qed.
Print Assumptions C38_last_constraint.
Theorem C38_last_constraint_throws {Pose Obj Info Guess D : Type}
    (env : senv Pose Obj Info Guess D) l s log a tr i :
  srun env l = Ok (s, log) -> n_poses log = 0 -> sstep env s (SAddLast a tr i) = Throw.
Proof. exact (slam_last_throws env l s log a tr i). Qed.
Print Assumptions C38_last_constraint_throws.
(** A first pose, then poses each followed by addLastConstrain: constraint k
    joins k to k+1 and there are no others. *)
Theorem C38_chain {Pose Obj Info Guess D : Type}
    (env : senv Pose Obj Info Guess D) p0 o0 l s log :
  srun env (SAddPose p0 o0 :: drive l) = Ok (s, log) ->
  nodeCount (s_graph s) = S (length l) /\ length (g_edges (s_graph s)) = length l /\
  forall k p o a t i, nth_error l k = Some (p, o, a, t, i) ->
    getConstrainPoses s k = Ok (k, S k) /\ getConstrainTransform s k = Ok t.
Proof. exact (slam_chain env p0 o0 l s log). Qed.
Print Assumptions C38_chain.
Definition ex_drive : list (Z * bool * addr * Z * Z) :=
  [(2%Z, true, 10, 2%Z, 1%Z); (4%Z, true, 11, 2%Z, 1%Z); (6%Z, false, 12, 2%Z, 1%Z)].
Example C38_example : exists s log, srun ex_senv (SAddPose 0%Z true :: drive ex_drive) = Ok (s, log) /\
  nodeCount (s_graph s) = 4 /\ getConstrainPoses s 2 = Ok (2, 3).
Proof. eexists _, _. split; [vm_compute; reflexivity|]. split; vm_compute; reflexivity. Qed.
Example C38_example_step : exists s log s', srun ex_senv (firstn 7 ex_sops) = Ok (s, log) /\
  sstep ex_senv s (SAddLast 13 2%Z 1%Z) = Ok (s', SvLast 2 2%Z 1%Z) /\ n_poses log = 4.
Proof. eexists _, _, _. split; [vm_compute; reflexivity|]. split; vm_compute; reflexivity. Qed.
(** With a single pose the call joins the pose to itself. *)
Example C38_single_pose : exists s log s', srun ex_senv [SAddPose 5%Z true] = Ok (s, log) /\
  sstep ex_senv s (SAddLast 13 2%Z 1%Z) = Ok (s', SvLast 0 2%Z 1%Z) /\ getConstrainPoses s' 0 = Ok (0, 0).
Proof. eexists _, _, _. split; [vm_compute; reflexivity|]. split; vm_compute; reflexivity. Qed.

(** ** C39 *)
Theorem C39_mirror {Pose Obj Info Guess D : Type} (env : senv Pose Obj Info Guess D) l s log :
  srun env l = Ok (s, log) -> mirrors (se2 env) s.
Proof. exact (slam_mirror env l s log). Qed.
Print Assumptions C39_mirror.
(** Optimising never fails, changes neither constraints nor the number of poses,
    pulls every estimate but the first into its pose, and leaves pose 0 where
    it was added (up to the angle normalisation [se2] of the back end). *)
Theorem C39_optimise {Pose Obj Info Guess D : Type} (env : senv Pose Obj Info Guess D) l s log est :
  srun env l = Ok (s, log) ->
  exists s', optimalize env s est = Ok (s', true) /\
    g_edges (s_graph s') = g_edges (s_graph s) /\ s_gedges s' = s_gedges s /\
    nodeCount (s_graph s') = nodeCount (s_graph s) /\
    (forall p, added_pose log 0 = Some p -> getPoseLocation s' 0 = Ok (se2 env p)) /\
    (forall k, 0 < k < nodeCount (s_graph s) -> getPoseLocation s' k = Ok (est k)) /\
    (forall k o, getPoseData s k = Ok o ->
       exists p, getPoseLocation s' k = Ok p /\ getPoseData s' k = Ok (updPos env p o)).
Proof. exact (slam_optimise env l s log est). Qed.
Print Assumptions C39_optimise.
Example C39_example : exists s log, srun ex_senv ex_sops = Ok (s, log) /\
  added_pose log 0 = Some 0%Z /\ nodeCount (s_graph s) = 4 /\ length (s_gedges s) = 5.
Proof. eexists _, _. split; [vm_compute; reflexivity|]. repeat split; vm_compute; reflexivity. Qed.

(** ** C40 *)
(** The result is true exactly if there were closures; each becomes one new
    constraint of loop type; everything that was there stays. *)
Theorem C40_loop_close {Pose Obj Info Guess D : Type} (env : senv Pose Obj Info Guess D)
    l s log ch fresh id s' b :
  srun env l = Ok (s, log) -> tryLoopClose env ch fresh s id = Ok (s', b) ->
  exists loops calls,
    genLoopClosures (s_lenv env) ch (s_graph s) id = Ok (s_graph s, loops, calls) /\
    (b = true <-> loops <> []) /\
    length (g_edges (s_graph s')) = length (g_edges (s_graph s)) + length loops /\
    (forall k, k < length (g_edges (s_graph s)) -> getEdge (s_graph s') k = getEdge (s_graph s) k) /\
    (forall k c, nth_error loops k = Some c ->
       exists e, getEdge (s_graph s') (length (g_edges (s_graph s)) + k) = Ok e /\
         e_from e = lc_from c /\ e_to e = lc_to c /\ e_trans e = lc_trans c /\ e_loop e = true) /\
    nodeCount (s_graph s') = nodeCount (s_graph s) /\
    (forall k, getPoseLocation s' k = getPoseLocation s k /\ getPoseData s' k = getPoseData s k) /\
    s_verts s' = s_verts s.
Proof. exact (slam_loop env l s log ch fresh id s' b). Qed.
Print Assumptions C40_loop_close.
(** Unknown ids throw. *)
Theorem C40_loop_close_throws {Pose Obj Info Guess D : Type} (env : senv Pose Obj Info Guess D)
    ch fresh (s : slam Pose Obj Info) id :
  nodeCount (s_graph s) <= id -> tryLoopClose env ch fresh s id = Throw.
Proof. exact (tryLoopClose_throws env ch fresh s id). Qed.
Print Assumptions C40_loop_close_throws.
(** tryLoopClose() without argument queries the most recent pose. *)
Theorem C40_loop_close_last {Pose Obj Info Guess D : Type} (env : senv Pose Obj Info Guess D)
    l s log ch fresh :
  srun env l = Ok (s, log) ->
  tryLoopCloseLast env ch fresh s = tryLoopClose env ch fresh s (n_poses log - 1).
Proof. exact (slam_loop_last env l s log ch fresh). Qed.
Print Assumptions C40_loop_close_last.
Example C40_example : exists s log s', srun ex_senv (firstn 8 ex_sops) = Ok (s, log) /\
  tryLoopClose ex_senv ex_choice (fun k => 20 + k) s 3 = Ok (s', true) /\
  length (g_edges (s_graph s)) = 3 /\ length (g_edges (s_graph s')) = 5.
Proof. eexists _, _, _. split; [vm_compute; reflexivity|]. split; [vm_compute; reflexivity|]. split; vm_compute; reflexivity. Qed.
