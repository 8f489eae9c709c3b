(** C98, C99: the published graph and its text. *)
From Coq Require Import List ZArith Bool Arith Lia.
From Verif Require Import Base GraphModel GraphSpec LoopModel SlamModel SlamSpec ExportModel ExportSpec ExportProofs PropsSlam.
Import ListNotations.
Open Scope nat_scope.

(** C98: as far as reading one element past the end of a vector goes well, the marker
    array has exactly one arrow for each constraint, numbered like the constraint,
    between the present places of its two poses, in the colour of its kind. *)
Theorem C98_markers_partial : forall (Pose Obj Info Guess D P : Type) (xy : Pose -> P)
    (env : senv Pose Obj Info Guess D) l s log null, srun env l = Ok (s, log) ->
  exists ms, graphMarkers xy (Some null) s = Ok ms /\
    (forall id, getConstrainPoses s id <> Throw <-> id < length ms) /\
    forall id m, nth_error ms id = Some m -> arrow_of xy s log id m.
Proof. exact @markers. Qed.
Print Assumptions C98_markers_partial.

(** A viewer that was sent the markers any number of times before shows after the next
    time exactly the constraints there are now: nothing stale is left. *)
Theorem C98_viewer_partial : forall (Pose Obj Info Guess D P : Type) (xy : Pose -> P)
    (env : senv Pose Obj Info Guess D) null l s log d,
  hrun xy (Some null) env (l ++ [HPublish]) = Ok (s, log, d) ->
  (forall id, d id <> None <-> getConstrainPoses s id <> Throw) /\
  (forall id m, d id = Some m -> arrow_of xy s log id m).
Proof. exact @viewer. Qed.
Print Assumptions C98_viewer_partial.

(** C98 is false by the letter of the language: as soon as there is a constraint, the
    traversal reads past the end of the vector. *)
Theorem C98_markers_refuted : forall (Pose Obj Info Guess D P : Type) (xy : Pose -> P)
    (env : senv Pose Obj Info Guess D) l s log, srun env l = Ok (s, log) ->
  getConstrainPoses s 0 <> Throw -> graphMarkers xy None s = UB.
Proof. exact @markers_strict. Qed.
Print Assumptions C98_markers_refuted.

(** Three odometry constraints and two loop closures; the poses were optimised between
    two publications. *)
Example C98_case : exists s log d,
  hrun (fun p => p) (Some false) ex_senv (map HCall (firstn 9 ex_sops) ++ [HPublish; HCall (SOptimize (fun k => Z.of_nat k))] ++ [HPublish]) =
    Ok (s, log, d) /\
  d 1 = Some (mkArrow 1 1%Z 2%Z Red) /\ option_map ar_colour (d 4) = Some Green /\ d 5 = None.
Proof. eexists _, _, _. split; [vm_compute; reflexivity|]. vm_compute. auto. Qed.

(** C99: the text has one line per pose, in order, with the place where it is reported
    to be now, and then one line per constraint with its two poses. *)
Theorem C99_text_partial : forall (Pose Obj Info Guess D P : Type) (xy : Pose -> P)
    (env : senv Pose Obj Info Guess D) l s log null, srun env l = Ok (s, log) ->
  exists np es, graphText xy (Some null) s = Ok (np ++ es) /\ length np = n_poses log /\
    (forall id x, nth_error np id = Some x -> exists p, getPoseLocation s id = Ok p /\ x = LNode id (xy p)) /\
    (forall id, getConstrainPoses s id <> Throw <-> id < length es) /\
    (forall id x, nth_error es id = Some x -> exists f t, getConstrainPoses s id = Ok (f, t) /\ x = LEdge f t).
Proof. exact @text. Qed.
Print Assumptions C99_text_partial.
Example C99_case : exists s log, srun ex_senv ex_sops = Ok (s, log) /\
  graphText (fun p => p) (Some true) s = Ok [LNode 0 0%Z; LNode 1 1%Z; LNode 2 2%Z; LNode 3 3%Z;
    LEdge 0 1; LEdge 1 2; LEdge 2 3; LEdge 3 1; LEdge 3 0].
Proof. eexists _, _. split; [vm_compute; reflexivity|]. vm_compute. reflexivity. Qed.
