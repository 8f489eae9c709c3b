(** Model of the two robust kinds of loop constraint of Slam2D
    (INC/slam_optimizer/slam2d.h:388-447): addMaxMixtureEdge and
    addSwitchConstrainEdge, on top of the Slam2D object of SlamModel.v and of the
    plug-ins of OptModel.v.

    Both are protected members; the calls in tryLoopClose (283-290) are commented
    out.  They are modelled as operations that can come at any point of the life
    of the object.

    Simplifications: a VertexG2O pointer is an index into [s_verts], null is
    [None]; g2o's addVertex and addEdge append (addVertex would refuse an id that
    is taken: see [C133_ids]); the unused matrix information_valid (393-394) is
    left out.  The constants are reals. *)
From Coq Require Import Reals ZArith List.
From Verif Require Import Base LinAlg3 GeoModel GraphModel LoopModel SlamModel OptModel.
Import ListNotations.
Open Scope R_scope.

(** slam2d.h:395-396: 5e-9 times the identity, then (2,2) = 1e-9 *)
Definition information_invalid : M3 :=
  mkM (5 / 10 ^ 9) 0 0 0 (5 / 10 ^ 9) 0 0 0 (1 / 10 ^ 9).
(** slam2d.h:411 *)
Definition mm_weights : list R := [1; 1 / 10000].

(** An EdgeSwitchPrior: id, the switch vertex (an index into [r_sw]), its
    measurement and its 1x1 information. *)
Record prior := mkPrior { pr_id : nat; pr_v : nat; pr_meas : R; pr_info : R }.
(** An EdgeSE2Switchable: id, the two pose vertices, the switch vertex, its
    measurement and information. *)
Record swedge := mkSwE { sg_id : nat; sg_from : option nat; sg_to : option nat; sg_sw : nat;
                         sg_meas : pose; sg_info : M3 }.

Section Robust.
Context {Obj Guess D : Type}.
Notation slam := (slam pose Obj M3).
Notation senv := (senv pose Obj M3 Guess D).
Notation sop := (sop pose Obj M3 D).
Notation sev := (sev pose Obj M3).

(** The Slam2D object together with what else is in the optimiser: switch
    vertices with their ids, priors, switchable edges, mixtures with their ids. *)
Record robust := mkRob {
  r_slam : slam;
  r_sw : list (nat * switch);
  r_prior : list prior;
  r_swedges : list swedge;
  r_mix : list (nat * mixture) }.
Definition robust_init : robust := mkRob slam_init [] [] [] [].

(** Writing the two counters g2o_edge_seq_ and g2o_node_seq_. *)
Definition with_seq (s : slam) (e v : nat) : slam :=
  mkSlam (s_graph s) (s_last s) (s_prev s) (s_first s) (s_first_added s) e v
    (s_verts s) (s_gedges s) (s_map s).

(** Estimate of the vertex a pointer refers to; used only for pointers into
    [s_verts]. *)
Definition estOf (s : slam) (k : nat) : pose :=
  match nth_error (s_verts s) k with Some v => v_est v | None => mkP 0 0 0 end.

(** slam2d.h:400-408, one component; the vertices are dereferenced when the
    mixture is constructed. *)
Definition component (env : senv) (from to : nat) (t : pose) (i : M3) : sedge :=
  mkSE from to (se2 env t) i (mkP 0 0 0).

(** slam2d.h:388-416.  The constructor of the mixture (edge_se2_mixture.cpp:50-55)
    evaluates the components, so a null vertex is dereferenced there. *)
Definition addMaxMixtureEdge (env : senv) (r : robust) (from to : option nat) (t : pose) (i : M3)
  : res robust :=
  let s := r_slam r in
  match from, to with
  | Some f, Some g =>
      do _ <- vget (s_verts s) f;
      do _ <- vget (s_verts s) g;
      let es := map (component env f g t) [i; information_invalid] in
      do m <- initComponents (estOf s) (newMixture (mkSE 0 0 (mkP 0 0 0) mid (mkP 0 0 0))) es mm_weights;
      Ok (mkRob (with_seq s (S (s_eseq s)) (s_vseq s)) (r_sw r) (r_prior r) (r_swedges r)
            (r_mix r ++ [(s_eseq s, m)]))
  | _, _ => UB
  end.

(** slam2d.h:418-447.  [one]: the value of Eigen::Matrix<double, 1, 1>(1), which
    is 1 since Eigen 3.3; in Eigen 3.2 that constructor takes a size and leaves
    the coefficient as it is. *)
Definition addSwitchConstrainEdge (env : senv) (one : R) (r : robust) (from to : option nat)
  (t : pose) (i : M3) : robust :=
  let s := r_slam r in
  let sw := swstep newSwitch (SwSet (Some 1)) in
  let k := length (r_sw r) in
  let p := mkPrior (s_eseq s) k 1 one in
  let l := mkSwE (S (s_eseq s)) from to k (se2 env t) i in
  mkRob (with_seq s (S (S (s_eseq s))) (S (s_vseq s)))
    (r_sw r ++ [(s_vseq s, sw)]) (r_prior r ++ [p]) (r_swedges r ++ [l]) (r_mix r).

(** [f] applied to every element together with its position. *)
Fixpoint imap {A B} (f : nat -> A -> B) (n : nat) (l : list A) : list B :=
  match l with [] => [] | x :: t => f n x :: imap f (S n) t end.

(** One iteration of the optimiser (g2o, not in the repository): the mixtures are
    evaluated, then the poses that are not fixed move to [fst it] and every
    switch is incremented by [snd it]; both are arbitrary. *)
Definition moveAt (est : nat -> pose) (l : list (vertex pose)) : list (vertex pose) :=
  imap (fun k v => if v_fixed v then v else mkVtx (v_id v) (est k) (v_fixed v)) 0 l.
Definition with_verts (s : slam) (l : list (vertex pose)) : slam :=
  mkSlam (s_graph s) (s_last s) (s_prev s) (s_first s) (s_first_added s) (s_eseq s) (s_vseq s)
    l (s_gedges s) (s_map s).
Definition evalMix (est : nat -> pose) (l : list (nat * mixture)) : res (list (nat * mixture)) :=
  foldM (fun acc im => do m <- computeErrorMix est (snd im); Ok (acc ++ [(fst im, m)])) l [].
Definition iteration : Type := (nat -> pose) * (nat -> R).
Definition iterate (r : robust) (it : iteration) : res robust :=
  let s := r_slam r in
  do ms <- evalMix (estOf s) (r_mix r);
  Ok (mkRob (with_verts s (moveAt (fst it) (s_verts s)))
        (imap (fun k x => (fst x, swstep (snd x) (SwOplus (Some (snd it k))))) 0 (r_sw r))
        (r_prior r) (r_swedges r) ms).

(** slam2d.h:157-172 with the iterations spelled out: at least one, a last
    evaluation, then the poses are read back. *)
Definition optimalizeRobust (env : senv) (r : robust) (pre : list iteration) (fin : iteration) : res robust :=
  do r1 <- foldM iterate (pre ++ [fin]) r;
  do ms <- evalMix (estOf (r_slam r1)) (r_mix r1);
  do s' <- updatePoseGraph env (r_slam r1);
  Ok (mkRob s' (r_sw r1) (r_prior r1) (r_swedges r1) ms).

(** ** Histories *)
Inductive rop :=
| RAddPose (p : pose) (o : Obj)
| RAddConstr (a : addr) (from to : nat) (t : pose) (i : M3)
| RAddLast (a : addr) (t : pose) (i : M3)
| RLoop (id : nat) (ch : lchoice D) (fresh : nat -> addr)
| RLoopLast (ch : lchoice D) (fresh : nat -> addr)
| ROptimize (pre : list iteration) (fin : iteration)
| RMixture (from to : nat) (t : pose) (i : M3)
| RSwitch (from to : nat) (t : pose) (i : M3).

Definition on_slam (r : robust) (s : slam) : robust :=
  mkRob s (r_sw r) (r_prior r) (r_swedges r) (r_mix r).

(** The last two operations look their vertices up by pose id, as in the lines
    283-290.  What the caller sees: nothing for the two new operations. *)
Definition rstep (env : senv) (one : R) (r : robust) (o : rop) : res (robust * list sev) :=
  let lift o := do x <- sstep env (r_slam r) o; Ok (on_slam r (fst x), [snd x]) in
  match o with
  | RAddPose p x => lift (SAddPose p x)
  | RAddConstr a f t tr i => lift (SAddConstr a f t tr i)
  | RAddLast a tr i => lift (SAddLast a tr i)
  | RLoop id ch fresh => lift (SLoop id ch fresh)
  | RLoopLast ch fresh => lift (SLoopLast ch fresh)
  | ROptimize pre fin => do x <- optimalizeRobust env r pre fin; Ok (x, [SvOpt])
  | RMixture f t tr i =>
      do x <- addMaxMixtureEdge env r (map_get (s_map (r_slam r)) f) (map_get (s_map (r_slam r)) t) tr i;
      Ok (x, [])
  | RSwitch f t tr i =>
      Ok (addSwitchConstrainEdge env one r (map_get (s_map (r_slam r)) f) (map_get (s_map (r_slam r)) t) tr i, [])
  end.
Definition rstep_log (env : senv) (one : R) (st : robust * list sev) (o : rop) : res (robust * list sev) :=
  match rstep env one (fst st) o with
  | Ok (r', ev) => Ok (r', ev ++ snd st)
  | Throw => Ok (fst st, SvThrow :: snd st)
  | UB => UB
  end.
Definition rrun (env : senv) (one : R) (l : list rop) : res (robust * list sev) :=
  foldM (rstep_log env one) l (robust_init, []).

End Robust.
Arguments robust : clear implicits.
Arguments rop : clear implicits.
