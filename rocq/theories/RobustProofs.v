(** Proofs about the robust constraints of Slam2D. *)
From Coq Require Import Reals ZArith List Bool Arith Lia Lra.
From Verif Require Import Base LinAlg3 GeoModel GeoSpec GraphModel GraphSpec GraphProofs LoopModel
  SlamModel SlamSpec SlamProofs OptModel OptSpec OptProofs RobustModel RobustSpec.
Import ListNotations.
Open Scope nat_scope.

(** ** positions *)
Lemma imap_app {A B} (f : nat -> A -> B) l1 : forall n l2,
  imap f n (l1 ++ l2) = imap f n l1 ++ imap f (n + length l1) l2.
Proof.
  induction l1 as [|x t IH]; intros n l2; cbn.
  - rewrite Nat.add_0_r. reflexivity.
  - rewrite IH. do 3 f_equal. lia.
Qed.
Lemma imap_imap {A B C} (f : nat -> A -> B) (g : nat -> B -> C) l : forall n,
  imap g n (imap f n l) = imap (fun k x => g k (f k x)) n l.
Proof. induction l as [|x t IH]; intro n; cbn; congruence. Qed.
Lemma imap_ext {A B} (f g : nat -> A -> B) l : (forall k x, f k x = g k x) -> forall n, imap f n l = imap g n l.
Proof. intro H. induction l as [|x t IH]; intro n; cbn; [reflexivity|]. rewrite H, IH. reflexivity. Qed.
Lemma imap_length {A B} (f : nat -> A -> B) l : forall n, length (imap f n l) = length l.
Proof. induction l as [|x t IH]; intro n; cbn; congruence. Qed.
Lemma map_imap {A B C} (f : nat -> A -> B) (g : B -> C) l : forall n,
  map g (imap f n l) = imap (fun k x => g (f k x)) n l.
Proof. induction l as [|x t IH]; intro n; cbn; congruence. Qed.
Lemma imap_map {A B} (g : A -> B) l : forall n, imap (fun _ x => g x) n l = map g l.
Proof. induction l as [|x t IH]; intro n; cbn; congruence. Qed.
Lemma nth_error_imap {A B} (f : nat -> A -> B) l : forall n k,
  nth_error (imap f n l) k = option_map (f (n + k)) (nth_error l k).
Proof.
  induction l as [|x t IH]; intros n k; destruct k as [|k]; cbn; try reflexivity.
  - rewrite Nat.add_0_r. reflexivity.
  - rewrite IH. f_equal. f_equal. lia.
Qed.

Definition rmap {A B} (f : A -> B) (x : res A) : res B :=
  match x with Ok a => Ok (f a) | UB => UB | Throw => Throw end.
Lemma rmap_bind {A B C} (f : B -> C) (m : res A) (k : A -> res B) :
  rmap f (bind m k) = bind m (fun a => rmap f (k a)).
Proof. destruct m; reflexivity. Qed.

Lemma mix_nothrow est m : computeErrorMix est m <> Throw.
Proof.
  unfold computeErrorMix.
  assert (NF : forall l st, foldM (bestStep est) l st <> Throw).
  { induction l as [|c l IH]; intros [[m1 b] p]; cbn [foldM]; [discriminate|].
    unfold bestStep at 1. unfold getNegLogProb, vget, vset.
    repeat (match goal with |- context [nth_error ?a ?b] => destruct (nth_error a b) end; cbn [bind]; try discriminate).
    destruct (_ <? _); cbn [bind]; [|discriminate]. destruct (xgt _ _); apply IH. }
  specialize (NF (seq 0 (mx_n m)) (m, (-1)%Z, PInf)).
  destruct (foldM _ _ _) as [[[m1 b] p]| |]; cbn [bind]; [|discriminate|congruence].
  unfold updateBelief, vget. destruct (b <? 0)%Z; cbn [bind]; [discriminate|].
  cbn [mx_edges]. destruct (nth_error _ _); cbn [bind]; discriminate.
Qed.
Lemma evalMix_nothrow est l : evalMix est l <> Throw.
Proof.
  unfold evalMix. set (f := fun _ _ => _). cut (forall acc, foldM f l acc <> Throw); [intro H; apply H|].
  induction l as [|im l IH]; intro acc; cbn [foldM]; [discriminate|]. unfold f at 1.
  destruct (computeErrorMix est (snd im)) eqn:E; cbn [bind]; [apply IH|discriminate|].
  exfalso. apply (mix_nothrow _ _ E).
Qed.

Section R.
Context {Obj Guess D : Type}.
Notation graph := (graph pose Obj M3).
Notation slam := (slam pose Obj M3).
Notation senv := (senv pose Obj M3 Guess D).
Notation sop := (sop pose Obj M3 D).
Notation sev := (sev pose Obj M3).
Notation robust := (robust Obj).
Notation rop := (rop Obj D).
Implicit Types (env : senv) (s : slam) (r : robust).

(** ** the object with the optimiser's numbers made consecutive *)
Definition reV (k : nat) (v : vertex pose) : vertex pose := mkVtx k (v_est v) (v_fixed v).
Definition reE (k : nat) (e : gedge pose M3) : gedge pose M3 :=
  mkGE k (ge_from e) (ge_to e) (ge_meas e) (ge_info e).
Definition relabel (s : slam) : slam :=
  mkSlam (s_graph s) (s_last s) (s_prev s) (s_first s) (s_first_added s)
    (length (s_gedges s)) (length (s_verts s)) (imap reV 0 (s_verts s)) (imap reE 0 (s_gedges s)) (s_map s).

Lemma relabel_graph s g : with_graph (relabel s) g = relabel (with_graph s g).
Proof. reflexivity. Qed.

Lemma addPose_relabel env s p o : addPose env (relabel s) p o =
  (relabel (fst (addPose env s p o)), snd (addPose env s p o)).
Proof.
  unfold addPose, relabel. cbn [s_graph s_first_added s_last s_prev s_first s_eseq s_vseq s_verts s_gedges s_map].
  destruct (addNode (s_graph s) p o) as [g id].
  cbn [fst snd s_graph s_first_added s_last s_prev s_first s_eseq s_vseq s_verts s_gedges s_map].
  rewrite imap_app, imap_length, app_length. cbn [imap length]. rewrite Nat.add_0_l, Nat.add_1_r.
  reflexivity.
Qed.

Lemma addConstrain_relabel env s a f t tr i : addConstrain env (relabel s) a f t tr i =
  rmap (fun x => (relabel (fst x), snd x)) (addConstrain env s a f t tr i).
Proof.
  unfold addConstrain. cbn [relabel s_graph].
  destruct (getNode (s_graph s) f) as [nf| |]; cbn [bind rmap]; try reflexivity.
  destruct (getNode (s_graph s) t) as [nt| |]; cbn [bind rmap]; try reflexivity.
  destruct (addEdge _ _ _) as [[g id]| |]; cbn [bind rmap]; try reflexivity.
  destruct (modEdge g id _) as [g1| |]; cbn [bind rmap]; try reflexivity.
  destruct (modEdge g1 id _) as [g2| |]; cbn [bind rmap]; try reflexivity.
  unfold relabel.
  cbn [fst snd s_graph s_first_added s_last s_prev s_first s_eseq s_vseq s_verts s_gedges s_map].
  rewrite imap_app, app_length. cbn [imap length]. rewrite Nat.add_0_l, Nat.add_1_r. reflexivity.
Qed.

Lemma addClosure_relabel env fresh s k c : addClosure env fresh (relabel s, k) c =
  rmap (fun x => (relabel (fst x), snd x)) (addClosure env fresh (s, k) c).
Proof.
  unfold addClosure. rewrite addConstrain_relabel.
  destruct (addConstrain _ _ _ _ _ _ _) as [[s' id]| |]; cbn [bind rmap fst snd]; try reflexivity.
  cbn [relabel s_graph]. destruct (modEdge _ _ _) as [g| |]; cbn [bind rmap fst snd]; try reflexivity.
Qed.

Lemma addClosures_relabel env fresh : forall loops s k, foldM (addClosure env fresh) loops (relabel s, k) =
  rmap (fun x => (relabel (fst x), snd x)) (foldM (addClosure env fresh) loops (s, k)).
Proof.
  induction loops as [|c t IH]; intros s k; cbn [foldM]; [reflexivity|].
  rewrite addClosure_relabel. destruct (addClosure env fresh (s, k) c) as [[s' k']| |]; cbn [bind rmap fst snd]; auto.
Qed.

Lemma tryLoopClose_relabel env ch fresh s id : tryLoopClose env ch fresh (relabel s) id =
  rmap (fun x => (relabel (fst x), snd x)) (tryLoopClose env ch fresh s id).
Proof.
  unfold tryLoopClose. cbn [relabel s_graph].
  destruct (genLoopClosures _ _ _ _) as [[[g loops] calls]| |]; cbn [bind rmap]; try reflexivity.
  rewrite relabel_graph, addClosures_relabel.
  destruct (foldM _ _ _) as [[s' k']| |]; reflexivity.
Qed.

Lemma pullVertex_relabel env s kv : pullVertex env (relabel s) kv = rmap relabel (pullVertex env s kv).
Proof.
  unfold pullVertex, vget. cbn [relabel s_verts]. rewrite nth_error_imap. cbn [Nat.add].
  destruct (nth_error (s_verts s) (snd kv)) as [v|]; cbn [option_map bind rmap]; [|reflexivity].
  cbn [reV v_est relabel s_graph].
  destruct (modNode _ _ _) as [g| |]; cbn [bind rmap]; try reflexivity.
  destruct (getNode _ _) as [n| |]; cbn [bind rmap]; try reflexivity.
  destruct (modNode _ _ _) as [g2| |]; cbn [bind rmap]; reflexivity.
Qed.
Lemma pulls_relabel env : forall l s, foldM (pullVertex env) l (relabel s) = rmap relabel (foldM (pullVertex env) l s).
Proof.
  induction l as [|kv t IH]; intro s; cbn [foldM]; [reflexivity|].
  rewrite pullVertex_relabel. destruct (pullVertex env s kv); cbn [bind rmap]; auto.
Qed.
Lemma updatePoseGraph_relabel env s : updatePoseGraph env (relabel s) = rmap relabel (updatePoseGraph env s).
Proof. unfold updatePoseGraph. cbn [relabel s_map]. apply pulls_relabel. Qed.

(** everything but optimising *)
Definition plain (o : sop) : bool := match o with SOptimize _ => false | _ => true end.
Lemma sstep_relabel env s o : plain o = true ->
  sstep env (relabel s) o = rmap (fun x => (relabel (fst x), snd x)) (sstep env s o).
Proof.
  intro P. destruct o as [p x|a f t tr i|a tr i|id ch fr|ch fr|est]; cbn [sstep]; try discriminate P.
  - rewrite addPose_relabel. destruct (addPose env s p x). reflexivity.
  - rewrite addConstrain_relabel. destruct (addConstrain _ _ _ _ _ _ _); reflexivity.
  - unfold addLastConstrain. cbn [relabel s_prev s_last]. rewrite addConstrain_relabel.
    destruct (addConstrain _ _ _ _ _ _ _); reflexivity.
  - rewrite tryLoopClose_relabel. destruct (tryLoopClose _ _ _ _ _); reflexivity.
  - unfold tryLoopCloseLast. cbn [relabel s_last]. rewrite tryLoopClose_relabel.
    destruct (tryLoopClose _ _ _ _ _); reflexivity.
Qed.

Lemma moveAt_twice e1 e2 l : moveAt e2 (moveAt e1 l) = moveAt e2 l.
Proof.
  unfold moveAt. rewrite imap_imap. apply imap_ext. intros k v. destruct (v_fixed v) eqn:F; [rewrite F; reflexivity|].
  cbn [v_fixed v_id]. reflexivity.
Qed.
Lemma move_relabel est l : moveVerts est (imap reV 0 l) = imap reV 0 (moveAt est l).
Proof.
  unfold moveVerts, moveAt. rewrite map_imap, imap_imap. apply imap_ext. intros k v.
  cbn [reV v_fixed v_id]. destruct (v_fixed v) eqn:F; unfold reV; cbn [v_est v_fixed]; rewrite ?F; reflexivity.
Qed.

(** iterations of the optimiser *)
Lemma iterate_slam r it r' : iterate r it = Ok r' ->
  r_slam r' = with_verts (r_slam r) (moveAt (fst it) (s_verts (r_slam r))) /\
  r_prior r' = r_prior r /\ r_swedges r' = r_swedges r /\
  evalMix (estOf (r_slam r)) (r_mix r) = Ok (r_mix r') /\
  r_sw r' = imap (fun k x => (fst x, swstep (snd x) (SwOplus (Some (snd it k))))) 0 (r_sw r).
Proof.
  unfold iterate. destruct (evalMix _ _) as [ms| |]; cbn [bind]; intro H; try discriminate H.
  injection H as <-. cbn. auto.
Qed.
Lemma iterates_slam : forall pre fin r r', foldM iterate (pre ++ [fin]) r = Ok r' ->
  r_slam r' = with_verts (r_slam r) (moveAt (fst fin) (s_verts (r_slam r))).
Proof.
  induction pre as [|it pre IH]; intros fin r r' H; cbn [app foldM] in H.
  - apply bind_ok_inv in H. destruct H as (r1 & H1 & H2). injection H2 as <-.
    apply (iterate_slam r fin r1 H1).
  - apply bind_ok_inv in H. destruct H as (r1 & H1 & H2). apply IH in H2. rewrite H2.
    destruct (iterate_slam r it r1 H1) as (E & _). rewrite E. unfold with_verts.
    cbn [s_graph s_last s_prev s_first s_first_added s_eseq s_vseq s_verts s_gedges s_map]. rewrite moveAt_twice. reflexivity.
Qed.

Lemma optimise_relabel env s est : optimalize env (relabel s) est =
  rmap (fun x => (relabel x, true)) (updatePoseGraph env (with_verts s (moveAt est (s_verts s)))).
Proof.
  unfold optimalize. cbn [relabel s_graph s_last s_prev s_first s_first_added s_eseq s_vseq s_verts s_gedges s_map].
  rewrite move_relabel.
  match goal with |- context [updatePoseGraph env ?x] =>
    replace x with (relabel (with_verts s (moveAt est (s_verts s)))) end.
  2: { unfold relabel, with_verts.
    cbn [s_graph s_last s_prev s_first s_first_added s_eseq s_vseq s_verts s_gedges s_map]. unfold moveAt at 1. rewrite imap_length. reflexivity. }
  rewrite updatePoseGraph_relabel. destruct (updatePoseGraph _ _); reflexivity.
Qed.

(** one step *)
Definition erase1 (o : rop) : list sop := erase [o].
Lemma erase_app l1 : forall l2 : list rop, erase (l1 ++ l2) = erase l1 ++ erase l2.
Proof. induction l1 as [|o t IH]; intro l2; [reflexivity|]. destruct o; cbn [erase app]; rewrite IH; reflexivity. Qed.

Lemma lift_relabel env r log o r' log' : plain o = true ->
  match (do x <- sstep env (r_slam r) o; Ok (on_slam r (fst x), [snd x])) with
  | Ok (r', ev) => Ok (r', ev ++ log) | Throw => Ok (r, SvThrow :: log) | UB => UB end = Ok (r', log') ->
  foldM (sstep_log env) [o] (relabel (r_slam r), log) = Ok (relabel (r_slam r'), log').
Proof.
  intros P. cbn [foldM]. unfold sstep_log. cbn [fst snd]. rewrite (sstep_relabel env _ o P).
  destruct (sstep env (r_slam r) o) as [[s' ev]| |]; cbn [bind rmap fst snd]; intro H; try discriminate H;
  injection H as <- <-; reflexivity.
Qed.

Lemma iterates_nothrow l : forall r, foldM iterate l r <> Throw.
Proof.
  induction l as [|it l IH]; intro r; cbn [foldM]; [discriminate|].
  unfold iterate at 1. destruct (evalMix _ _) eqn:E; cbn [bind]; [apply IH|discriminate|].
  exfalso. apply (evalMix_nothrow _ _ E).
Qed.
Lemma pull_ok env s est : SI env (relabel s) ->
  exists s', updatePoseGraph env (with_verts s (moveAt est (s_verts s))) = Ok s'.
Proof.
  intro I. destruct (optimalize_ok env (relabel s) est I) as (s' & E & _). rewrite optimise_relabel in E.
  destruct (updatePoseGraph _ _) as [x| |]; [eauto|discriminate E|discriminate E].
Qed.
Lemma optimise_nothrow env r pre fin : SI env (relabel (r_slam r)) -> optimalizeRobust env r pre fin <> Throw.
Proof.
  intros I. unfold optimalizeRobust. destruct (foldM iterate _ r) as [r1| |] eqn:E; cbn [bind]; [|discriminate|].
  - destruct (evalMix _ _) as [ms| |] eqn:E2; cbn [bind]; [|discriminate|exfalso; apply (evalMix_nothrow _ _ E2)].
    rewrite (iterates_slam _ _ _ _ E). destruct (pull_ok env (r_slam r) (fst fin) I) as (s' & ->). discriminate.
  - exfalso. apply (iterates_nothrow _ _ E).
Qed.

Lemma rstep_relabel env one r log o r' log' : rstep_log env one (r, log) o = Ok (r', log') ->
  SI env (relabel (r_slam r)) ->
  foldM (sstep_log env) (erase1 o) (relabel (r_slam r), log) = Ok (relabel (r_slam r'), log').
Proof.
  unfold rstep_log. cbn [fst snd]. unfold erase1.
  destruct o as [p x|a f t tr i|a tr i|id ch fr|ch fr|pre fin|f t tr i|f t tr i]; cbn [rstep erase]; intros H I.
  - apply (lift_relabel env r log (SAddPose p x)); auto.
  - apply (lift_relabel env r log (SAddConstr a f t tr i)); auto.
  - apply (lift_relabel env r log (SAddLast a tr i)); auto.
  - apply (lift_relabel env r log (SLoop id ch fr)); auto.
  - apply (lift_relabel env r log (SLoopLast ch fr)); auto.
  - pose proof (optimise_nothrow env r pre fin I) as NT.
    destruct (optimalizeRobust env r pre fin) as [x| |] eqn:E; cbn [bind] in *; [|discriminate H|congruence].
    injection H as <- <-. unfold optimalizeRobust in E.
    apply bind_ok_inv in E. destruct E as (r1 & E1 & E).
    apply bind_ok_inv in E. destruct E as (ms & E2 & E).
    apply bind_ok_inv in E. destruct E as (s' & E3 & E). injection E as <-. cbn [r_slam].
    apply iterates_slam in E1. rewrite E1 in E3.
    cbn [foldM]. unfold sstep_log. cbn [fst snd sstep]. rewrite optimise_relabel, E3. reflexivity.
  - destruct (addMaxMixtureEdge _ _ _ _ _ _) as [x| |] eqn:E; cbn [bind] in H; [|discriminate H|].
    + injection H as <- <-. cbn [foldM app]. do 2 f_equal. unfold addMaxMixtureEdge in E.
      destruct (map_get _ f); [|discriminate E]. destruct (map_get _ t); [|discriminate E].
      apply bind_ok_inv in E. destruct E as (? & _ & E). apply bind_ok_inv in E. destruct E as (? & _ & E).
      apply bind_ok_inv in E. destruct E as (? & _ & E). injection E as <-. reflexivity.
    + exfalso. clear -E. unfold addMaxMixtureEdge in E.
      destruct (map_get _ f); [|discriminate E]. destruct (map_get _ t); [|discriminate E].
      unfold vget in E. destruct (nth_error _ _); [|discriminate E]. destruct (nth_error _ _); [|discriminate E].
      cbn [bind] in E.
      unfold initComponents in E. match goal with E : bind ?a _ = Throw |- _ => destruct a eqn:E2 end;
        cbn [bind] in E; try discriminate E. apply (mix_nothrow _ _ E2).
  - injection H as <- <-. reflexivity.
Qed.

(** ** what a step does to the optimiser's numbers *)
Definition grows (s s' : slam) (nv : nat) : Prop :=
  (exists vs, s_verts s' = s_verts s ++ vs /\ map v_id vs = seq (s_vseq s) nv) /\
  s_vseq s' = s_vseq s + nv /\
  exists es, s_gedges s' = s_gedges s ++ es /\ map ge_id es = seq (s_eseq s) (length es) /\
    s_eseq s' = s_eseq s + length es.
Lemma grows_refl s s' : s_verts s' = s_verts s -> s_vseq s' = s_vseq s -> s_gedges s' = s_gedges s ->
  s_eseq s' = s_eseq s -> grows s s' 0.
Proof.
  intros E1 E2 E3 E4. split; [|split].
  - exists []. rewrite app_nil_r. auto.
  - lia.
  - exists []. rewrite app_nil_r. cbn. split; [auto|split; [auto|lia]].
Qed.
Lemma grows_trans s1 s2 s3 a b : grows s1 s2 a -> grows s2 s3 b -> grows s1 s3 (a + b).
Proof.
  intros ((v1 & A1 & A2) & A3 & e1 & A4 & A5 & A6) ((v2 & B1 & B2) & B3 & e2 & B4 & B5 & B6). split; [|split].
  - exists (v1 ++ v2). rewrite B1, A1, app_assoc, map_app, A2, B2, A3, seq_app. auto.
  - lia.
  - exists (e1 ++ e2). rewrite B4, A4, app_assoc, map_app, A5, B5, A6, app_length, seq_app. split; [auto|split; [auto|lia]].
Qed.
Lemma addConstrain_grows env s a f t tr i s' id : addConstrain env s a f t tr i = Ok (s', id) -> grows s s' 0.
Proof.
  unfold addConstrain. intro H.
  repeat match type of H with
  | bind _ _ = Ok _ => apply bind_ok_inv in H; let x := fresh "x" in destruct H as (x & _ & H)
  | (let '(_, _) := ?x in _) = Ok _ => destruct x
  end.
  injection H as <- <-. split; [|split]; cbn [s_verts s_vseq s_gedges s_eseq].
  - exists []. rewrite app_nil_r. auto.
  - lia.
  - eexists [_]. split; [reflexivity|]. cbn. split; [reflexivity|lia].
Qed.
Lemma closures_grow env fresh : forall loops s k s' k',
  foldM (addClosure env fresh) loops (s, k) = Ok (s', k') -> grows s s' 0.
Proof.
  induction loops as [|c t IH]; intros s k s' k' H; cbn [foldM] in H.
  - injection H as <- <-. apply grows_refl; reflexivity.
  - apply bind_ok_inv in H. destruct H as ([s1 k1] & E & H). unfold addClosure in E.
    apply bind_ok_inv in E. destruct E as ([s2 id] & E1 & E). apply bind_ok_inv in E. destruct E as (g & _ & E).
    injection E as <- <-. apply addConstrain_grows in E1. apply IH in H. cbn [fst] in H.
    change 0 with (0 + 0). eapply grows_trans; [exact E1|]. exact H.
Qed.
Lemma tryLoop_grows env ch fresh s id s' b : tryLoopClose env ch fresh s id = Ok (s', b) -> grows s s' 0.
Proof.
  unfold tryLoopClose. intro H. apply bind_ok_inv in H. destruct H as ([[g loops] calls] & _ & H).
  apply bind_ok_inv in H. destruct H as ([s1 k] & E & H). injection H as <- <-. cbn [fst].
  apply closures_grow in E. exact E.
Qed.
Definition new_poses (o : sop) : nat := match o with SAddPose _ _ => 1 | _ => 0 end.
Lemma sstep_grows env s o s' ev : plain o = true -> sstep env s o = Ok (s', ev) -> grows s s' (new_poses o).
Proof.
  intros P H. destruct o as [p x|a f t tr i|a tr i|id ch fr|ch fr|est]; cbn [sstep new_poses] in *; try discriminate P.
  - unfold addPose in H. destruct (addNode (s_graph s) p x) as [g id]. injection H as <- <-.
    split; [|split]; cbn [s_verts s_vseq s_gedges s_eseq].
    + exists [mkVtx (s_vseq s) (se2 env p) (negb (s_first_added s))]. split; reflexivity.
    + lia.
    + exists []. rewrite app_nil_r. cbn. split; [auto|split; [auto|lia]].
  - apply bind_ok_inv in H. destruct H as ([s1 id] & E & H). injection H as <- <-. exact (addConstrain_grows _ _ _ _ _ _ i _ _ E).
  - apply bind_ok_inv in H. destruct H as ([s1 id] & E & H). injection H as <- <-. exact (addConstrain_grows _ _ _ _ _ _ i _ _ E).
  - apply bind_ok_inv in H. destruct H as ([s1 b] & E & H). injection H as <- <-. exact (tryLoop_grows _ _ _ _ _ _ _ E).
  - apply bind_ok_inv in H. destruct H as ([s1 b] & E & H). injection H as <- <-. exact (tryLoop_grows _ _ _ _ _ _ _ E).
Qed.
Lemma pulls_grow env : forall l s s', foldM (pullVertex env) l s = Ok s' ->
  s_verts s' = s_verts s /\ s_vseq s' = s_vseq s /\ s_gedges s' = s_gedges s /\ s_eseq s' = s_eseq s.
Proof.
  induction l as [|kv t IH]; intros s s' H; cbn [foldM] in H.
  - injection H as <-. auto.
  - apply bind_ok_inv in H. destruct H as (s1 & E & H). apply IH in H. unfold pullVertex in E.
    repeat (apply bind_ok_inv in E; let x := fresh "x" in destruct E as (x & _ & E)).
    injection E as <-. exact H.
Qed.

(** ** numbering *)
Lemma arrivals_app l1 : forall l2 : list rop, arrivals (l1 ++ l2) = arrivals l1 ++ arrivals l2.
Proof. induction l1 as [|o t IH]; intro l2; [reflexivity|]. destruct o; cbn [arrivals app]; rewrite IH; reflexivity. Qed.
Lemma places_app b l1 : forall n l2, places b n (l1 ++ l2) = places b n l1 ++ places b (n + length l1) l2.
Proof.
  induction l1 as [|x t IH]; intros n l2; cbn [places app length].
  - rewrite Nat.add_0_r. reflexivity.
  - rewrite IH, Nat.add_succ_r. destruct (Bool.eqb x b); reflexivity.
Qed.
Lemma places_in b l : forall n k, In k (places b n l) <-> n <= k /\ nth_error l (k - n) = Some b.
Proof.
  induction l as [|x t IH]; intros n k; cbn [places].
  - split; [intros []|]. intros [_ H]. destruct (k - n); discriminate H.
  - assert (T : In k (places b (S n) t) <-> S n <= k /\ nth_error t (k - S n) = Some b) by apply IH.
    destruct (Bool.eqb x b) eqn:E; cbn [In].
    + apply eqb_prop in E. subst x. rewrite T. split.
      * intros [<- | [L H]]; [rewrite Nat.sub_diag; auto|]. split; [lia|].
        replace (k - n) with (S (k - S n)) by lia. exact H.
      * intros [L H]. destruct (Nat.eq_dec n k) as [|N]; [left; auto|right]. split; [lia|].
        replace (k - n) with (S (k - S n)) in H by lia. exact H.
    + apply eqb_false_iff in E. rewrite T. split.
      * intros [L H]. split; [lia|]. replace (k - n) with (S (k - S n)) by lia. exact H.
      * intros [L H]. destruct (Nat.eq_dec n k) as [<- |N].
        -- rewrite Nat.sub_diag in H. cbn in H. congruence.
        -- split; [lia|]. replace (k - n) with (S (k - S n)) in H by lia. exact H.
Qed.
Lemma places_nodup b l : forall n, NoDup (places b n l).
Proof.
  induction l as [|x t IH]; intro n; cbn [places]; [constructor|].
  destruct (Bool.eqb x b); [|apply IH]. constructor; [|apply IH]. rewrite places_in. lia.
Qed.
Lemma switch_app l1 : forall n l2, switch_requests n (l1 ++ l2) =
  switch_requests n l1 ++ switch_requests (n + length (places true 0 (arrivals l1))) (l2 : list rop).
Proof.
  assert (PL : forall l a b, length (places true a l) = length (places true b l)).
  { induction l as [|x t IH]; intros a b; cbn [places]; [reflexivity|].
    destruct (Bool.eqb x true); cbn [length]; rewrite (IH (S a) (S b)); reflexivity. }
  induction l1 as [|o t IH]; intros n l2.
  - cbn. rewrite Nat.add_0_r. reflexivity.
  - destruct o; cbn [switch_requests arrivals places app length Bool.eqb]; rewrite IH;
      rewrite ?(PL (arrivals t) 1 0), ?Nat.add_succ_r; reflexivity.
Qed.
Lemma mixture_app l1 : forall l2 : list rop, mixture_requests (l1 ++ l2) = mixture_requests l1 ++ mixture_requests l2.
Proof. induction l1 as [|o t IH]; intro l2; [reflexivity|]. destruct o; cbn [mixture_requests app]; rewrite IH; reflexivity. Qed.
Lemma wellposed_app l1 : forall n (l2 : list rop), wellposed n (l1 ++ l2) <->
  wellposed n l1 /\ wellposed (n + length (places true 0 (arrivals l1))) l2.
Proof.
  assert (PL : forall l a b, length (places true a l) = length (places true b l)).
  { induction l as [|x t IH]; intros a b; cbn [places]; [reflexivity|].
    destruct (Bool.eqb x true); cbn [length]; rewrite (IH (S a) (S b)); reflexivity. }
  induction l1 as [|o t IH]; intros n l2.
  - cbn. rewrite Nat.add_0_r. tauto.
  - destruct o; cbn [wellposed arrivals places app length Bool.eqb]; rewrite IH;
      rewrite ?(PL (arrivals t) 1 0), ?Nat.add_succ_r; cbn [Nat.add]; tauto.
Qed.

(** ** mixtures *)
Definition comps env (q : nat * nat * pose * M3) : list sedge :=
  let '(f, g, tr, i) := q in map (component env f g tr) [i; information_invalid].
Definition fitQ (s : slam) (q : nat * nat * pose * M3) : Prop :=
  let '(f, g, _, i) := q in f < length (s_verts s) /\ g < length (s_verts s) /\ (0 < mdet i)%R.
Definition best_at (est : nat -> pose) (es : list sedge) (m : mixture) : Prop :=
  exists k e w, nth_error es k = Some e /\ nth_error mm_weights k = Some w /\ shows m k e /\
    se_err (mx_self m) = residual est e /\
    forall j f v, nth_error es j = Some f -> nth_error mm_weights j = Some v -> (nll est e w <= nll est f v)%R.
Definition holdQ env (s : slam) q (im : nat * mixture) : Prop :=
  fitQ s q /\ held (comps env q) mm_weights (snd im).
Definition settledQ env (s : slam) q im : Prop :=
  holdQ env s q im /\ best_at (estOf s) (comps env q) (snd im).

Lemma det_null : (0 < mdet information_invalid)%R.
Proof. unfold mdet, information_invalid. cbn [m11 m12 m13 m21 m22 m23 m31 m32 m33]. lra. Qed.
Lemma det_cov m : (0 < mdet m)%R -> mdet (minv m) = (/ mdet m)%R.
Proof.
  intro H. assert (N : (mdet m <> 0)%R) by lra. pose proof (minv_l m N) as E.
  apply (f_equal mdet) in E. rewrite mdet_mmul, mdet_id in E. apply (Rmult_eq_reg_r (mdet m)); [|exact N].
  rewrite E, Rinv_l; auto.
Qed.
Lemma comps_proper env s q : fitQ s q -> proper (comps env q) mm_weights.
Proof.
  destruct q as [[[f g] tr] i]. intros (_ & _ & Hi). unfold proper, comps, mm_weights. cbn [map length].
  split; [discriminate|]. split; [reflexivity|]. split.
  - intros w [<- | [<- | []]]; lra.
  - intros e [<- | [<- | []]]; unfold cov_det, component; cbn [se_info];
      rewrite det_cov; try exact Hi; try exact det_null; apply Rinv_0_lt_compat; [exact Hi|exact det_null].
Qed.
Lemma eval_one env s q im : holdQ env s q im ->
  exists m, computeErrorMix (estOf s) (snd im) = Ok m /\ settledQ env s q (fst im, m).
Proof.
  intros [F H]. destruct (compute_ok (estOf s) _ _ _ (comps_proper env s q F) H)
    as (m & k & e & w & C & H' & E & W & S & ER & MIN).
  exists m. split; [exact C|]. split; [split; assumption|]. exists k, e, w. auto.
Qed.
Lemma eval_all env s : forall qs l, Forall2 (holdQ env s) qs l ->
  exists ms, evalMix (estOf s) l = Ok ms /\ Forall2 (settledQ env s) qs ms.
Proof.
  intros qs l F. unfold evalMix. set (f := fun _ _ => _).
  enough (G : forall acc, exists ms, foldM f l acc = Ok (acc ++ ms) /\ Forall2 (settledQ env s) qs ms) by exact (G []).
  induction F as [|q im qs l H F IH]; intro acc; cbn [foldM].
  - exists []. rewrite app_nil_r. auto.
  - unfold f at 1. destruct (eval_one env s q im H) as (m & -> & S). cbn [bind].
    destruct (IH (acc ++ [(fst im, m)])) as (ms & E & Fs). exists ((fst im, m) :: ms).
    rewrite E, <- app_assoc. auto.
Qed.
Lemma evalMix_ids est l ms : evalMix est l = Ok ms -> map fst ms = map fst l.
Proof.
  unfold evalMix. set (f := fun _ _ => _).
  enough (G : forall l acc ms, foldM f l acc = Ok ms -> map fst ms = map fst acc ++ map fst l) by exact (G l [] ms).
  clear l ms. induction l as [|im l IH]; intros acc ms H; cbn [foldM] in H.
  - injection H as <-. rewrite app_nil_r. reflexivity.
  - apply bind_ok_inv in H. destruct H as (a & E & H). unfold f in E.
    apply bind_ok_inv in E. destruct E as (m & _ & E). injection E as <-. apply IH in H.
    rewrite H, map_app, <- app_assoc. reflexivity.
Qed.
Lemma holdQ_more env s s' qs l : length (s_verts s) <= length (s_verts s') ->
  Forall2 (holdQ env s) qs l -> Forall2 (holdQ env s') qs l.
Proof.
  intros L F. induction F as [|q im qs l H F IH]; constructor; auto.
  destruct H as [A B]. split; [|exact B]. destruct q as [[[f g] tr] i]. unfold fitQ in *.
  destruct A as (A1 & A2 & A3). split; [lia|split; [lia|exact A3]].
Qed.
Lemma best_ext est est' env f g tr i m : est f = est' f -> est g = est' g ->
  best_at est (comps env (f, g, tr, i)) m -> best_at est' (comps env (f, g, tr, i)) m.
Proof.
  intros Ef Eg (k & e & w & A & B & C & R & M).
  assert (X : forall j c, nth_error (comps env (f, g, tr, i)) j = Some c -> residual est c = residual est' c).
  { intros j c H. apply nth_error_In in H. unfold comps in H. cbn [map In] in H.
    destruct H as [<- | [<- | []]]; unfold residual, component; cbn [se_v0 se_v1 se_meas]; rewrite Ef, Eg; reflexivity. }
  exists k, e, w. split; [exact A|]. split; [exact B|]. split; [exact C|]. split; [rewrite R; eapply X; eauto|].
  intros j c v H1 H2. unfold nll. rewrite <- (X k e A), <- (X j c H1). apply M with j; auto.
Qed.
Lemma settledQ_more env s s' vs qs l : s_verts s' = s_verts s ++ vs ->
  Forall2 (settledQ env s) qs l -> Forall2 (settledQ env s') qs l.
Proof.
  intros L F. induction F as [|q im qs l H F IH]; constructor; auto.
  destruct q as [[[f g] tr] i]. destruct H as [[A B] C].
  assert (X : forall k, k < length (s_verts s) -> estOf s k = estOf s' k).
  { intros k K. unfold estOf. rewrite L, nth_error_app1 by exact K. reflexivity. }
  split; [split; [|exact B]|].
  - unfold fitQ in *. rewrite L, app_length. destruct A as (A1 & A2 & A3). split; [lia|split; [lia|exact A3]].
  - eapply best_ext; [apply X|apply X|exact C]; apply A.
Qed.
Lemma settled_held env s qs l : Forall2 (settledQ env s) qs l -> Forall2 (holdQ env s) qs l.
Proof. intro F. induction F; constructor; auto. apply H. Qed.

Lemma iterates_rest env : forall its r qs, Forall2 (holdQ env (r_slam r)) qs (r_mix r) ->
  exists r', foldM iterate its r = Ok r' /\ Forall2 (holdQ env (r_slam r')) qs (r_mix r').
Proof.
  induction its as [|it its IH]; intros r qs F; cbn [foldM]; [eauto|].
  unfold iterate at 1. destruct (eval_all env (r_slam r) qs _ F) as (ms & -> & S). cbn [bind].
  destruct (IH (mkRob (with_verts (r_slam r) (moveAt (fst it) (s_verts (r_slam r))))
     (imap (fun k x => (fst x, swstep (snd x) (SwOplus (Some (snd it k))))) 0 (r_sw r))
     (r_prior r) (r_swedges r) ms) qs) as (r' & E & F').
  - cbn [r_slam r_mix]. apply settled_held in S. eapply holdQ_more; [|exact S].
    cbn [with_verts s_verts]. unfold moveAt. rewrite imap_length. auto.
  - exists r'. auto.
Qed.
End R.
