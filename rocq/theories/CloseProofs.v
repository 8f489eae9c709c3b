(** Loop closing edges of the running system. *)
From Coq Require Import Reals Qreals Lra List ZArith QArith Bool Lia Arith Permutation.
From Verif Require Import Base LinAlg3 GeoModel GeoSpec GeoProofs OptModel RegModel RegSpec CorrModel CorrSpec MatchModel MatchSpec MatchProofs.
From Verif Require Import GraphModel GraphSpec GraphProofs LoopModel LoopSpec LoopProofs SlamModel SlamSpec SlamProofs.
From Verif Require Import AlgModel AlgSpec AlgProofs.
From Verif Require Import VoxelModel GridModel MapModel SysModel SysSpec SysProofs SysWindow SysFacts.
From Verif Require Import LoopEdges CloseModel CloseSpec.
Import ListNotations.
Open Scope nat_scope.
Set Default Proof Using "Type".

(** ** the guess and the lengths *)
Lemma start_guess p q : startGuess p q = getTransFromPose (mkP 0 0 (pth q - pth p)).
Proof.
  pose proof (rigid_det _ (rigid_pose p)) as D.
  unfold startGuess, t2mul, t2inv. rewrite D, Rinv_1. unfold getTransFromPose. cbn [ta tb tc td tx ty px py pth].
  rewrite cos_minus, sin_minus. apply T2_eq; cbn [ta tb tc td tx ty]; ring.
Qed.
Lemma edge_len p : edgeLen p = sqrt (px p ^ 2 + py p ^ 2).
Proof.
  pose proof (rigid_det _ (rigid_pose p)) as D.
  unfold edgeLen, t2inv. rewrite D, Rinv_1. unfold getTransFromPose. cbn [ta tb tc td tx ty]. f_equal.
  pose proof (sin2_cos2 (pth p)) as SC. unfold Rsqr in SC.
  set (c := cos (pth p)) in *. set (s := sin (pth p)) in *. clearbody c s.
  transitivity ((s * s + c * c) * (px p ^ 2 + py p ^ 2))%R; [ring|]. rewrite SC. ring.
Qed.
Lemma ltR_iff a b : ltR a b = true <-> (a < b)%R.
Proof. unfold ltR. destruct (Rlt_dec a b); split; auto; discriminate. Qed.

(** ** in the world *)
Lemma apart_rigid T p q : rigid T -> apart (t2apply T p) (t2apply T q) = apart p q.
Proof.
  intros (A & B & C). unfold apart, t2apply. cbn [fst snd]. f_equal. rewrite <- A, B in *.
  set (x := (fst p - fst q)%R). set (y := (snd p - snd q)%R).
  transitivity ((ta T * ta T + - tb T * - tb T) * (x ^ 2 + y ^ 2))%R; [unfold x, y; ring|]. rewrite C. ring.
Qed.
Lemma within_apart p q : within (1 / 2) p q -> (apart p q < 71 / 100)%R.
Proof.
  intros [A B]. apply Rabs_def2 in A, B. unfold apart.
  set (x := (fst p - fst q)%R) in *. set (y := (snd p - snd q)%R) in *. clearbody x y.
  rewrite <- (sqrt_Rsqr (71 / 100)) by lra. apply sqrt_lt_1_alt. unfold Rsqr.
  assert (K : forall z, (z < 1 / 2)%R -> (- (1 / 2) < z)%R -> (0 <= z ^ 2 <= 1 / 4)%R) by (intros; nra).
  pose proof (K x (proj1 A) (proj2 A)). pose proof (K y (proj1 B) (proj2 B)). lra.
Qed.
Lemma overlap_shared T n a b : rigid T -> overlap (1 / 2) n a b ->
  shared (71 / 100) n (map (t2apply T) a) (map (t2apply T) b).
Proof.
  intros RT (h & m & P & H & L). exists (map (t2apply T) h), (map (t2apply T) m).
  split; [rewrite <- map_app; now apply Permutation_map|]. split; [|now rewrite map_length].
  intros p I. apply in_map_iff in I. destruct I as (p0 & <- & I). destruct (H p0 I) as (q & IQ & W).
  exists (t2apply T q). split; [now apply in_map|]. rewrite (apart_rigid _ _ _ RT). now apply within_apart.
Qed.

Section Close.
Context {X : Type}.
Notation cell := (ncell X).
Notation grid := (ngrid X).
Notation body := (res grid).
Notation frame := (frame body).
Variable d2d : frame -> frame -> T2 -> bool * T2.
Variable corr : R -> list P2 -> list P2 -> T2 -> res (bool * T2).
Notation run ops := (foldM (MatchModel.mstep (@cloudOf X) sizeOf d2d corr) ops newMatcher).

Lemma with_run limit : run [Threshold limit] = Ok (matcherWith limit).
Proof. reflexivity. Qed.

(** What the matcher did before does not matter. *)
Lemma match_pure limit ops s a b g : empty_fails (@cloudOf X) d2d -> run ops = Ok s ->
  asked ops = asked (F := frame) [Threshold limit] ->
  loopMatch d2d corr s a b g = loopMatch d2d corr (matcherWith limit) a b g.
Proof.
  intros EF R A. unfold loopMatch.
  destruct (cloudOf a) as [|pa la] eqn:EA; [|destruct (cloudOf b) as [|pb lb] eqn:EB].
  - assert (K : forall ops' s', run ops' = Ok s' ->
       match matchFrames cloudOf sizeOf d2d corr s' a b g with
       | Ok (_, r) => if mr_success r then Some (mr_inform r, getPoseFromTransform (mr_transform r)) else None
       | _ => None end = None).
    { intros ops' s' R'. destruct (matchFrames cloudOf sizeOf d2d corr s' a b g) as [[s2 r]| |] eqn:M; auto.
      rewrite (empty_rejected _ _ _ _ _ _ _ _ _ _ _ EF R' (or_introl EA) M). reflexivity. }
    rewrite (K _ _ R), (K _ _ (with_run limit)). reflexivity.
  - assert (K : forall ops' s', run ops' = Ok s' ->
       match matchFrames cloudOf sizeOf d2d corr s' a b g with
       | Ok (_, r) => if mr_success r then Some (mr_inform r, getPoseFromTransform (mr_transform r)) else None
       | _ => None end = None).
    { intros ops' s' R'. destruct (matchFrames cloudOf sizeOf d2d corr s' a b g) as [[s2 r]| |] eqn:M; auto.
      rewrite (empty_rejected _ _ _ _ _ _ _ _ _ _ _ EF R' (or_intror EB) M). reflexivity. }
    rewrite (K _ _ R), (K _ _ (with_run limit)). reflexivity.
  - rewrite (same_nonempty _ _ _ _ _ _ _ _ a b g R (with_run limit) A); [reflexivity| |]; congruence.
Qed.

Variable limit dmin dmax : R.
Variable over : option bool.
Variable merge : cell -> cell -> cell.
Variable dflt : cell.
Variable addPt : cell -> point -> cell.
Variable compute : cell -> cell.
Variable tcell : qt -> cell -> cell.
Variable occRay : cell -> point -> cell -> cell.
Variable rawOcc : cell -> Q.
Variable btw : qpose -> qpose -> qt.
Variable tp : qt -> point -> point.
Variable noLin : T2.
Variable moveOrigin : qpose -> qt -> qpose.
Variable moveScan : T2 -> point -> point.
Variable dbl : R -> Q.
Variable radius : Q.
Variable se2' : pose -> pose.
Variable odo : M3.
Variable dist : R.
Notation le := (detector d2d corr limit dmin dmax over).
Notation env := (sysEnv merge dflt addPt compute tcell occRay btw tp noLin moveOrigin moveScan dbl radius le se2' odo dist).
Notation yreach := (yreach merge dflt tcell occRay rawOcc btw tp dbl env).
Notation fill := (fill merge dflt addPt compute tcell occRay btw tp moveScan dbl).

Lemma LE_reach h y : yreach h y -> LE env (y_alg y).
Proof.
  induction 1 as [|h y e y' R IH S]; [exact (LE_new env)|].
  pose proof (yreach_AI _ _ _ _ _ _ _ _ _ _ _ _ _ _ _ _ _ _ h y R) as A.
  destruct S as [i ts a' evs m' o' U DM]. cbn [y_alg].
  exact (update_edges env (y_alg y) i a' evs _ A U IH).
Qed.

Lemma fill_size first l g : fill first l = Ok g -> n_cs g = 1#4.
Proof.
  assert (ADD : forall g o s g', add_scan merge dflt addPt compute tcell occRay btw tp dbl g o s = Ok g' -> n_cs g' = n_cs g).
  { intros g0 o s g' E. unfold add_scan, mergeInTracedPcl in E. apply bind_ok_inv in E. destruct E as (l0 & _ & E).
    apply traced_header in E. exact (proj2 E). }
  unfold SysSpec.fill. destruct l as [|[[o m] s] t]; [intro E; injection E as <-; reflexivity|].
  intro E. apply bind_ok_inv in E. destruct E as (g0 & E0 & E).
  assert (C : n_cs g0 = 1#4).
  { destruct first.
    - exact (proj2 (init_header _ _ _ _ _ _ _ _ _ _ _ E0)).
    - apply ADD in E0. exact E0. }
  clear E0. revert g0 C E. induction t as [|[[o' m'] s'] t IH]; intros g0 C E; cbn [foldM] in E.
  - injection E as <-. exact C.
  - apply bind_ok_inv in E. destruct E as (g1 & E1 & E). apply (IH g1); [|exact E]. rewrite (ADD _ _ _ _ E1). exact C.
Qed.

Theorem loop_edges h y k e : yreach h y ->
  getEdge (s_graph (a_slam (y_alg y))) k = Ok e -> e_loop e = true ->
  e_to e < e_from e < length (born h) /\
  exists (fs ft : frame) s r,
    f_body fs = fill (e_to e =? 0) (scans_of h (e_to e)) /\
    f_body ft = fill (e_from e =? 0) (scans_of h (e_from e)) /\
    (nodeDist (f_origin ft) (f_origin fs) < dmax)%R /\
    matchFrames cloudOf sizeOf d2d corr (matcherWith limit) fs ft
      (startGuess (f_origin ft) (f_origin fs)) = Ok (s, r) /\
    mr_success r = true /\ e_trans e = getPoseFromTransform (mr_transform r).
Proof.
  intros R G L.
  destruct (frames_filled _ _ _ _ _ _ _ _ _ _ _ _ _ _ _ _ _ _ h y R) as (FB & FF & _).
  pose proof (yreach_AI _ _ _ _ _ _ _ _ _ _ _ _ _ _ _ _ _ _ h y R) as A.
  assert (IN : exists x, In (Some (x, e)) (edges (a_slam (y_alg y)))).
  { pose proof (r_inv _ (si_ready _ _ (ai_SI _ _ _ (ai_core _ _ _ A)))) as IV.
    rewrite (getEdge_slot _ k IV) in G. unfold slot in G. unfold edges.
    destruct (nth_error (g_edges (s_graph (a_slam (y_alg y)))) k) as [[[x e']|]|] eqn:N; try discriminate.
    injection G as <-. exists x. eapply nth_error_In; exact N. }
  destruct IN as [x IN].
  destruct (LE_reach h y R x e IN L) as (LT & fs & ft & inf & BS & BT & MX & MA).
  assert (GD : forall j b, nth_error (map f_body (objs (y_alg y))) j = Some b ->
     exists f, getPoseData (a_slam (y_alg y)) j = Ok f /\ f_body f = b).
  { intros j b N. unfold objs in N. rewrite map_map, nth_error_map in N. unfold nodes in N.
    unfold getPoseData. rewrite getNode_nth.
    destruct (nth_error (g_nodes (s_graph (a_slam (y_alg y)))) j) as [n|]; [|discriminate].
    injection N as <-. cbn [bind]. eauto. }
  destruct (GD _ _ BS) as (f1 & G1 & B1). destruct (GD _ _ BT) as (f2 & G2 & B2).
  split.
  { split; [exact LT|]. apply FB. rewrite G2. discriminate. }
  cbn [detector e_lenv sysEnv matcher guess dlt euclid max_dist] in MX, MA.
  unfold loopMatch in MA.
  destruct (matchFrames cloudOf sizeOf d2d corr (matcherWith limit) fs ft
      (startGuess (f_origin ft) (f_origin fs))) as [[s r]| |] eqn:M; try discriminate.
  destruct (mr_success r) eqn:SU; [|discriminate]. injection MA as _ TR.
  exists fs, ft, s, r.
  split; [rewrite <- B1; exact (FF _ _ G1)|]. split; [rewrite <- B2; exact (FF _ _ G2)|].
  split; [apply ltR_iff; exact MX|]. split; [exact M|]. split; [exact SU|]. now rewrite TR.
Qed.

Theorem loop_overlap h y k e fs ft : empty_fails (@cloudOf X) d2d -> (forall a b g, rigid (snd (d2d a b g))) ->
  yreach h y -> getEdge (s_graph (a_slam (y_alg y))) k = Ok e -> e_loop e = true ->
  getPoseData (a_slam (y_alg y)) (e_to e) = Ok fs -> getPoseData (a_slam (y_alg y)) (e_from e) = Ok ft ->
  cloudOf fs <> [] /\ cloudOf ft <> [] /\
  overlap (1 / 2) (Rmin (asked (F := frame) [Threshold limit]) (6 / 10) * INR (length (cloudOf ft)))
    (map (t2apply (getTransFromPose (e_trans e))) (cloudOf fs)) (cloudOf ft).
Proof.
  intros EF RG R G L G1 G2.
  destruct (frames_filled _ _ _ _ _ _ _ _ _ _ _ _ _ _ _ _ _ _ h y R) as (_ & FF & _).
  destruct (loop_edges h y k e R G L) as (_ & fs0 & ft0 & s & r & BS & BT & _ & M & SU & TR).
  assert (CS : cloudOf fs0 = cloudOf fs) by (unfold cloudOf; rewrite BS, (FF _ _ G1); reflexivity).
  assert (CT : cloudOf ft0 = cloudOf ft) by (unfold cloudOf; rewrite BT, (FF _ _ G2); reflexivity).
  destruct (success_nonempty _ _ _ _ _ _ _ _ _ _ _ EF (with_run limit) M SU) as (NA & NB & _).
  assert (SZ : sizeOf ft0 = (1 / 4)%R).
  { unfold sizeOf. destruct (f_body ft0) as [g| |] eqn:B; [|reflexivity|reflexivity].
    symmetry in BT. rewrite (fill_size _ _ _ BT). unfold Q2R. cbn. lra. }
  destruct (accepted _ _ _ _ _ _ _ _ _ _ _ EF ltac:(rewrite SZ; lra) ltac:(rewrite SZ; lra) (with_run limit) M SU)
    as (x & _ & _ & B & (g' & TG) & n & _ & N1 & h0 & m0 & P & HH & LL).
  assert (RT : rigid (mr_transform r)) by (rewrite TG; apply RG).
  rewrite TR, (trans_of_pose _ RT), <- CS, <- CT.
  split; [exact NA|]. split; [exact NB|].
  exists h0, m0. split; [exact P|]. rewrite N1, SZ in HH by (rewrite SZ; lra).
  split; [intros p I; destruct (HH p I) as (q & Q); exists q; replace (1 / 2)%R with ((1 + 1) * (1 / 4))%R by lra; exact Q|].
  apply Rle_trans with (x * INR (length (cloudOf ft0)))%R; [|exact LL].
  apply Rmult_le_compat_r; [apply pos_INR|]. exact (proj1 B).
Qed.

(** Once the optimiser satisfies the edge, the two frames agree in the world. *)
Theorem loop_world h y k e fs ft ps pt : empty_fails (@cloudOf X) d2d -> (forall a b g, rigid (snd (d2d a b g))) ->
  yreach h y -> getEdge (s_graph (a_slam (y_alg y))) k = Ok e -> e_loop e = true ->
  getPoseData (a_slam (y_alg y)) (e_to e) = Ok fs -> getPoseData (a_slam (y_alg y)) (e_from e) = Ok ft ->
  getTransFromPose ps = t2mul (getTransFromPose pt) (getTransFromPose (e_trans e)) ->
  shared (71 / 100) (Rmin (asked (F := frame) [Threshold limit]) (6 / 10) * INR (length (cloudOf ft)))
    (map (t2apply (getTransFromPose ps)) (cloudOf fs)) (map (t2apply (getTransFromPose pt)) (cloudOf ft)).
Proof.
  intros EF RG R G L G1 G2 PP. destruct (loop_overlap h y k e fs ft EF RG R G L G1 G2) as (_ & _ & O).
  apply (overlap_shared _ _ _ _ (rigid_pose pt)) in O. rewrite map_map in O.
  rewrite PP. erewrite (map_ext (t2apply (t2mul _ _))); [exact O|]. intro q. apply t2apply_mul.
Qed.
End Close.
