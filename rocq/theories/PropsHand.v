(** C147: what the node hands to the algorithm. *)
From Coq Require Import Reals List ZArith Bool Lra Lia.
From Verif Require Import Base LinAlg3 GeoModel GeoCov NodeModel NodeSpec NodeProofs HandSpec.
Import ListNotations.
Open Scope R_scope.

Section P.
Context {Alg Scan : Type}.
Variable update : Alg -> T2 -> M3 -> list Scan -> Z -> Alg * pose.

Lemma called_snoc l t c pts z : forall a,
  called update a (l ++ [(t, (c, pts, z))]) =
  (fst (update (fst (called update a l)) t c pts z),
   snd (called update a l) ++ [snd (update (fst (called update a l)) t c pts z)]).
Proof using Type.
  induction l as [|[t1 [[c1 p1] z1]] l IH]; intro a; cbn [called app fst snd].
  - destruct (update a t c pts z); reflexivity.
  - destruct (update a t1 c1 p1 z1) as [a1 q]. rewrite IH. destruct (called update a1 l); reflexivity.
Qed.
Lemma handed_snoc (l : list (nmsg Scan)) m :
  handed (l ++ [m]) = handed l ++ (if used m then [(covariance m, cloud m, ms_time m)] else []).
Proof using Type. unfold handed. rewrite filter_app, map_app. cbn [filter]. destruct (used m); reflexivity. Qed.

Lemma callback_hand (n : node Alg) (m : nmsg Scan) n' o : well_formed m -> callback update n m = Ok (n', o) ->
  if used m
  then exists t, increments o = [t] /\ nd_alg n' = fst (update (nd_alg n) t (covariance m) (cloud m) (ms_time m)) /\
                 estimates o = [snd (update (nd_alg n) t (covariance m) (cloud m) (ms_time m))]
  else increments o = [] /\ estimates o = [] /\ nd_alg n' = nd_alg n.
Proof using Type.
  intros W H. unfold callback in H. pose proof (prepare_accepted m) as PA. unfold used. rewrite <- PA.
  destruct (prepareAllData m) as [[odom pts]|] eqn:PR; cbn [option_map] in PA |- *.
  - assert (CL : cloud m = pts).
    { unfold prepareAllData in PR. unfold cloud. destruct (ms_tf m); [|discriminate]. destruct (ms_scan m) as [s|]; [|discriminate].
      destruct (Z.of_nat (length s) <? 400)%Z; [discriminate|]. injection PR as _ ->. reflexivity. }
    apply bind_ok_inv in H. destruct H as (c & HC & H).
    assert (CC : c = covariance m).
    { unfold covariance. destruct (ms_cov m) as [l|] eqn:E.
      - rewrite (arrayToMatrix_spec l (W l E)) in HC. injection HC as <-. reflexivity.
      - injection HC as <-. reflexivity. }
    rewrite CL, <- CC. injection H as H. unfold doAlgorithm in H. destruct (nd_ready n).
    + eexists. destruct (update (nd_alg n) _ c pts (ms_time m)) as [a p] eqn:U. injection H as <- <-. cbn [increments estimates nd_alg].
      split; [reflexivity|]. rewrite U. split; reflexivity.
    + eexists. destruct (update (nd_alg n) _ c pts (ms_time m)) as [a p] eqn:U. injection H as <- <-. cbn [increments estimates nd_alg].
      split; [reflexivity|]. rewrite U. split; reflexivity.
  - injection H as <- <-. repeat split; reflexivity.
Qed.

(** Whatever the algorithm is and whatever arrives: the algorithm is called once for every
    message that is used, in the order of arrival, with the cloud and the time of the message
    and its covariance (0.0001 for each of x, y and the angle in laser only mode), and for
    nothing else; the poses are those it returns.  The increments are those of C48. *)
Theorem C147_handed (a : Alg) (l : list (nmsg Scan)) n o :
  Forall well_formed l -> nrun update a l = Ok (n, o) ->
  length (increments o) = length (handed l) /\
  called update a (combine (increments o) (handed l)) = (nd_alg n, estimates o).
Proof using Type.
  revert n o. induction l as [|m l IH] using rev_ind; intros n o F H.
  - injection H as <- <-. split; reflexivity.
  - apply Forall_app in F. destruct F as [F Fm]. inversion Fm as [|? ? W _]; subst.
    rewrite nrun_snoc in H. apply bind_ok_inv in H. destruct H as ([n0 o0] & H0 & H).
    apply bind_ok_inv in H. destruct H as ([n1 o1] & C & H). injection H as <- <-. cbn [fst snd] in *.
    destruct (IH n0 o0 F H0) as [L R]. pose proof (callback_hand n0 m n1 o1 W C) as K.
    rewrite handed_snoc, increments_app, estimates_app. destruct (used m).
    + destruct K as (t & -> & K1 & K2). rewrite !app_length, L. split; [reflexivity|].
      assert (CA : forall (x : list T2) (y : list (M3 * list Scan * Z)) u v, length x = length y -> combine (x ++ [u]) (y ++ [v]) = combine x y ++ [(u, v)]).
      { induction x as [|x0 x IHx]; intros [|y0 y] u v LE; try discriminate; [reflexivity|]. cbn. rewrite IHx by (cbn in LE; lia). reflexivity. }
      rewrite (CA _ _ _ _ L), called_snoc, R. cbn [fst snd]. rewrite K1, K2. reflexivity.
    + destruct K as (-> & -> & K1). rewrite !app_nil_r. split; [exact L|]. rewrite R, K1. reflexivity.
Qed.
End P.
Print Assumptions C147_handed.

(** An algorithm that writes down its calls: a message with a covariance, one with too few
    points, and one without a covariance. *)
Definition he_alg (a : list (M3 * nat * Z)) (_ : T2) (c : M3) (s : list unit) (z : Z) := (a ++ [(c, length s, z)], mkP 0 0 0).
Definition he_msg (z : Z) (k : nat) (c : option (list R)) : nmsg unit := mkMsg z (Some (vecToMat3d (mkP 1 0 0))) (Some (repeat tt k)) c.
Definition he_cov : list R := map INR (seq 0 36).
Definition he_msgs := [he_msg 1 400 (Some he_cov); he_msg 2 399 None; he_msg 3 401 None].
Example C147_case : Forall well_formed he_msgs /\ exists n o, nrun he_alg [] he_msgs = Ok (n, o) /\
  nd_alg n = [(mkM 0 1 (INR 5) (INR 6) (INR 7) (INR 11) (INR 30) (INR 31) (INR 35), 400%nat, 1%Z);
              (mkM (1/10000) 0 0 0 (1/10000) 0 0 0 (1/10000), 401%nat, 3%Z)].
Proof.
  split.
  - repeat apply Forall_cons; try apply Forall_nil; intros c E; try discriminate. injection E as <-. reflexivity.
  - eexists _, _. split; [reflexivity|]. reflexivity.
Qed.
