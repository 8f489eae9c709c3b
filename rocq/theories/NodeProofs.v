(** Proofs about the node. *)
From Coq Require Import Reals List ZArith Bool Lia.
From Verif Require Import Base LinAlg3 GeoModel GeoSpec GeoProofs GeoCov NodeModel NodeSpec.
Import ListNotations.
Open Scope R_scope.

Section P.
Set Default Proof Using "Type".
Context {Alg Scan : Type}.
Variable update : Alg -> T2 -> M3 -> list Scan -> Z -> Alg * pose.
Notation nmsg := (nmsg Scan).
Notation node := (node Alg).
Notation nrun := (nrun update).
Notation callback := (callback update).

Lemma prepare_accepted (m : nmsg) : option_map fst (prepareAllData m) = accepted m.
Proof.
  unfold prepareAllData, accepted. destruct (ms_tf m) as [q|]; [|reflexivity].
  destruct (ms_scan m) as [pts|]; [|reflexivity].
  destruct (Z.ltb_spec (Z.of_nat (length pts)) 400), (Z.leb_spec 400 (Z.of_nat (length pts))); try lia; reflexivity.
Qed.
Lemma increments_app a b : increments (a ++ b) = increments a ++ increments b.
Proof. induction a as [|[] a IH]; cbn; rewrite ?IH; reflexivity. Qed.
Lemma estimates_app a b : estimates (a ++ b) = estimates a ++ estimates b.
Proof. induction a as [|[] a IH]; cbn; rewrite ?IH; reflexivity. Qed.
Lemma sent_app a b : sent (a ++ b) = sent a ++ sent b.
Proof. induction a as [|[] a IH]; cbn; rewrite ?IH; reflexivity. Qed.
Lemma odometry_app (a b : list nmsg) : odometry (a ++ b) = odometry a ++ odometry b.
Proof. induction a as [|m a IH]; cbn; [reflexivity|]. destruct (accepted m); cbn; rewrite ?IH; reflexivity. Qed.
Lemma last_snoc {A} (l : list A) x : last_opt (l ++ [x]) = Some x.
Proof. unfold last_opt. rewrite rev_app_distr. reflexivity. Qed.
Lemma product_snoc l t : product (l ++ [t]) = t2mul (product l) t.
Proof. unfold product. rewrite fold_left_app. reflexivity. Qed.

Lemma nrun_snoc a l m : nrun a (l ++ [m]) = do st <- nrun a l; nstep update st m.
Proof. unfold NodeModel.nrun. rewrite foldM_app. destruct (foldM _ l _); cbn; try reflexivity. destruct (nstep update a0 m); reflexivity. Qed.

(** One message. *)
Lemma callback_cases (n : node) (m : nmsg) n' o : callback n m = Ok (n', o) ->
  (accepted m = None /\ n' = n /\ o = [NSend (ms_time m) (nd_tf n)]) \/
  (exists odom a p t, accepted m = Some odom /\ o = [NUpdate t p; NSend (ms_time m) (nd_tf n')] /\
     nd_alg n' = a /\ nd_ready n' = true /\ nd_odom n' = odom /\
     ((nd_ready n = true /\ t = t2mul (t2inv (getTransFromPose (nd_odom n))) (getTransFromPose odom) /\
       nd_tf n' = Some (tfTrans odom p) /\ nd_pose n' = p) \/
      (nd_ready n = false /\ t = t2id /\ nd_tf n' = nd_tf n /\ nd_pose n' = mkP 0 0 0))).
Proof.
  unfold NodeModel.callback. intro H. pose proof (prepare_accepted m) as PA.
  destruct (prepareAllData m) as [[odom pts]|]; cbn in PA.
  - right. apply bind_ok_inv in H. destruct H as (c & _ & H). unfold doAlgorithm in H.
    destruct (nd_ready n) eqn:R.
    + destruct (update (nd_alg n) _ c pts (ms_time m)) as [a p]. injection H as <- <-.
      exists odom, a, p. eexists. split; [auto|]. split; [reflexivity|]. cbn. auto 10.
    + destruct (update (nd_alg n) _ c pts (ms_time m)) as [a p]. injection H as <- <-.
      exists odom, a, p. eexists. split; [auto|]. split; [reflexivity|]. cbn. auto 10.
  - left. injection H as <- <-. auto.
Qed.

Lemma nrun_defined a (l : list nmsg) : Forall well_formed l -> exists n o, nrun a l = Ok (n, o).
Proof.
  induction l as [|m l IH] using rev_ind; intro F.
  - eexists _, _. reflexivity.
  - apply Forall_app in F. destruct F as [F1 F2]. destruct (IH F1) as (n & o & R).
    inversion F2 as [|? ? W _]; subst. rewrite nrun_snoc, R. cbn [bind]. unfold nstep. cbn [fst snd].
    unfold NodeModel.callback. destruct (prepareAllData m) as [[odom pts]|]; [|eexists _, _; reflexivity].
    destruct (ms_cov m) as [c|] eqn:C.
    + rewrite arrayToMatrix_spec by (apply W; exact C). cbn [bind]. destruct (doAlgorithm _ _ _ _ _ _).
      eexists _, _. reflexivity.
    + cbn [bind]. destruct (doAlgorithm _ _ _ _ _ _). eexists _, _. reflexivity.
Qed.

(** Everything known about the state after a run. *)
Record NI (l : list nmsg) (n : node) (o : list nout) : Prop := {
  ni_ready : nd_ready n = match odometry l with [] => false | _ => true end;
  ni_odom : forall p, last_opt (odometry l) = Some p -> nd_odom n = p;
  ni_prod : product (increments o) =
    match odometry l, last_opt (odometry l) with
    | p :: _, Some q => t2mul (t2inv (getTransFromPose p)) (getTransFromPose q)
    | _, _ => t2id
    end;
  ni_count : length (estimates o) = length (odometry l);
  ni_tf : nd_tf n =
    match odometry l with
    | _ :: _ :: _ => match last_opt (odometry l), last_opt (estimates o) with
                     | Some p, Some s => Some (tfTrans p s)
                     | _, _ => None
                     end
    | _ => None
    end;
  ni_sent : map fst (sent o) = map (@ms_time Scan) l;
  ni_last : l <> [] -> last_opt (map snd (sent o)) = Some (nd_tf n) }.

Lemma NI_run a l n o : nrun a l = Ok (n, o) -> NI l n o.
Proof.
  revert n o. induction l as [|m l IH] using rev_ind; intros n o H.
  - injection H as <- <-. split; cbn; auto; try discriminate. congruence.
  - rewrite nrun_snoc in H. apply bind_ok_inv in H. destruct H as ([n0 o0] & R & H).
    specialize (IH _ _ R). destruct IH as [I1 I2 I3 I4 I5 I6 I7].
    unfold nstep in H. cbn [fst snd] in H. apply bind_ok_inv in H. destruct H as ([n1 o1] & C & H).
    cbn [fst snd] in H. injection H as <- <-.
    assert (OD : odometry (l ++ [m]) = odometry l ++ match accepted m with Some p => [p] | None => [] end).
    { rewrite odometry_app. cbn. destruct (accepted m); reflexivity. }
    destruct (callback_cases _ _ _ _ C) as [(A & -> & ->)|(odom & al & p & t & A & -> & B1 & B2 & B3 & B4)];
      rewrite A in OD.
    + rewrite app_nil_r in OD.
      split; rewrite ?OD, ?increments_app, ?estimates_app, ?sent_app, ?map_app; cbn [increments estimates sent map];
        rewrite ?app_nil_r; auto.
      * rewrite I6. reflexivity.
      * intros _. rewrite last_snoc. reflexivity.
    + assert (EM : odometry (l ++ [m]) <> []) by (rewrite OD; destruct (odometry l); discriminate).
      assert (LA : last_opt (odometry (l ++ [m])) = Some odom) by (rewrite OD; apply last_snoc).
      split.
      * destruct (odometry (l ++ [m])); congruence.
      * intros q Hq. congruence.
      * rewrite increments_app. cbn [increments]. rewrite product_snoc, I3, LA, OD.
        destruct B4 as [(RY & -> & _)|(RN & -> & _)].
        -- rewrite I1 in RY. destruct (odometry l) as [|p0 ol] eqn:OL; [discriminate|]. cbn [app].
           assert (exists q, last_opt (p0 :: ol) = Some q) as (q & Lq).
           { rewrite (app_removelast_last p0) by discriminate. rewrite last_snoc. eauto. }
           rewrite Lq. rewrite (I2 q Lq).
           rewrite t2mul_assoc, <- (t2mul_assoc (getTransFromPose q)).
           rewrite t2inv_r by apply rigid_nz, rigid_pose. rewrite t2mul_id_l. reflexivity.
        -- rewrite I1 in RN. destruct (odometry l) as [|p0 ol]; [|discriminate]. cbn [app].
           rewrite t2mul_id_l. symmetry. apply t2inv_l. apply rigid_nz, rigid_pose.
      * rewrite estimates_app, OD, !app_length, I4. reflexivity.
      * rewrite LA, estimates_app. cbn [estimates]. rewrite last_snoc, OD.
        destruct B4 as [(RY & _ & T & _)|(RN & _ & T & _)]; rewrite I1 in *.
        -- destruct (odometry l) as [|p0 [|p1 ol]]; [discriminate| |]; cbn [app]; exact T.
        -- destruct (odometry l) as [|p0 ol]; [|discriminate]. cbn [app]. rewrite T. exact I5.
      * rewrite sent_app, !map_app, I6. reflexivity.
      * intros _. rewrite sent_app, map_app. cbn [sent map snd]. rewrite last_snoc. reflexivity.
Qed.

(** C48 *)
Theorem node_telescope a l n o p ps : nrun a l = Ok (n, o) -> odometry l = p :: ps ->
  product (increments o) =
    t2mul (t2inv (getTransFromPose p)) (getTransFromPose (last (p :: ps) p)) /\
  length (increments o) = length (odometry l).
Proof.
  intros R O. pose proof (NI_run _ _ _ _ R) as I. split.
  - rewrite (ni_prod _ _ _ I), O.
    rewrite (app_removelast_last p) at 1 by discriminate. rewrite last_snoc. reflexivity.
  - rewrite <- (ni_count _ _ _ I). clear. induction o as [|[] o IH]; cbn; auto.
Qed.
(** C47: from the second accepted message on *)
Theorem node_tf a l m n o odom : nrun a (l ++ [m]) = Ok (n, o) ->
  accepted m = Some odom -> odometry l <> [] ->
  exists t s, last_opt (sent o) = Some (ms_time m, Some t) /\ last_opt (estimates o) = Some s /\
    tf_mul t (eigenPoseToTF odom) = eigenPoseToTF s.
Proof.
  intros R A N. pose proof (NI_run _ _ _ _ R) as I.
  assert (OD : odometry (l ++ [m]) = odometry l ++ [odom]).
  { rewrite odometry_app. cbn. rewrite A. reflexivity. }
  assert (exists s, last_opt (estimates o) = Some s) as (s & Ls).
  { pose proof (ni_count _ _ _ I) as C. rewrite OD, app_length in C. cbn in C.
    destruct (estimates o) as [|e es] using rev_ind; [cbn in C; lia|]. rewrite last_snoc. eauto. }
  exists (tfTrans odom s), s. split; [|split; [exact Ls|apply tfTrans_spec]].
  assert (T : nd_tf n = Some (tfTrans odom s)).
  { rewrite (ni_tf _ _ _ I), OD, last_snoc, Ls. destruct (odometry l) as [|p0 [|p1 ol]]; [congruence| |]; reflexivity. }
  pose proof (ni_sent _ _ _ I) as S. rewrite map_app in S.
  assert (NE : l ++ [m] <> []) by (destruct l; discriminate).
  pose proof (ni_last _ _ _ I NE) as L. rewrite T in L.
  destruct (sent o) as [|x xs _] using rev_ind; [destruct l; discriminate|].
  rewrite map_app in S, L. cbn [map] in S, L. rewrite last_snoc in L.
  apply app_inj_tail in S. destruct S as [_ S]. destruct x as [t0 x0]. cbn in S, L.
  rewrite last_snoc. congruence.
Qed.
(** C49 *)
Theorem node_sent_known a l n o : nrun a l = Ok (n, o) ->
  map fst (sent o) = map (@ms_time Scan) l /\
  forall k t x, nth_error (sent o) k = Some (t, x) ->
    (x = None <-> (length (odometry (firstn (S k) l)) < 2)%nat) /\
    (forall y, x = Some y -> exists odom s, y = tfTrans odom s /\
       last_opt (odometry (firstn (S k) l)) = Some odom /\
       nth_error (estimates o) (length (odometry (firstn (S k) l)) - 1) = Some s).
Proof.
  revert n o. induction l as [|m l IH] using rev_ind; intros n o R.
  - injection R as <- <-. split; [reflexivity|]. intros [|k]; discriminate.
  - pose proof (NI_run _ _ _ _ R) as I. split; [exact (ni_sent _ _ _ I)|].
    rewrite nrun_snoc in R. apply bind_ok_inv in R. destruct R as ([n0 o0] & R0 & R).
    destruct (IH _ _ R0) as [S0 K0].
    unfold nstep in R. cbn [fst snd] in R. apply bind_ok_inv in R. destruct R as ([n1 o1] & C & R).
    cbn [fst snd] in R. injection R as <- <-.
    assert (SO : exists x, sent o1 = [(ms_time m, x)] /\ x = nd_tf n1).
    { destruct (callback_cases _ _ _ _ C) as [(_ & -> & ->)|(odom & al & p & t & A & -> & _)];
        cbn; eauto. }
    destruct SO as (x1 & SO & EX).
    assert (LS : length (sent o0) = length l).
    { rewrite <- (map_length fst), S0, map_length. reflexivity. }
    intros k t x H. rewrite sent_app, SO in H.
    destruct (Nat.lt_ge_cases k (length l)) as [Hk|Hk].
    + rewrite nth_error_app1 in H by lia. rewrite firstn_app.
      replace (S k - length l)%nat with 0%nat by lia. change (firstn 0 [m]) with (@nil nmsg). rewrite app_nil_r.
      destruct (K0 k t x H) as [A B]. split; [exact A|].
      intros y Y. destruct (B y Y) as (odom & s & E1 & E2 & E3). exists odom, s.
      split; [exact E1|]. split; [exact E2|]. rewrite estimates_app, nth_error_app1; [exact E3|].
      apply nth_error_Some. congruence.
    + assert (k = length l).
      { assert (nth_error (sent o0 ++ [(ms_time m, x1)]) k <> None) as Q by congruence.
        apply nth_error_Some in Q. rewrite app_length in Q. cbn in Q. lia. }
      subst k. rewrite nth_error_app2 in H by lia. rewrite LS, Nat.sub_diag in H. injection H as <- <-.
      rewrite firstn_all2 by (rewrite app_length; cbn; lia).
      rewrite EX, (ni_tf _ _ _ I).
      pose proof (ni_count _ _ _ I) as CT.
      destruct (odometry (l ++ [m])) as [|p0 [|p1 ol]] eqn:OD.
      * split; [cbn; split; [lia|reflexivity]|]. discriminate.
      * split; [cbn; split; [lia|reflexivity]|]. discriminate.
      * assert (exists p, last_opt (p0 :: p1 :: ol) = Some p) as (p & Lp).
        { rewrite (app_removelast_last p0) by discriminate. rewrite last_snoc. eauto. }
        assert (exists s, last_opt (estimates (o0 ++ o1)) = Some s /\
                 nth_error (estimates (o0 ++ o1)) (length (estimates (o0 ++ o1)) - 1) = Some s) as (s & Ls & Ns).
        { destruct (estimates (o0 ++ o1)) as [|e es _] using rev_ind; [cbn in CT; lia|].
          exists e. rewrite last_snoc. split; [reflexivity|]. rewrite app_length. cbn.
          rewrite nth_error_app2 by lia. replace (length es + 1 - 1 - length es)%nat with 0%nat by lia. reflexivity. }
        rewrite Lp, Ls. split; [cbn; split; [discriminate|lia]|].
        intros y Y. injection Y as <-. exists p, s. split; [reflexivity|]. split; [reflexivity|].
        rewrite CT in Ns. exact Ns.
Qed.
End P.
