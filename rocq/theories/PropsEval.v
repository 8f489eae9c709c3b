(** C131 and C132: the two command line tools (property statements; vocabulary in
    EvalSpec.v, proofs in EvalProofs.v). *)
From Coq Require Import Reals List ZArith Bool Arith String Ascii Lia Lra.
From Verif Require Import Base LinAlg3 GeoModel GeoSpec GeoProofs UtilModel UtilSpec UtilProofs EvalModel EvalSpec EvalProofs.
Import ListNotations.
Open Scope R_scope.

(** The files: every line is read, in order, up to the limit; a line with too few fields is
    undefined behaviour, and so nothing but one of these two happens. *)
Theorem C131_files : forall (atof : str -> R) max lines,
  let l := firstn (Z.to_nat max) lines in
  (forall ps, Forall2 (pose_line atof) l ps -> preparePoseData atof max (Some lines) = Ok ps) /\
  (Exists (too_short 4) l -> preparePoseData atof max (Some lines) = UB) /\
  ((exists ps, Forall2 (pose_line atof) l ps) \/ Exists (too_short 4) l) /\
  (forall ss, Forall2 (scan_line atof) l ss -> prepareLaserScans atof max (Some lines) = Ok ss) /\
  (Exists (too_short 3) l -> prepareLaserScans atof max (Some lines) = UB) /\
  ((exists ss, Forall2 (scan_line atof) l ss) \/ Exists (too_short 3) l).
Proof.
  intros atof max lines l. unfold preparePoseData, prepareLaserScans, fileLines. fold l.
  destruct (read_all (pose_line atof) (too_short 4) (readPose atof) (readPose_ok atof) (readPose_ub atof)
    (pose_line_or atof) l []) as (A & B & C).
  destruct (read_all (scan_line atof) (too_short 3) (readScan atof) (readScan_ok atof) (readScan_ub atof)
    (scan_line_or atof) l []) as (D & E & F). cbn [app] in *. auto 8.
Qed.
Print Assumptions C131_files.

(** Which recordings are compared is determined by the poses. *)
Theorem C131_pairs : forall disp rot poses n, exists l, picks disp rot poses n 0 0 l /\
  forall l', picks disp rot poses n 0 0 l' -> l' = l.
Proof.
  intros disp rot poses n. destruct (picks_exist disp rot poses n n 0%nat 0%nat) as (l & P); [lia|].
  exists l. split; [exact P|]. intros l' P'. exact (picks_unique _ _ _ _ _ _ _ P' _ P).
Qed.
Print Assumptions C131_pairs.

(** The figures: the first 1001 of these pairs are matched in order, by the matcher of the
    mode and with the data of the mode, and the errors of its answers are added up; but the
    sum starts at (1, 0, 0). *)
Theorem C131_report_partial : forall (A M : Type) (align : engine -> M -> given A -> given A -> M * T2)
    mode e (fi fo : A -> given A) disp rot poses (scans : list A) m,
  offered mode e fi fo -> (List.length scans <= List.length poses)%nat ->
  exists pairs es vs,
    picks disp rot poses (List.length scans) 0 0 pairs /\
    let done := firstn (Z.to_nat 1001) pairs in
    answers (align e) fi fo scans m done es /\ errors poses done es vs /\
    test align (s_ mode) (newMatcher (s_ mode)) disp rot poses scans 0 m =
    Ok (mkRep (List.length done)
          (if List.length done =? 0 then None
           else let n := INR (List.length done) in
                Some (mkP ((1 + sumR (map px vs)) / n) (sumR (map py vs) / n) (sumR (map pth vs) / n))))%nat.
Proof.
  intros A M align mode e fi fo disp rot poses scans m O LE.
  destruct (picks_exist disp rot poses (List.length scans) (List.length scans) 0%nat 0%nat) as (l & P); [lia|].
  destruct (loop_ok align disp rot poses scans mode e fi fo O LE (List.length scans) 0%nat 0%nat total0 0%nat m l)
    as (es & vs & m' & t' & A1 & A2 & A3); [lia|lia|exact P|unfold max_matchings; lia|].
  rewrite Nat.sub_0_r in A1, A2, A3. change (max_matchings + 1)%Z with 1001%Z in *.
  exists l, es, vs. split; [exact P|]. split; [exact A1|]. split; [exact A2|].
  unfold test. rewrite Nat.sub_0_r. rewrite A3. cbn [bind t_iter t_total]. rewrite Nat.add_0_l.
  destruct (List.length (firstn (Z.to_nat 1001) l) =? 0)%nat; [reflexivity|].
  rewrite addAll_sum. unfold pdiv, total0. cbn [px py pth]. rewrite !Rplus_0_l. reflexivity.
Qed.
Print Assumptions C131_report_partial.

(** "The first figure is the mean error in x" is false whenever there is one: it is too large
    by one n-th; the other two are the means. *)
Theorem C131_mean_refuted : forall (A M : Type) (align : engine -> M -> given A -> given A -> M * T2)
    mode e (fi fo : A -> given A) disp rot poses (scans : list A) m n v,
  offered mode e fi fo -> (List.length scans <= List.length poses)%nat ->
  test align (s_ mode) (newMatcher (s_ mode)) disp rot poses scans 0 m = Ok (mkRep n (Some v)) ->
  exists pairs es vs,
    picks disp rot poses (List.length scans) 0 0 pairs /\
    answers (align e) fi fo scans m (firstn (Z.to_nat 1001) pairs) es /\
    errors poses (firstn (Z.to_nat 1001) pairs) es vs /\ n = List.length vs /\ (0 < n)%nat /\
    px v = mean (map px vs) + / INR n /\ px v <> mean (map px vs) /\
    py v = mean (map py vs) /\ pth v = mean (map pth vs).
Proof.
  intros A M align mode e fi fo disp rot poses scans m n v O LE H.
  destruct (C131_report_partial A M align mode e fi fo disp rot poses scans m O LE) as (l & es & vs & P & A1 & A2 & A3).
  cbv zeta in A1, A2, A3. remember (firstn (Z.to_nat 1001) l) as dn eqn:ED.
  pose proof (errors_length _ _ _ _ A2) as LV. rewrite A3 in H. clear A3. injection H as Hn Hv.
  destruct (Nat.eqb_spec (List.length dn) 0) as [Z0|Z0]; [discriminate Hv|].
  injection Hv as <-. rewrite <- LV in *. subst n.
  assert (NZ : 0 < INR (List.length vs)) by (apply lt_0_INR; lia).
  exists l, es, vs. rewrite <- ED. split; [exact P|]. split; [exact A1|]. split; [exact A2|]. split; [reflexivity|].
  split; [lia|]. unfold mean. rewrite !map_length. cbn [px py pth].
  assert (X : (1 + sumR (map px vs)) / INR (List.length vs) = sumR (map px vs) / INR (List.length vs) + / INR (List.length vs))
    by (field; lra).
  split; [exact X|]. split; [|split; reflexivity].
  rewrite X. pose proof (Rinv_0_lt_compat _ NZ). lra.
Qed.
Print Assumptions C131_mean_refuted.

(** Nothing far enough apart: no figures but a division by zero. *)
Theorem C131_none : forall (A M : Type) (align : engine -> M -> given A -> given A -> M * T2)
    mode e (fi fo : A -> given A) disp rot poses (scans : list A) m,
  offered mode e fi fo -> (List.length scans <= List.length poses)%nat ->
  (forall j, (j < List.length scans)%nat -> ~ apart_at disp rot poses 0 j) ->
  test align (s_ mode) (newMatcher (s_ mode)) disp rot poses scans 0 m = Ok (mkRep 0 None).
Proof.
  intros A M align mode e fi fo disp rot poses scans m O LE H.
  destruct (C131_report_partial A M align mode e fi fo disp rot poses scans m O LE) as (l & es & vs & P & _ & _ & A3).
  rewrite (picks_unique _ _ _ _ _ _ _ P []) in A3.
  - rewrite A3, firstn_nil. reflexivity.
  - apply picks_end. intros j J. apply H. lia.
Qed.
Print Assumptions C131_none.

(** "The error of the direction is at most half a turn" is false: the tool forgets that
    directions wrap. *)
Theorem C131_heading_refuted : exists p q e r v,
  sees p q r /\ rigid e /\ error_of [p; q] (1%nat, 0%nat) e v /\ PI < pth v /\
  exists a, wrapped (pth r - getAngle e) a /\ Rabs a <= 2 / 10.
Proof.
  pose proof PI_RGT_0 as P0. assert (P3 : 3 < PI) by (pose proof PI_ineq 3 as [X _]; unfold tg_alt, PI_tg in X; cbn in X; lra).
  set (b := PI - 1 / 10).
  assert (AB : getAngle (getTransFromPose (mkP 1 0 (- b))) = - b).
  { unfold getAngle. rewrite (rigid_rotation _ (rigid_pose _)). cbn [fst snd ta tc getTransFromPose pth].
    apply atan2_polar. unfold b. lra. }
  assert (W : sees (mkP 0 0 0) (mkP 1 0 b) (mkP 1 0 b)).
  { split; [unfold seen_from; cbn; rewrite cos_0, sin_0; f_equal; ring|].
    split; [cbn; unfold b; lra|]. exists 0%Z. cbn. ring. }
  exists (mkP 0 0 0), (mkP 1 0 b), (getTransFromPose (mkP 1 0 (- b))), (mkP 1 0 b),
    (mkP (Rabs (1 - 1)) (Rabs (0 - 0)) (Rabs (b - (- b)))).
  split; [exact W|]. split; [apply rigid_pose|]. split.
  { exists (mkP 0 0 0), (mkP 1 0 b), (mkP 1 0 b). split; [reflexivity|]. split; [reflexivity|]. split; [exact W|].
    rewrite AB. reflexivity. }
  cbn [pth]. rewrite AB. split.
  - rewrite Rabs_right by (unfold b; lra). unfold b. lra.
  - exists (b - - b + IZR (-1) * (2 * PI)). split.
    + split; [unfold b; lra|]. exists (-1)%Z. reflexivity.
    + unfold b. rewrite Rabs_left1; lra.
Qed.
Print Assumptions C131_heading_refuted.

(** Fewer poses than scans: the program reads past the end of the poses. *)
Theorem C131_missing : forall (A M : Type) (align : engine -> M -> given A -> given A -> M * T2)
    mode e (fi fo : A -> given A) disp rot poses (scans : list A) m pairs,
  offered mode e fi fo -> (List.length poses < List.length scans)%nat ->
  picks disp rot poses (List.length poses) 0 0 pairs -> (Z.of_nat (List.length pairs) <= 1000)%Z ->
  test align (s_ mode) (newMatcher (s_ mode)) disp rot poses scans 0 m = UB.
Proof.
  intros A M align mode e fi fo disp rot poses scans m l O LT P L. unfold test. rewrite Nat.sub_0_r.
  assert (E : exists rest, seq 0 (List.length scans) = (seq 0 (List.length poses) ++ List.length poses :: rest)%list).
  { exists (seq (S (List.length poses)) (List.length scans - S (List.length poses))).
    change (List.length poses :: seq (S (List.length poses)) (List.length scans - S (List.length poses)))%list
      with (seq (0 + List.length poses) (S (List.length scans - S (List.length poses)))).
    rewrite <- seq_app. f_equal. lia. }
  destruct E as (rest & ->).
  rewrite (loop_missing align disp rot poses scans mode e fi fo O LT (List.length poses) 0%nat 0%nat total0 0%nat m l); auto.
  lia.
Qed.
Print Assumptions C131_missing.

(** The command line.  Two arguments at least: the program runs with the limits given or
    the built-in ones; the files hold what their lines say, a missing file holds nothing. *)
Theorem C131_main : forall (A M : Type) (align : engine -> M -> given A -> given A -> M * T2) m
    (project : laser -> A) atof stod args pf sf disp rot poses lasers folder mode rest prog r,
  args = prog :: folder :: mode :: rest -> limits stod args disp rot ->
  let held (f : option (list str)) := match f with Some l => firstn (Z.to_nat 1000000) l | None => [] end in
  Forall2 (pose_line atof) (held (pf folder)) poses -> Forall2 (scan_line atof) (held (sf folder)) lasers ->
  test align mode (newMatcher mode) disp rot poses (map project lasers) 0 m = r ->
  visualMain align m project atof stod args pf sf = (do x <- r; Ok (Figures x)).
Proof.
  intros A M align m project atof stod args pf sf disp rot poses lasers folder mode rest prog r EA LI held FP FS T.
  destruct (C131_files atof MAX_LINES_v (match pf folder with Some l => l | None => [] end)) as (RP & _).
  destruct (C131_files atof MAX_LINES_v (match sf folder with Some l => l | None => [] end)) as (_ & _ & _ & RS & _).
  assert (EP : preparePoseData atof MAX_LINES_v (pf folder) = Ok poses).
  { destruct (pf folder) as [l|]; [apply RP; exact FP|]. inversion FP; subst. reflexivity. }
  assert (ES : prepareLaserScans atof MAX_LINES_v (sf folder) = Ok lasers).
  { destruct (sf folder) as [l|]; [apply RS; exact FS|]. inversion FS; subst. reflexivity. }
  unfold visualMain, badArgs. subst args.
  destruct rest as [|d [|r1 [|r2 rest]]]; cbn in LI; cbn [List.length Nat.ltb Nat.leb bind].
  - destruct LI as [-> ->]. cbn [Nat.eqb bind vget nth_error fst snd]. rewrite EP, ES. cbn [bind]. rewrite <- T. reflexivity.
  - destruct LI as [LD ->]. cbn [Nat.eqb bind vget nth_error fst snd]. unfold num. rewrite LD. cbn [bind fst snd].
    rewrite EP, ES. cbn [bind]. rewrite <- T. reflexivity.
  - destruct LI as [LD LR]. cbn [Nat.eqb bind vget nth_error fst snd]. unfold num. rewrite LD. cbn [bind fst snd].
    rewrite LR. cbn [bind fst snd]. rewrite EP, ES. cbn [bind]. rewrite <- T. reflexivity.
  - destruct LI as [-> ->]. cbn [Nat.eqb bind vget nth_error fst snd]. rewrite EP, ES. cbn [bind]. rewrite <- T. reflexivity.
Qed.
Print Assumptions C131_main.

(** "A wrong command line is answered by the usage" is false: the usage is never printed.
    Too few arguments are undefined behaviour; an unknown mode is as soon as a pair is to be
    compared. *)
Theorem C131_usage_refuted : forall (A M : Type) (align : engine -> M -> given A -> given A -> M * T2) m
    (project : laser -> A) atof stod args pf sf,
  visualMain align m project atof stod args pf sf <> Ok Usage /\
  ((List.length args < 3)%nat -> visualMain align m project atof stod args pf sf = UB) /\
  forall disp rot poses (scans : list A) mode pairs, (forall n, In n mode_names -> mode <> s_ n) ->
    (List.length scans <= List.length poses)%nat ->
    picks disp rot poses (List.length scans) 0 0 pairs -> pairs <> [] ->
    test align mode (newMatcher mode) disp rot poses scans 0 m = UB.
Proof.
  intros A M align m project atof stod args pf sf. split; [|split].
  - unfold visualMain, badArgs. destruct (Nat.ltb_spec (List.length args) 3) as [L|L].
    + unfold vget at 1. rewrite (proj2 (nth_error_None args 2)) by lia. discriminate.
    + cbn [bind]. intro H. apply bind_ok_inv in H as (a & _ & H). apply bind_ok_inv in H as (b & _ & H).
      apply bind_ok_inv in H as (c & _ & H). apply bind_ok_inv in H as (d & _ & H).
      apply bind_ok_inv in H as (e & _ & H). apply bind_ok_inv in H as (f & _ & H). discriminate.
  - intro L. unfold visualMain, badArgs. rewrite (proj2 (Nat.ltb_lt _ _) L).
    unfold vget at 1. rewrite (proj2 (nth_error_None args 2)) by lia. reflexivity.
  - intros disp rot poses scans mode l U LE P NE. unfold test. rewrite Nat.sub_0_r.
    rewrite (loop_unknown align disp rot poses scans mode (unknown_model mode U) LE (List.length scans) 0%nat 0%nat _ l);
      [reflexivity|lia|lia|reflexivity|exact P|exact NE].
Qed.
Print Assumptions C131_usage_refuted.

Definition ex_atof (s : str) : R := if list_eq_dec ascii_dec s (s_ "1") then 1 else 0.
Definition ex_files (l : list string) : str -> option (list str) := fun _ => Some (map s_ l).
(** A robot that drives one metre and then turns by one radian; the matcher always answers
    that nothing moved.  The error is (1, 0, 1); the tool says (2, 0, 1). *)
Example C131_case :
  visualMain (A := laser) (fun _ m _ _ => (m, t2id)) tt (fun l => l) ex_atof (fun _ => None)
    (map s_ ["ndt2d_visual"; "data"; "d2d"]%string)
    (ex_files ["t,0,0,0"; "t,1,0,0"; "t,1,0,1"]%string) (ex_files ["s,0,0,n,1,1"; "s,0,0,n,1,1"; "s,0,0"]%string)
  = Ok (Figures (mkRep 1 (Some (mkP 2 0 1)))).
Proof.
  pose proof PI_RGT_0 as P0. assert (P3 : 3 < PI) by (pose proof PI_ineq 3 as [X _]; unfold tg_alt, PI_tg in X; cbn in X; lra).
  assert (ROW : forall (l : list string), l <> [] -> (forall f, In f l -> ~ In ","%char (s_ f)) ->
     row (join (s_ ",") (map s_ l)) (map s_ l)).
  { intros l NE H. split; [destruct l; [congruence|discriminate]|]. split; [reflexivity|].
    intros f I. apply in_map_iff in I as (g & <- & G). auto. }
  set (ps := [mkP 0 0 0; mkP 1 0 0; mkP 1 0 1]).
  set (ls := [mkLaser 0 0 [1; 1]; mkLaser 0 0 [1; 1]; mkLaser 0 0 []]).
  assert (AT : ex_atof (s_ "0") = 0 /\ ex_atof (s_ "1") = 1).
  { unfold ex_atof. destruct (list_eq_dec ascii_dec (s_ "0") (s_ "1")) as [E|]; [discriminate E|].
    destruct (list_eq_dec ascii_dec (s_ "1") (s_ "1")) as [|E]; [split; reflexivity|congruence]. }
  destruct AT as [AT0 AT1].
  assert (NC : forall l : list string, forallb (fun f => negb (existsb (Ascii.eqb ","%char) (s_ f))) l = true ->
     forall f, In f l -> ~ In ","%char (s_ f)).
  { intros l H f I X. rewrite forallb_forall in H. specialize (H f I). apply negb_true_iff in H.
    assert (existsb (Ascii.eqb ","%char) (s_ f) = true); [|congruence].
    apply existsb_exists. exists ","%char. split; [exact X|reflexivity]. }
  assert (PL : forall x y a : string, forallb (fun f => negb (existsb (Ascii.eqb ","%char) (s_ f))) ["t"%string; x; y; a] = true ->
     pose_line ex_atof (join (s_ ",") (map s_ ["t"%string; x; y; a])) (mkP (ex_atof (s_ x)) (ex_atof (s_ y)) (ex_atof (s_ a)))).
  { intros x y a H. exists (s_ "t"), (s_ x), (s_ y), (s_ a), []. split; [|reflexivity].
    apply (ROW ["t"%string; x; y; a]); [discriminate|apply NC; exact H]. }
  assert (FP : Forall2 (pose_line ex_atof) (map s_ ["t,0,0,0"; "t,1,0,0"; "t,1,0,1"]%string) ps).
  { unfold ps. pose proof (PL "0" "0" "0" eq_refl)%string as X. pose proof (PL "1" "0" "0" eq_refl)%string as Y.
    pose proof (PL "1" "0" "1" eq_refl)%string as Z. rewrite AT0, ?AT1 in X, Y, Z.
    constructor; [exact X|constructor; [exact Y|constructor; [exact Z|constructor]]]. }
  assert (SL1 : scan_line ex_atof (s_ "s,0,0,n,1,1") (mkLaser 0 0 [1; 1])).
  { exists (s_ "s"), (s_ "0"), (s_ "0"), [s_ "n"; s_ "1"; s_ "1"]. split.
    - apply (ROW ["s"; "0"; "0"; "n"; "1"; "1"]%string); [discriminate|apply NC; reflexivity].
    - cbn [tl map]. rewrite AT0, AT1. reflexivity. }
  assert (SL2 : scan_line ex_atof (s_ "s,0,0") (mkLaser 0 0 [])).
  { exists (s_ "s"), (s_ "0"), (s_ "0"), []. split.
    - apply (ROW ["s"; "0"; "0"]%string); [discriminate|apply NC; reflexivity].
    - cbn [tl map]. rewrite AT0. reflexivity. }
  assert (FS : Forall2 (scan_line ex_atof) (map s_ ["s,0,0,n,1,1"; "s,0,0,n,1,1"; "s,0,0"]%string) ls)
    by (constructor; [exact SL1|constructor; [exact SL1|constructor; [exact SL2|constructor]]]).
  assert (CUT : forall l : list str, (List.length l <= 10)%nat -> firstn (Z.to_nat 1000000) l = l).
  { intros l L. apply firstn_all2. lia. }
  assert (LONG : forall p q, sees (mkP 0 0 0) (mkP p 0 q) (mkP p 0 q) <-> - PI < q <= PI).
  { intros p q. split; [intros [_ [H _]]; exact H|]. intro H.
    split; [unfold seen_from; cbn; rewrite cos_0, sin_0; f_equal; ring|].
    split; [exact H|]. exists 0%Z. cbn. ring. }
  assert (S01 : sees (mkP 0 0 0) (mkP 1 0 0) (mkP 1 0 0)) by (apply LONG; lra).
  assert (S00 : sees (mkP 0 0 0) (mkP 0 0 0) (mkP 0 0 0)) by (apply LONG; lra).
  assert (S02 : sees (mkP 0 0 0) (mkP 1 0 1) (mkP 1 0 1)) by (apply LONG; lra).
  assert (PK : picks (4/10) (3/10) ps 3 0 0 [(2%nat, 0%nat)]).
  { apply picks_next.
    - lia.
    - exists (mkP 0 0 0), (mkP 1 0 1). split; [reflexivity|]. split; [reflexivity|].
      exists (mkP 1 0 1). split; [exact S02|]. cbn [pth]. rewrite Rabs_R1. split; [lra|].
      unfold distance. cbn [px py]. replace ((1 - 0) ^ 2 + (0 - 0) ^ 2) with 1 by ring. rewrite sqrt_1. lra.
    - intros k K (p & q & Hp & Hq & r & S & R & _). cbn in Hp. injection Hp as <-.
      assert (k = 0 \/ k = 1)%nat as [-> | ->] by lia; cbn in Hq; injection Hq as <-.
      + rewrite <- (sees_unique _ _ _ _ S00 S) in R. cbn in R. rewrite Rabs_R0 in R. lra.
      + rewrite <- (sees_unique _ _ _ _ S01 S) in R. cbn in R. rewrite Rabs_R0 in R. lra.
    - apply picks_end. intros j J. lia. }
  rewrite (C131_main laser unit (fun _ m _ _ => (m, t2id)) tt (fun l => l) ex_atof (fun _ => None)
    (map s_ ["ndt2d_visual"; "data"; "d2d"]%string) _ _ (4/10) (3/10) ps ls (s_ "data") (s_ "d2d") [] (s_ "ndt2d_visual")
    (Ok (mkRep 1 (Some (mkP 2 0 1))))); [reflexivity|reflexivity|split; reflexivity| | |].
  - unfold ex_files. rewrite CUT by (cbn; lia). exact FP.
  - unfold ex_files. rewrite CUT by (cbn; lia). exact FS.
  - destruct (C131_report_partial laser unit (fun _ m _ _ => (m, t2id)) "d2d" D2D Cells Cells (4/10) (3/10) ps (map (fun l => l) ls) tt
      offered_d2d) as (pairs & es & vs & P & A1 & A2 & ->); [cbn; lia|].
    rewrite <- (picks_unique _ _ _ _ _ _ _ PK _ P) in *.
    assert (C1 : firstn (Z.to_nat 1001) [(2%nat, 0%nat)] = [(2%nat, 0%nat)]) by (apply firstn_all2; cbn [List.length]; lia).
    rewrite C1 in *. cbn [List.length Nat.eqb] in *.
    inversion A1 as [|? m' ? ? s s' e ? es' N1 N2 AL A1']; subst. injection AL as _ <-.
    inversion A1'; subst. inversion A2 as [|? ? v ? ? vs' EV A2']; subst. inversion A2'; subst.
    destruct EV as (p & q & r & Hp & Hq & S & ->). cbn in Hp, Hq. injection Hp as <-. injection Hq as <-.
    rewrite <- (sees_unique _ _ _ _ S02 S).
    assert (GA : getAngle t2id = 0).
    { unfold getAngle. rewrite (rigid_rotation _ rigid_id). cbn [fst snd ta tc t2id].
      pose proof (atan2_polar 0) as X. rewrite cos_0, sin_0 in X. apply X. lra. }
    rewrite GA. unfold sumR. cbn [map fold_right px py pth tx ty t2id INR].
    rewrite !Rminus_0_r, Rabs_R1, Rabs_R0. do 3 f_equal. apply pose_eq; cbn [px py pth]; field.
Qed.

(** The map of the other tool: with more than 17000 scans and a pose for each used one, the
    scans from 7000 on, without the last 10000, are merged in order at the poses relative to
    the first. *)
Theorem C132_map_partial : forall (A G : Type) (g0 : G) (merge : G -> A -> pose -> res G) poses (scans : list A) k g,
  (Z.of_nat (List.length scans) < 2 ^ 64)%Z -> Z.of_nat (List.length scans) = (17000 + Z.of_nat k)%Z ->
  merged merge poses scans k (Z.to_nat 7000) g0 g -> mappingKnownPoses g0 merge poses scans = Ok g.
Proof.
  intros A G g0 merge poses scans k g LT L M. unfold mappingKnownPoses.
  rewrite u64_small by lia. unfold first_known. rewrite iter_N_nat.
  replace (N.to_nat (Z.to_N (Z.of_nat (List.length scans) - 10000 - 7000))) with k by lia.
  rewrite (iter_known merge poses scans k _ _ _ M). reflexivity.
Qed.
Print Assumptions C132_map_partial.

(** From 10000 to 17000 scans: the map is empty. *)
Theorem C132_nothing : forall (A G : Type) (g0 : G) (merge : G -> A -> pose -> res G) poses (scans : list A),
  (10000 <= Z.of_nat (List.length scans) <= 17000)%Z -> mappingKnownPoses g0 merge poses scans = Ok g0.
Proof.
  intros A G g0 merge poses scans L. unfold mappingKnownPoses. rewrite u64_small by lia. unfold first_known.
  replace (Z.to_N (Z.of_nat (List.length scans) - 10000 - 7000)) with 0%N by lia. reflexivity.
Qed.
Print Assumptions C132_nothing.

(** Fewer than 10000 scans: always undefined behaviour, since the bound of the loop wraps
    around. *)
Theorem C132_few : forall (A G : Type) (g0 : G) (merge : G -> A -> pose -> res G) poses (scans : list A),
  (Z.of_nat (List.length scans) < 10000)%Z -> mappingKnownPoses g0 merge poses scans = UB.
Proof.
  intros A G g0 merge poses scans L. unfold mappingKnownPoses.
  assert (U : exists z, u64 (Z.of_nat (List.length scans) - 10000) = z /\ (20000 <= z)%Z).
  { exists (Z.of_nat (List.length scans) - 10000 + 2 ^ 64)%Z. split; [|lia]. unfold u64.
    rewrite <- (Z_mod_plus_full _ 1 (2 ^ 64)), Z.mul_1_l. apply Z.mod_small. lia. }
  destruct U as (z & -> & Z20). unfold first_known. rewrite iter_N_nat.
  assert (RUN : forall k i g, (List.length scans < i + k)%nat -> (0 < k)%nat ->
            iter_nat k (knownStep merge poses scans) (i, g) = Fail).
  { induction k as [|k IH]; intros i g K K0; [lia|]. cbn [iter_nat].
    destruct (knownStep merge poses scans (i, g)) as [st|st|] eqn:E; [|exfalso|reflexivity].
    - unfold knownStep in E. cbn [fst snd] in E.
      destruct (vget poses 0) as [p0| |]; cbn [bind] in E; try discriminate.
      destruct (vget poses i) as [pi| |]; cbn [bind] in E; try discriminate.
      destruct (vget scans i) as [s| |] eqn:S; cbn [bind] in E; try discriminate.
      destruct (merge g s _) as [g'| |]; try discriminate. injection E as <-.
      assert (i < List.length scans)%nat.
      { apply nth_error_Some. intro X. unfold vget in S. rewrite X in S. discriminate. }
      apply IH; lia.
    - unfold knownStep in E. destruct (bind _ _); discriminate. }
  rewrite RUN by lia. reflexivity.
Qed.
Print Assumptions C132_few.

(** "With a folder as its only argument the tool makes a map of the recordings in it" is false
    for every folder: without a limit on the command line at most 5000 scans are read, and
    the outcome is undefined. *)
Theorem C132_default_refuted : forall (A G : Type) (g0 : G) (merge : G -> A -> pose -> res G) (project : laser -> A)
    atof stoi isNum prog folder pf sf,
  mergingMain g0 merge project atof stoi isNum [prog; folder] pf sf = UB.
Proof.
  intros A G g0 merge project atof stoi isNum prog folder pf sf. unfold mergingMain.
  cbn [List.length Nat.ltb Nat.leb bind vget nth_error].
  set (mx := u64 (5000 * 2)). clearbody mx.
  assert (RP : forall max f, (exists ps, preparePoseData atof max f = Ok ps) \/ preparePoseData atof max f = UB).
  { intros max [l|]; [|left; exists []; reflexivity].
    destruct (C131_files atof max l) as (X & Y & [(ps & Z)|Z] & _); [left; exists ps; auto|right; auto]. }
  assert (RS : (exists ls, prepareLaserScans atof 5000 (sf folder) = Ok ls /\ (Z.of_nat (List.length ls) <= 5000)%Z) \/
               prepareLaserScans atof 5000 (sf folder) = UB).
  { destruct (sf folder) as [l|]; [|left; exists []; split; [reflexivity|cbn; lia]].
    destruct (C131_files atof 5000 l) as (_ & _ & _ & X & Y & [(ls & Z)|Z]); [left; exists ls|right; auto].
    split; [auto|]. apply Forall2_len in Z. rewrite firstn_length in Z. lia. }
  destruct (RP mx (pf folder)) as [(ps & ->) | ->]; [|reflexivity]. cbn [bind].
  destruct RS as [(ls & -> & L) | ->]; [|reflexivity]. cbn [bind].
  rewrite C132_few by (rewrite map_length; lia). reflexivity.
Qed.
Print Assumptions C132_default_refuted.

(** With a limit: as many lines of scans as it says and twice as many of poses are used. *)
Theorem C132_main : forall (A G : Type) (g0 : G) (merge : G -> A -> pose -> res G) (project : laser -> A)
    atof stoi isNum prog folder lim rest n pf sf poses lasers g,
  stoi lim = Some n -> (0 <= n < 2 ^ 31)%Z ->
  (forall a r, rest = a :: r -> isNum a = true) ->
  (forall a b c d e r, rest = a :: b :: c :: d :: e :: r ->
     isNum b = true /\ isNum c = true /\ stoi d <> None /\ stoi e <> None) ->
  let held k (f : option (list str)) := match f with Some l => firstn (Z.to_nat k) l | None => [] end in
  Forall2 (pose_line atof) (held (2 * n)%Z (pf folder)) poses -> Forall2 (scan_line atof) (held n (sf folder)) lasers ->
  mappingKnownPoses g0 merge poses (map project lasers) = g ->
  mergingMain g0 merge project atof stoi isNum (prog :: folder :: lim :: rest) pf sf = (do x <- g; Ok (Some x)).
Proof.
  intros A G g0 merge project atof stoi isNum prog folder lim rest n pf sf poses lasers g LIM N R1 R5 held FP FS K.
  assert (EP : preparePoseData atof (n * 2) (pf folder) = Ok poses).
  { replace (n * 2)%Z with (2 * n)%Z by lia.
    destruct (pf folder) as [l|]; [|inversion FP; reflexivity].
    destruct (C131_files atof (2 * n) l) as (RP & _). apply RP. exact FP. }
  assert (ES : prepareLaserScans atof n (sf folder) = Ok lasers).
  { destruct (sf folder) as [l|]; [|inversion FS; reflexivity].
    destruct (C131_files atof n l) as (_ & _ & _ & RS & _). apply RS. exact FS. }
  unfold mergingMain. cbn [List.length Nat.ltb Nat.leb bind vget nth_error]. unfold int at 1. rewrite LIM. cbn [bind].
  rewrite (u64_small n) by lia. rewrite (u64_small (n * 2)) by lia.
  assert (END : (do poses0 <- preparePoseData atof (n * 2) (pf folder);
          do scans <- prepareLaserScans atof n (sf folder);
          do g1 <- mappingKnownPoses g0 merge poses0 (map project scans); Ok (Some g1)) = (do x <- g; Ok (Some x)))
    by (rewrite EP, ES; cbn [bind]; rewrite K; reflexivity).
  destruct rest as [|a rest]; [exact END|].
  cbn [List.length Nat.leb bind vget nth_error]. unfold numeric at 1. rewrite (R1 a rest eq_refl). cbn [bind].
  destruct rest as [|b [|c [|d [|e r]]]]; try exact END.
  destruct (R5 a b c d e r eq_refl) as (B & C & D & E).
  cbn [List.length Nat.leb bind vget nth_error]. unfold numeric, int. rewrite B, C. cbn [bind].
  destruct (stoi d); [|congruence]. cbn [bind]. destruct (stoi e); [|congruence]. cbn [bind]. exact END.
Qed.
Print Assumptions C132_main.

(** 17002 scans of a robot that does not move, merged into the list of the poses used. *)
Example C132_case :
  let n := Z.to_nat 17002 in
  mappingKnownPoses [] (fun g (s : unit) p => Ok (g ++ [p])%list) (repeat (mkP 3 4 0) n) (repeat tt n) =
  Ok [mkP 0 0 0; mkP 0 0 0].
Proof.
  pose proof PI_RGT_0 as P0. intro n.
  assert (NE : forall (X : Type) (x : X) k i, (i < k)%nat -> nth_error (repeat x k) i = Some x).
  { intros X x. induction k as [|k IH]; intros [|i] L; try lia; [reflexivity|]. cbn. apply IH. lia. }
  assert (S : sees (mkP 3 4 0) (mkP 3 4 0) (mkP 0 0 0)).
  { split; [unfold seen_from; cbn; f_equal; ring|]. split; [cbn; lra|]. exists 0%Z. cbn. ring. }
  apply (C132_map_partial unit _ [] _ _ _ 2).
  - rewrite repeat_length. unfold n. lia.
  - rewrite repeat_length. unfold n. lia.
  - apply merged_cons with (g' := [mkP 0 0 0]) (s := tt) (p := mkP 3 4 0) (q := mkP 3 4 0) (r := mkP 0 0 0);
      [apply NE; unfold n; lia|apply NE; unfold n; lia|apply NE; unfold n; lia|exact S|reflexivity|].
    apply merged_cons with (g' := [mkP 0 0 0; mkP 0 0 0]) (s := tt) (p := mkP 3 4 0) (q := mkP 3 4 0) (r := mkP 0 0 0);
      [apply NE; unfold n; lia|apply NE; unfold n; lia|apply NE; unfold n; lia|exact S|reflexivity|].
    apply merged_nil.
Qed.

(** An argument that should be a number and is none ends both tools with an exception,
    before any file is read. *)
Theorem C132_bad_number : forall (A G : Type) (g0 : G) (merge : G -> A -> pose -> res G) (project : laser -> A)
    atof stoi isNum prog folder a rest pf sf,
  stoi a = None ->
  mergingMain g0 merge project atof stoi isNum (prog :: folder :: a :: rest) pf sf = Throw.
Proof. intros. unfold mergingMain. cbn. unfold int. rewrite H. reflexivity. Qed.
Print Assumptions C132_bad_number.
Theorem C132_bad_options : forall (A G : Type) (g0 : G) (merge : G -> A -> pose -> res G) (project : laser -> A)
    atof stoi isNum prog folder a b c d e f rest pf sf,
  stoi a <> None -> (isNum b = false \/ isNum c = false \/ isNum d = false \/ stoi e = None \/ stoi f = None) ->
  mergingMain g0 merge project atof stoi isNum (prog :: folder :: a :: b :: c :: d :: e :: f :: rest) pf sf = Throw.
Proof.
  intros A G g0 merge project atof stoi isNum prog folder a b c d e f rest pf sf HA H.
  unfold mergingMain. cbn [List.length Nat.ltb Nat.leb vget nth_error bind]. unfold int, numeric.
  destruct (stoi a) as [z|]; [|congruence]. cbn [bind].
  destruct (isNum b); [cbn [bind]|reflexivity]. destruct (isNum c); [cbn [bind]|reflexivity].
  destruct (isNum d); [cbn [bind]|reflexivity]. destruct (stoi e); [cbn [bind]|reflexivity].
  destruct (stoi f); [cbn [bind]|reflexivity].
  destruct H as [H|[H|[H|[H|H]]]]; discriminate.
Qed.
Print Assumptions C132_bad_options.
Theorem C131_bad_number : forall (A M : Type) (align : engine -> M -> given A -> given A -> M * T2) m
    (project : laser -> A) atof stod prog folder mode a rest pf sf,
  (rest = [] \/ exists b, rest = [b]) -> (stod a = None \/ exists b, rest = [b] /\ stod b = None) ->
  visualMain align m project atof stod (prog :: folder :: mode :: a :: rest) pf sf = Throw.
Proof.
  intros A M align m project atof stod prog folder mode a rest pf sf R H.
  destruct R as [->|(b & ->)]; unfold visualMain, badArgs; cbn [List.length Nat.ltb Nat.leb Nat.eqb vget nth_error bind]; unfold num.
  - destruct H as [->|(b & E & _)]; [reflexivity|discriminate].
  - destruct H as [->|(b' & E & H)]; [reflexivity|]. injection E as <-. rewrite H. destruct (stod a); reflexivity.
Qed.
Print Assumptions C131_bad_number.
Example C132_bad_number_case :
  mergingMain (A := laser) (G := unit) tt (fun g _ _ => Ok g) (fun l => l) ex_atof (fun _ => None) (fun _ => true)
    (map s_ ["ndt_grid2d_merging"; "data"; "many"]%string) (fun _ => None) (fun _ => None) = Throw.
Proof. apply (C132_bad_number laser unit); reflexivity. Qed.
