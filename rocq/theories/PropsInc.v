(** C113-C114: the incremental registration of scans against the running window, point to
    distribution over four layers (property statements; proofs in IncProofs.v, a run that
    is matched in IncCases.v).

    [p2dAlign solve eps s m fuel true layers guess st]: the outcome of a registration
    with transformation epsilon [eps], step size [s] and at most [m] iterations; [fuel]
    bounds the rounds of the model.  [rs_final] and [rs_iter]: the transform found and
    the rounds of the last layer.  [scanP2d]: the registration with the settings of the
    program.  [followed h y]: [y] is reached by the calls [h], each matched by it. *)
From Coq Require Import Reals Qreals List ZArith QArith Bool Lra Lia Arith.
From Verif Require Import Base LinAlg3 GeoModel GeoSpec GeoProofs OptModel RegModel RegSpec RegNewton.
From Verif Require Import GraphModel LoopModel SlamModel AlgModel AlgSpec AlgProofs AlgCases.
From Verif Require Import VoxelModel GridModel GridCases ScanInit MapModel SysModel SysSpec SysCases.
From Verif Require Import RealModel RealSpec RealProofs RealCases IncModel IncProofs IncCases.
Import ListNotations.
Open Scope R_scope.

(** With a step size of at most half the epsilon, neither the step size nor the number of
    iterations has any influence. *)
Theorem C113_settings_idle : forall solve eps s s' m m' f f' ready ls g st, 0 < eps ->
  s <= eps / 2 -> s' <= eps / 2 -> (0 <= m)%Z -> (0 <= m')%Z ->
  p2dAlign solve eps s m (2 + f) ready ls g st = p2dAlign solve eps s' m' (2 + f') ready ls g st.
Proof. exact settings_idle. Qed.

(** A registration then ends, takes two rounds for each layer, and corrects the guess by at
    most the epsilon for each layer. *)
Theorem C113_two_rounds : forall solve eps s m f ls g st, 0 < eps -> s <= eps / 2 -> (0 <= m)%Z ->
  exists r w, p2dAlign solve eps s m (2 + f) true ls (getTransFromPose g) st = Some (Some r) /\
    rs_final r = getTransFromPose w /\
    sqrt ((px w - px g) ^ 2 + (py w - py g) ^ 2 + (pth w - pth g) ^ 2) <= INR (length ls) * eps /\
    (rs_conv r = true -> ls <> [] -> rs_iter r = 2%nat).
Proof.
  intros solve eps s m f ls [x y t] st E S M.
  destruct (two_align solve eps s m f ls (mkV x y t) st E S M) as (r & [a b c] & R & F & D & I).
  exists r, (mkP a b c). split; [exact R|]. split; [exact F|]. split; [|exact I].
  unfold dist3, vnorm, vdot, vsub in D. cbn [vx vy vz] in D. cbn [px py pth].
  replace ((a - x) ^ 2 + (b - y) ^ 2 + (c - t) ^ 2) with ((a - x) * (a - x) + (b - y) * (b - y) + (c - t) * (c - t)) by ring. exact D.
Qed.

(** The registration of the program corrects a guess by at most 0.4, whatever is seen. *)
Theorem C113_reach : forall {X} merge dflt icovOf search solve left source (window : ngrid X) g,
  differs (4 / 10) (getTransFromPose g) (snd (scanP2d merge dflt icovOf search solve left source window (getTransFromPose g))).
Proof.
  intros. destruct g as [x y t].
  destruct (scan_reach merge dflt icovOf search solve left source window (mkV x y t)) as ([a b c] & F & D).
  exists (mkP x y t), (mkP a b c). split; [reflexivity|]. split; [exact F|].
  unfold dist3, vnorm, vdot, vsub in D. cbn [vx vy vz] in D. cbn [px py pth].
  replace ((a - x) ^ 2 + (b - y) ^ 2 + (c - t) ^ 2) with ((a - x) * (a - x) + (b - y) * (b - y) + (c - t) * (c - t)) by ring. exact D.
Qed.
(** It can do all of this: two metres are corrected to 1.6. *)
Example C113_case : forall left,
  scanP2d pmerge pdflt icov isearch isolve left (meansOf il) iw0 (along 2) = (true, along (16 / 10)).
Proof. exact igo. Qed.

(** Whatever is seen, and whatever happened before, what a call adds to the path differs by
    at most 0.4, in metres and radians taken together, from the motion reported for this
    call.  [AInc t]: the call continues the path by [t]. *)
Theorem C114_increment : forall {X Guess D} icovOf search solve merge (dflt : ncell X) addPt compute tcell occRay rawOcc btw tp
    noLin moveOrigin moveScan dbl radius (le : lenv pose (frame (res (ngrid X))) M3 Guess D) se2' odo dist h y,
  let env := sysEnv merge dflt addPt compute tcell occRay btw tp noLin moveOrigin moveScan dbl radius le se2' odo dist in
  followed icovOf search solve merge dflt addPt compute tcell occRay rawOcc btw tp dbl env h y ->
  (forall e, In e h -> rigid (i_motion (v_in e))) -> sharp dbl h ->
  forall e inc, In e h -> In (AInc inc) (v_evs e) -> differs (4 / 10) (i_motion (v_in e)) inc.
Proof. intros. eapply inc_near; eassumption. Qed.
(** A call that is matched. *)
Example C114_case : (exists y, ifollowed ih y) /\ (forall e, In e ih -> rigid (i_motion (v_in e))) /\ sharp zdbl ih /\
  exists e, In e ih /\ i_match (v_in e) = Some (along 2) /\ In (AInc (along 2)) (v_evs e).
Proof.
  split; [destruct i_run as (y & R & _); exists y; exact R|]. split.
  { intros e [<-|[<-|[]]]; apply along_rigid. }
  split.
  { intros e t I M. destruct I as [<-|[<-|[]]]; cbn in M; [injection M as <-|discriminate].
    split; [apply along_rigid|]. cbn [along tx ty]. rewrite (zdbl_int 2), (zdbl_int 0). unfold Q2R, inject_Z. cbn. lra. }
  eexists. split; [now left|]. split; [reflexivity|]. now left.
Qed.
Print Assumptions C113_settings_idle.
Print Assumptions C113_two_rounds.
Print Assumptions C113_reach.
Print Assumptions C114_increment.
