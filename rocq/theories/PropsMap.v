(** The map: C71 and C78.  Only statements, non-vacuity examples and
    [Print Assumptions]. *)
From Coq Require Import List ZArith QArith Qround Qabs Bool Lia
  Sorting.Permutation Sorting.Sorted.
From Verif Require Import Base VoxelModel VoxelSpec GridModel GridSpec GridOps GridCases
  MapModel MapSpec MapProofs MapHist MapDraw MapMsg MapCases.
Import ListNotations.
Open Scope nat_scope.

Section Map.
Context {X L : Type}.
Variable merge : ncell X -> ncell X -> ncell X.
Variable dflt : ncell X.
Variable tcell : qtrans L -> ncell X -> ncell X.
Variable occRay : ncell X -> point -> ncell X -> ncell X.
Variable rawOcc : ncell X -> Q.
Variable btw : qpose -> qpose -> qtrans L.
Variable tp : qtrans L -> point -> point.
Notation mreach := (mreach merge dflt tcell occRay rawOcc btw tp).
Notation mstep := (mstep merge dflt tcell occRay rawOcc btw tp).
Notation recalc := (recalc merge dflt tcell occRay rawOcc btw tp).
Notation build := (build tcell btw tp merge dflt occRay rawOcc).

(** ** C71 *)
(** The mapper keeps exactly the frames it was given, with their capture times. *)
Theorem C71_frames ops m : mreach ops m -> untouched ops ->
  Permutation (given ops) (m_frames m).
Proof. exact (frames_given merge dflt tcell occRay rawOcc btw tp ops m). Qed.

(** The point cloud of the map after a redraw: only means the frames put there, oldest
    frame first, whatever was drawn before, and all of them but those a later frame sent
    beams through.  If no frame sends beams through what an earlier one drew, exactly
    these, and a new mapper that is given the same frames in this order publishes the same
    points. *)
Theorem C71_cloud_partial ops m s t :
  occ_only occRay -> nc_gauss dflt = false ->
  mreach ops m -> Permutation (m_frames m) s -> chronological s -> distinct_times s ->
  s <> [] -> (forall f, In f s -> drawable tcell btw tp f) ->
  exists m' mb, mstep m (MRecalc s t) m' /\ build s = Ok mb /\
    (forall s' t' m'', mstep m (MRecalc s' t') m'' -> s' = s /\ same_map m'' m') /\
    (forall p, In p (getPclMap m') ->
       exists c q, drawn tcell btw s c = Some q /\ p = tp (btw world world) q) /\
    (forall c q, lasting tcell btw tp s c q -> In (tp (btw world world) q) (getPclMap m')) /\
    (undisturbed tcell btw tp s -> forall p,
       (In p (getPclMap m') <-> exists c q, drawn tcell btw s c = Some q /\ p = tp (btw world world) q) /\
       (In p (getPclMap mb) <-> In p (getPclMap m'))).
Proof.
  exact (fun OO DG => redraw_points merge dflt tcell occRay rawOcc btw tp OO DG ops m s t).
Qed.

(** Whole published map: two mappers with the same frames and a map of the same
    extent publish the same after a redraw, whatever their histories. *)
Theorem C71_redraw_partial opsa a opsb b sa sb ta tb a' b' :
  mreach opsa a -> mreach opsb b ->
  Permutation (m_frames a) (m_frames b) -> distinct_times (m_frames a) -> same_extent a b ->
  mstep a (MRecalc sa ta) a' -> mstep b (MRecalc sb tb) b' -> same_map a' b'.
Proof.
  exact (redraw_extent merge dflt tcell occRay rawOcc btw tp opsa a opsb b sa sb ta tb a' b').
Qed.

(** Redrawing again and again changes nothing from the third time on. *)
Theorem C71_settles_partial ops m s1 t1 m1 s2 t2 m2 s3 t3 :
  mreach ops m -> distinct_times (m_frames m) ->
  mstep m (MRecalc s1 t1) m1 -> mstep m1 (MRecalc s2 t2) m2 ->
  std_sorted (m_frames m2) s3 ->
  exists m3, recalc m2 s3 t3 = Ok m3 /\ same_map m2 m3.
Proof.
  exact (third_redraw merge dflt tcell occRay rawOcc btw tp ops m s1 t1 m1 s2 t2 m2 s3 t3).
Qed.

(** Redrawing before the first frame dereferences a null pointer. *)
Theorem C71_no_frames_refuted ops m t :
  mreach ops m -> m_frames m = [] -> recalc m [] t = UB.
Proof. exact (recalc_empty merge dflt tcell occRay rawOcc btw tp ops m t). Qed.

(** ** C78 *)
(** The load time in the message is that of the last redraw. *)
Theorem C78_load_time ops m : mreach ops m ->
  om_time (calcOccupancyGridMsg m) = last_redraw ops.
Proof. exact (redraw_time merge dflt tcell occRay rawOcc btw tp ops m). Qed.

(** What the entries of the published message mean: entry (col, row) is the map
    cell whose centre is col cells right and row cells below the origin. *)
Theorem C78_published_partial ops m : mreach ops m -> m_frames m <> [] ->
  (forall p, peq (tp (btw world world) p) p) ->
  let msg := calcOccupancyGridMsg m in let v := n_vox (m_ndt m) in
  om_yaw msg = 0%Q /\ om_res msg = map_res /\
  length (om_data msg) = om_width msg * om_height msg /\
  forall col row, col < om_width msg -> row < om_height msg ->
    exists c, in_box v c = true /\
      ros_entry msg col row =
        Some (match content v c with
              | None => (-1)%Z
              | Some x => if Qlt_b (8#10) (rawOcc x) then 99%Z else 0%Z
              end) /\
      (inject_Z (fst c) * map_res == fst (om_origin msg) + inject_Z (Z.of_nat col) * map_res)%Q /\
      (inject_Z (snd c) * map_res == snd (om_origin msg) - inject_Z (Z.of_nat row) * map_res)%Q /\
      (* where the ROS convention shows it *)
      forall d, in_cell map_res d (ros_place msg col row) ->
        d = (fst c + 1, snd c + 2 * Z.of_nat row)%Z.
Proof. exact (message merge dflt tcell occRay rawOcc btw tp ops m). Qed.
End Map.
Print Assumptions C71_frames.
Print Assumptions C71_cloud_partial.
Print Assumptions C71_redraw_partial.
Print Assumptions C71_settles_partial.
Print Assumptions C71_no_frames_refuted.
Print Assumptions C78_load_time.
Print Assumptions C78_published_partial.

(** A redraw of a map with one frame shows other cells than a new mapper that was
    given this frame. *)
Theorem C71_fresh_refuted :
  exists ops m s t m' mb, xreach ops m /\ distinct_times (m_frames m) /\
    (forall f, In f s -> drawable xtcell xbtw xtp f) /\
    mstep xmerge xdflt xtcell xray xraw xbtw xtp m (MRecalc s t) m' /\
    xbuild s = Ok mb /\ ~ same_map m' mb.
Proof.
  exists opsA, mA, (m_frames mA), 2%Q, mB, mF. split; [exact mA_reach|].
  split; [rewrite mA_frames; split; [intros f []|exact I]|].
  split; [rewrite mA_frames; intros f [<-|[]]; apply frameA_drawable; left; reflexivity|].
  split; [exact mB_step|]. split; [exact mF_ok|exact redraw_not_fresh].
Qed.
Print Assumptions C71_fresh_refuted.

(** After the caller moved a frame, two redraws in a row differ. *)
Theorem C71_twice_refuted :
  exists ops m s t m1 t' m2, xreach ops m /\ distinct_times (m_frames m) /\
    (forall f, In f s -> drawable xtcell xbtw xtp f) /\
    mstep xmerge xdflt xtcell xray xraw xbtw xtp m (MRecalc s t) m1 /\
    mstep xmerge xdflt xtcell xray xraw xbtw xtp m1 (MRecalc s t') m2 /\ ~ same_map m1 m2.
Proof.
  exists opsC, mC, (m_frames mC), 2%Q, mD, 3%Q, mE. split; [exact mC_reach|].
  split; [split; [intros f []|exact I]|].
  split; [intros f [<-|[]]; apply frameA_drawable; right; reflexivity|].
  split; [exact mD_step|]. split; [|exact redraw_not_twice].
  pose proof mE_step as H. rewrite mD_frames in H. exact H.
Qed.
Print Assumptions C71_twice_refuted.

(** Frames are stored and unmoved, and yet a redraw loses a point that the map showed:
    when the second frame was added its sensor was outside the map and its beams were not
    followed; in the redraw they are, and end the first frame's distribution. *)
Theorem C71_points_refuted :
  exists ops m s t m' p, xreach ops m /\ distinct_times (m_frames m) /\ untouched ops /\
    (forall f, In f s -> drawable xtcell xbtw xtp f) /\ xbuild s = Ok m /\
    mstep xmerge xdflt xtcell xray xraw xbtw xtp m (MRecalc s t) m' /\
    In p (getPclMap m) /\ forall q, In q (getPclMap m') -> ~ peq p q.
Proof.
  exists [MAdd (frameW 0) 1; MAdd (frameV 0) 2], mH, (m_frames mH), 3%Q, mI, ((11#10) + ((1#10) - 0), (1#10) + ((1#10) - 0))%Q.
  split; [exact mH_reach|]. split.
  { rewrite mH_frames. split; [|split; [intros f []|exact I]]. intros f [<-|[]]. cbn. discriminate. }
  split; [intros fs [K|[K|[]]]; discriminate|].
  split; [rewrite mH_frames; exact frameWV_drawable|]. split; [exact mH_build|]. split; [exact mI_step|].
  split; [vm_compute; tauto|]. vm_compute. intros q H. repeat (destruct H as [<-|H]); try contradiction;
    intros [K _]; vm_compute in K; discriminate.
Qed.
Print Assumptions C71_points_refuted.
(** What the second frame put there lasts; the first alone is undisturbed. *)
Example C71_lasting : lasting xtcell xbtw xtp [frameW 1; frameV 2] (16, 1)%Z ((8#10) + ((31#10) - 0), (1#10) + ((1#10) - 0))%Q /\
  undisturbed xtcell xbtw xtp [frameA (11#10) (1#10) 1].
Proof.
  split.
  - exists [frameW 1], (frameV 2), []. split; [reflexivity|]. split; [vm_compute; reflexivity|]. intros f [].
  - intros s1 f s2 c f' E I. destruct s1 as [|a [|b s1]]; [injection E as <- <-; destruct I|discriminate|discriminate].
Qed.

Example C71_example :
  occ_only xray /\ nc_gauss xdflt = false /\ xreach opsC mC /\
  chronological (m_frames mC) /\ distinct_times (m_frames mC) /\ untouched opsA /\
  drawable xtcell xbtw xtp (frameA (11#10) (1#10) 1) /\
  mstep xmerge xdflt xtcell xray xraw xbtw xtp mC (MRecalc (m_frames mC) 2) mD /\
  mstep xmerge xdflt xtcell xray xraw xbtw xtp mD (MRecalc (m_frames mD) 3) mE /\
  map (fun p => (Qred (fst p), Qred (snd p))) (getPclMap mD) = [(11#5, 1#5); (7#5, -3#5)]%Q /\
  drawn xtcell xbtw (m_frames mC) (9, 1)%Z = Some ((11#10) + ((11#10) - 0), (1#10) + ((1#10) - 0))%Q.
Proof.
  split; [exact xray_occ_only|]. split; [reflexivity|]. split; [exact mC_reach|].
  split; [split; [intros f []|exact I]|]. split; [split; [intros f []|exact I]|].
  split; [intros fs [K|[]]; discriminate|].
  split; [apply frameA_drawable; right; reflexivity|]. split; [exact mD_step|].
  split; [exact mE_step|]. split; vm_compute; reflexivity.
Qed.

(** In the map of one frame the occupied cell 1.2 m ahead is the first row's last
    entry but is shown, by the ROS convention, where the map holds nothing; the
    occupied cell below the sensor is shown above it. *)
Theorem C78_published_refuted :
  xreach opsA mA /\ (forall p, peq (xtp (xbtw world world) p) p) /\
  let msg := calcOccupancyGridMsg mA in let v := n_vox (m_ndt mA) in
  exists col row c, col < om_width msg /\ row < om_height msg /\
    in_cell map_res c (ros_place msg col row) /\ in_box v c = false /\
    ros_entry msg col row = Some 99%Z.
Proof.
  split; [exact mA_reach|]. split.
  { intros [x y]. unfold peq, xtp, xbtw, world. cbn [fst snd tr_x tr_y p_x p_y].
    split; ring. }
  cbv zeta. exists 2, 3, (3, 4)%Z.
  split; [vm_compute; lia|]. split; [vm_compute; lia|].
  split; [vm_compute; repeat split; discriminate|]. split; vm_compute; reflexivity.
Qed.
Print Assumptions C78_published_refuted.
Example C78_example : m_frames mA <> [] /\ om_width (calcOccupancyGridMsg mA) = 6 /\
  om_height (calcOccupancyGridMsg mA) = 4 /\ ros_entry (calcOccupancyGridMsg mA) 5 0 = Some 99%Z /\
  content (n_vox (m_ndt mA)) (5, 1)%Z <> None.
Proof. split; [rewrite mA_frames; discriminate|]. repeat split; vm_compute; try reflexivity; discriminate. Qed.
