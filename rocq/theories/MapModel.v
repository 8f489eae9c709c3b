(** Model of NDTMapper (INC/ndt/ndt_mapper.h) and of EigenToPoseMsg
    (INC/utils/msgs_conversions.h) on top of the NDT grid.

    Frames are shared with the caller, who may move them between two calls; the
    model keeps their current values in [m_frames] and lets a history replace
    them.  [std::sort] is any permutation ordered by time stamp, since it is not
    stable.  The orientation quaternion of the message is represented by its
    angle.  removeFrame, updateFrame and combineFrames (156-180) cannot be
    instantiated (std::vector has no [find]) and are not modelled; width_ and
    height_ (105) are never read; the text written to std::cout is dropped. *)
From Coq Require Import List ZArith QArith Bool Sorting.Permutation Sorting.Sorted.
From Verif Require Import Base VoxelModel GridModel.
Import ListNotations.
Open Scope nat_scope.

(** ndt_mapper.h:105-111 (fields) *)
Record mapper (X : Type) := mkMapper {
  m_ndt : ngrid X;
  m_frames : list (ngrid X);
  m_occ : occ_grid;
  m_cloud : list point;
  m_time : Q
}.
Arguments mkMapper {X}. Arguments m_ndt {X}. Arguments m_frames {X}.
Arguments m_occ {X}. Arguments m_cloud {X}. Arguments m_time {X}.

(** nav_msgs/OccupancyGrid as filled at ndt_mapper.h:204-216 *)
Record occ_msg := mkOccMsg {
  om_height : nat; om_width : nat; om_res : Q;
  om_origin : point; om_yaw : Q; om_time : Q; om_data : list Z
}.

Section Mapper.
Context {X L : Type}.
Notation cell := (ncell X).
Notation grid := (ngrid X).
Variable merge : cell -> cell -> cell.
Variable dflt : cell.
Variable tcell : qtrans L -> cell -> cell.
Variable occRay : cell -> point -> cell -> cell.
Variable rawOcc : cell -> Q.
Variable btwFrames : qpose -> qpose -> qtrans L.
Variable tpoint : qtrans L -> point -> point.

(** ndt_mapper.h:119-130; [map_()] is zero-initialised *)
Definition m_new : mapper X :=
  mkMapper (n_setCellSize (n_new_at dflt (mkPose 0 0 0) 0) (1#4)) []
           (mkOcc (0, 0)%Q 0 (0, 0)%Q 0 0 0 []) [] 0.

(** ndt_grid2d.h:290-297 *)
Definition getMeansTransformed (g : grid) : res (list point) :=
  match n_means g with
  | None => UB
  | Some ms => Ok (map (tpoint (btwFrames (n_pose g) (mkPose 0 0 0))) ms)
  end.

(** ndt_mapper.h:198-202 *)
Definition addToMap (g frame : grid) : res grid :=
  mergeInTraced merge dflt tcell occRay btwFrames tpoint g frame true true.

(** ndt_mapper.h:132-142 and 144-154 (the two overloads differ only in copying or
    moving the pointer).  The frame is stamped after it was merged. *)
Definition addFrame (m : mapper X) (frame : grid) (ts : Q) : res (mapper X) :=
  do g <- addToMap (m_ndt m) frame;
  do ms <- getMeansTransformed g;
  Ok (mkMapper g (m_frames m ++ [n_setTimestamp frame ts])
               (createOccupancyGrid rawOcc btwFrames tpoint g) ms (m_time m)).

(** ndt_mapper.h:182-196; [sorted] is what std::sort made of the frames *)
Definition recalc (m : mapper X) (sorted : list grid) (t : Q) : res (mapper X) :=
  do g <- foldM addToMap sorted (n_clear (m_ndt m));
  do ms <- getMeansTransformed g;
  Ok (mkMapper g sorted (createOccupancyGrid rawOcc btwFrames tpoint g) ms t).

(** ndt_mapper.h:185-188 and ndt_grid2d.h:232-235 *)
Definition earlier (a b : grid) : Prop := (n_time a <= n_time b)%Q.
Definition std_sorted (l s : list grid) : Prop := Permutation l s /\ StronglySorted earlier s.

(** ndt_mapper.h:204-216 and msgs_conversions.h:10-22 *)
Definition calcOccupancyGridMsg (m : mapper X) : occ_msg :=
  let o := m_occ m in
  mkOccMsg (oc_height o) (oc_width o) (oc_res o) (oc_origin o) (oc_theta o)
           (m_time m) (oc_cells o).

(** ndt_mapper.h:99-102 *)
Definition getPclMap (m : mapper X) : list point := m_cloud m.

(** ** Histories *)
Inductive mop :=
| MAdd (frame : grid) (ts : Q)        (* addFrame *)
| MRecalc (sorted : list grid) (t : Q) (* recalc *)
| MTouch (frames : list grid).         (* the caller changed its frames *)

Inductive mstep (m : mapper X) : mop -> mapper X -> Prop :=
| step_add frame ts m' : addFrame m frame ts = Ok m' -> mstep m (MAdd frame ts) m'
| step_recalc sorted t m' : std_sorted (m_frames m) sorted -> recalc m sorted t = Ok m' ->
    mstep m (MRecalc sorted t) m'
| step_touch frames : length frames = length (m_frames m) ->
    mstep m (MTouch frames) (mkMapper (m_ndt m) frames (m_occ m) (m_cloud m) (m_time m)).

Inductive mreach : list mop -> mapper X -> Prop :=
| reach_new : mreach [] m_new
| reach_step ops m o m' : mreach ops m -> mstep m o m' -> mreach (ops ++ [o]) m'.

End Mapper.
