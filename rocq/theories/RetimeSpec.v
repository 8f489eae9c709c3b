(** Specification vocabulary for C148: the same messages with other time stamps. *)
From Coq Require Import Reals List ZArith QArith Bool.
From Verif Require Import Base GeoModel NodeModel VoxelModel GridModel MapModel AlgModel SysModel RunModel.
Import ListNotations.

(** a clock that never goes backwards against the other one *)
Definition forward (g : Z -> Z) : Prop := forall a b, (a <= b)%Z -> (g a <= g b)%Z.
Definition retime {S} (g : Z -> Z) (m : nmsg S) : nmsg S := NodeModel.mkMsg (g (ms_time m)) (ms_tf m) (ms_scan m) (ms_cov m).
(** the stamp of a message, or still the 0 of the constructors *)
Definition stamp (g : Z -> Z) (a b : Q) : Prop :=
  (exists z, a = inject_Z z /\ b = inject_Z (g z)) \/ (a = 0%Q /\ b = 0%Q).
(** two published messages that are equal but for the stamp *)
Inductive retimed {X} (g : Z -> Z) : rout X -> rout X -> Prop :=
| rt_tf z t : retimed g (RTf z t) (RTf (g z) t)
| rt_win a b n m : stamp g a b -> retimed g (RWin (a, n, m)) (RWin (b, n, m))
| rt_map h w q o yaw a b d : stamp g a b -> retimed g (RMap (mkOccMsg h w q o yaw a d)) (RMap (mkOccMsg h w q o yaw b d))
| rt_wpcl l : retimed g (RWinPcl l) (RWinPcl l)
| rt_pcl l : retimed g (RPcl l) (RPcl l)
| rt_graph l : retimed g (RGraph l) (RGraph l).
(** two calls of the algorithm with the same input and the same effects *)
Definition recall {D} (g : Z -> Z) (e e' : yev D) : Prop :=
  v_in e' = v_in e /\ v_evs e' = v_evs e /\ stamp g (v_time e) (v_time e').
