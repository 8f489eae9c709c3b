(** Specification vocabulary for C147: what the node hands to the algorithm. *)
From Coq Require Import Reals List ZArith Bool.
From Verif Require Import LinAlg3 GeoModel NodeModel NodeSpec.
Import ListNotations.
Open Scope R_scope.

Section S.
Context {Alg Scan : Type}.
(** entry in row r and column c of the 6x6 covariance, stored row by row *)
Definition in6 (l : list R) (r c : nat) : R := nth (6 * r + c) l 0.
(** the part about x, y and the angle; 0.0001 for each of them without odometry *)
Definition covariance (m : nmsg Scan) : M3 :=
  match ms_cov m with
  | Some l => mkM (in6 l 0 0) (in6 l 0 1) (in6 l 0 5) (in6 l 1 0) (in6 l 1 1) (in6 l 1 5) (in6 l 5 0) (in6 l 5 1) (in6 l 5 5)
  | None => mkM (1/10000) 0 0 0 (1/10000) 0 0 0 (1/10000)
  end.
Definition cloud (m : nmsg Scan) : list Scan := match ms_scan m with Some pts => pts | None => [] end.
(** a message is used if both lookups succeed and the cloud has at least 400 points *)
Definition used (m : nmsg Scan) : bool := match accepted m with Some _ => true | None => false end.
(** covariance, cloud and time of the messages that are used *)
Definition handed (l : list (nmsg Scan)) : list (M3 * list Scan * Z) :=
  map (fun m => (covariance m, cloud m, ms_time m)) (filter used l).
(** the algorithm called with these, one after the other; the returned poses in order *)
Fixpoint called (update : Alg -> T2 -> M3 -> list Scan -> Z -> Alg * pose) (a : Alg) (l : list (T2 * (M3 * list Scan * Z)))
  : Alg * list pose :=
  match l with
  | [] => (a, [])
  | (t, (c, pts, z)) :: r => let '(a1, p) := update a t c pts z in let '(a2, ps) := called update a1 r in (a2, p :: ps)
  end.
End S.
