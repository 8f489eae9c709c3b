(** Concrete maps used as witnesses for the mapper theorems. *)
From Coq Require Import List ZArith QArith Qround Qabs Lqa Lia Bool
  Sorting.Permutation Sorting.Sorted.
From Verif Require Import Base QLemmas VoxelModel VoxelSpec VoxelProofs GridModel GridSpec
  GridProofs GridOps GridCases MapModel MapSpec MapHist.
Import ListNotations.
Open Scope nat_scope.

Definition xraw (v : xcell) : Q := snd (nc_rest v).
Notation xframe := (ngrid (positive * Q)).
Notation xadd := (addFrame xmerge xdflt xtcell xray xraw xbtw xtp).
Notation xredraw := (recalc xmerge xdflt xtcell xray xraw xbtw xtp).
Notation xreach := (mreach xmerge xdflt xtcell xray xraw xbtw xtp).
Notation xbuild := (build xtcell xbtw xtp xmerge xdflt xray xraw).

(** A frame with two gaussian cells, 1.1 m and 0.7 m from its sensor. *)
Definition frameA (x y ts : Q) : xframe :=
  mkN (mkPose x y 0) (1#4) true ts
      (mkGrid (1#4) 0 1 0 0 2 [Some (xc (11#10) (1#10) 4); Some (xc (3#10) (-7#10) 7)]) (Some []).

Definition getok {A} (d : A) (r : res A) : A := match r with Ok a => a | _ => d end.
Definition mNew : mapper (positive * Q) := m_new xdflt.
(** one frame added *)
Definition mA : mapper (positive * Q) := Eval vm_compute in getok mNew (xadd mNew (frameA (1#10) (1#10) 0) 1).
(** redrawn *)
Definition mB : mapper (positive * Q) := Eval vm_compute in getok mNew (xredraw mA (m_frames mA) 2).
(** the frame moved by the caller, then redrawn once and twice *)
Definition mC : mapper (positive * Q) :=
  mkMapper (m_ndt mA) [frameA (11#10) (1#10) 1] (m_occ mA) (m_cloud mA) (m_time mA).
Definition mD : mapper (positive * Q) := Eval vm_compute in getok mNew (xredraw mC (m_frames mC) 2).
Definition mE : mapper (positive * Q) := Eval vm_compute in getok mNew (xredraw mD (m_frames mD) 3).

Lemma mA_ok : xadd mNew (frameA (1#10) (1#10) 0) 1 = Ok mA.
Proof. vm_compute. reflexivity. Qed.
Lemma mB_ok : xredraw mA (m_frames mA) 2 = Ok mB.
Proof. vm_compute. reflexivity. Qed.
Lemma mD_ok : xredraw mC (m_frames mC) 2 = Ok mD.
Proof. vm_compute. reflexivity. Qed.
Lemma mE_ok : xredraw mD (m_frames mD) 3 = Ok mE.
Proof. vm_compute. reflexivity. Qed.
Lemma one_sorted (f : xframe) : std_sorted [f] [f].
Proof. split; [apply Permutation_refl|]. repeat constructor. Qed.

Definition opsA : list (mop (X:=positive * Q)) := [MAdd (frameA (1#10) (1#10) 0) 1].
Definition opsC : list (mop (X:=positive * Q)) := opsA ++ [MTouch [frameA (11#10) (1#10) 1]].
Lemma mA_frames : m_frames mA = [frameA (1#10) (1#10) 1].
Proof. vm_compute. reflexivity. Qed.
Lemma mA_reach : xreach opsA mA.
Proof. apply (reach_step _ _ _ _ _ _ _ [] mNew); [apply reach_new|]. apply step_add. exact mA_ok. Qed.
Lemma mC_reach : xreach opsC mC.
Proof.
  apply (reach_step _ _ _ _ _ _ _ opsA mA); [exact mA_reach|].
  apply (step_touch _ _ _ _ _ _ _ mA [frameA (11#10) (1#10) 1]). rewrite mA_frames. reflexivity.
Qed.
Lemma mB_step : mstep xmerge xdflt xtcell xray xraw xbtw xtp mA (MRecalc (m_frames mA) 2) mB.
Proof. apply step_recalc; [rewrite mA_frames; apply one_sorted|exact mB_ok]. Qed.
Lemma mD_step : mstep xmerge xdflt xtcell xray xraw xbtw xtp mC (MRecalc (m_frames mC) 2) mD.
Proof. apply step_recalc; [apply one_sorted|exact mD_ok]. Qed.
Lemma mD_frames : m_frames mD = [frameA (11#10) (1#10) 1].
Proof. vm_compute. reflexivity. Qed.
Lemma mE_step : mstep xmerge xdflt xtcell xray xraw xbtw xtp mD (MRecalc (m_frames mD) 3) mE.
Proof. apply step_recalc; [rewrite mD_frames; apply one_sorted|exact mE_ok]. Qed.

Lemma rays_b_ok cs start (l : list xcell) : forallb (ray_ok_b cs start) l = true ->
  rays_ok cs start l.
Proof.
  intros F e H G. rewrite forallb_forall in F. apply F in H. unfold ray_ok_b in H. rewrite G in H.
  cbn [negb orb] in H. apply andb_true_iff in H. destruct H as [H1 H2].
  split; [apply Qle_bool_iff; exact H1|].
  apply negb_true_iff in H2. apply Qnot_le_lt. intro K. apply Qle_bool_iff in K. congruence.
Qed.
Lemma drawable_b (f : xframe) :
  off_b map_res (sensor_at xbtw xtp f) = true ->
  forallb (fun v => off_b map_res (nc_mean v)) (placed xtcell xbtw f) = true ->
  forallb (ray_ok_b map_res (sensor_at xbtw xtp f)) (placed xtcell xbtw f) = true ->
  drawable xtcell xbtw xtp f.
Proof.
  intros A B C. split; [apply off_b_ok; [reflexivity|exact A]|].
  split; [apply offs_b_ok; [reflexivity|exact B]|apply rays_b_ok; exact C].
Qed.
Lemma frameA_drawable x t : x = (1#10)%Q \/ x = (11#10)%Q ->
  drawable xtcell xbtw xtp (frameA x (1#10) t).
Proof. intros [-> | ->]; apply drawable_b; vm_compute; reflexivity. Qed.

Definition mF : mapper (positive * Q) := Eval vm_compute in getok mNew (xbuild (m_frames mA)).
Lemma mF_ok : xbuild (m_frames mA) = Ok mF.
Proof. vm_compute. reflexivity. Qed.

Lemma redraw_not_fresh : ~ same_map mB mF.
Proof. intros (_ & _ & _ & _ & _ & D & _). vm_compute in D. discriminate. Qed.
Lemma redraw_not_twice : ~ same_map mD mE.
Proof. intros (_ & _ & _ & _ & _ & D & _). vm_compute in D. discriminate. Qed.

(** A frame with a hardly occupied cell 1.1 m ahead, and one 3 m further along that sees
    a cell beyond it and one behind itself. *)
Definition frameW (ts : Q) : xframe :=
  mkN (mkPose (1#10) (1#10) 0) (1#4) true ts
      (mkGrid (1#4) 0 0 0 0 1 [Some (mkC (11#10, 1#10)%Q true (4%positive, 1#20)%Q)]) (Some []).
Definition frameV (ts : Q) : xframe :=
  mkN (mkPose (31#10) (1#10) 0) (1#4) true ts
      (mkGrid (1#4) 0 1 0 0 2 [Some (xc (-29#10) (1#10) 4); Some (xc (8#10) (1#10) 7)]) (Some []).
Definition mG : mapper (positive * Q) := Eval vm_compute in getok mNew (xadd mNew (frameW 0) 1).
Definition mH : mapper (positive * Q) := Eval vm_compute in getok mNew (xadd mG (frameV 0) 2).
Definition mI : mapper (positive * Q) := Eval vm_compute in getok mNew (xredraw mH (m_frames mH) 3).
Lemma mG_ok : xadd mNew (frameW 0) 1 = Ok mG.
Proof. vm_compute. reflexivity. Qed.
Lemma mH_ok : xadd mG (frameV 0) 2 = Ok mH.
Proof. vm_compute. reflexivity. Qed.
Lemma mI_ok : xredraw mH (m_frames mH) 3 = Ok mI.
Proof. vm_compute. reflexivity. Qed.
Lemma mH_build : xbuild (m_frames mH) = Ok mH.
Proof. vm_compute. reflexivity. Qed.
Lemma mH_frames : m_frames mH = [frameW 1; frameV 2].
Proof. vm_compute. reflexivity. Qed.
Lemma mH_reach : xreach [MAdd (frameW 0) 1; MAdd (frameV 0) 2] mH.
Proof.
  apply (reach_step _ _ _ _ _ _ _ [MAdd (frameW 0) 1] mG).
  - apply (reach_step _ _ _ _ _ _ _ [] mNew); [apply reach_new|]. apply step_add. exact mG_ok.
  - apply step_add. exact mH_ok.
Qed.
Lemma mI_step : mstep xmerge xdflt xtcell xray xraw xbtw xtp mH (MRecalc (m_frames mH) 3) mI.
Proof.
  apply step_recalc; [|exact mI_ok]. rewrite mH_frames. split; [apply Permutation_refl|].
  repeat constructor. unfold earlier. cbn. discriminate.
Qed.
Lemma frameWV_drawable f : In f [frameW 1; frameV 2] -> drawable xtcell xbtw xtp f.
Proof. intros [<-|[<-|[]]]; apply drawable_b; vm_compute; reflexivity. Qed.
