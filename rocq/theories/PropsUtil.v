(** C57 and C58: splitting text, bounding boxes. *)
From Coq Require Import String List Ascii QArith.
From Verif Require Import Base UtilModel UtilSpec UtilProofs.
Import ListNotations.
Local Open Scope nat_scope.

(** C57, for every token that is not empty: the loop ends after at most one
    round more than there are characters, and joining the parts with the token
    gives the text back; no part contains the token. *)
Theorem C57_split_partial : forall data token : str, token <> [] ->
  exists parts,
    (forall rounds, List.length data < rounds -> split rounds data token = Some parts) /\
    join token parts = data /\
    (forall p, In p parts -> ~ contains p token).
Proof.
  intros data token NE. destruct (split_spec data token NE) as [ps [A [_ [C D]]]].
  exists ps. auto.
Qed.
Print Assumptions C57_split_partial.

(** C57 is false for the empty token: the loop never ends. *)
Theorem C57_split_refuted : forall (data : str) rounds, split rounds data [] = None.
Proof. intros data rounds. exact (split_empty_token data rounds). Qed.
Print Assumptions C57_split_refuted.

Definition s_ (x : string) : str := list_ascii_of_string x.
Example C57_case : split 100 (s_ "a, b,, c"%string) (s_ ", "%string)
  = Some [s_ "a"%string; s_ "b,"%string; s_ "c"%string] /\
  split 100 (s_ "aaa"%string) (s_ "aa"%string) = Some [s_ ""%string; s_ "a"%string].
Proof. split; reflexivity. Qed.

(** C58: the box covers the cloud, and it is the smallest box around the cloud
    together with the origin. *)
Theorem C58_box : forall pcl,
  covers_all (getMinMax2D pcl) pcl /\ smallest_box (getMinMax2D pcl) ((0%Q, 0%Q) :: pcl).
Proof.
  intros pcl. split; [intros p I; apply (proj1 (bbox_smallest_with_origin pcl)); right; exact I|].
  exact (bbox_smallest_with_origin pcl).
Qed.
Print Assumptions C58_box.

(** C58, the smallest box: when the smallest box around the cloud covers the origin. *)
Theorem C58_smallest_partial : forall pcl,
  (exists b, smallest_box b pcl /\ covers b (0%Q, 0%Q)) -> smallest_box (getMinMax2D pcl) pcl.
Proof. exact bbox_smallest. Qed.
Print Assumptions C58_smallest_partial.

Example C58_case : exists b,
  smallest_box b [(1%Q, (-2)%Q); ((-3)%Q, 1%Q)] /\ covers b (0%Q, 0%Q) /\ maxx b = 1%Q.
Proof.
  exists (mkBox (-3)%Q (-2)%Q 1%Q 1%Q). split; [|split; [|reflexivity]].
  - split.
    + intros p [<-|[<-|[]]]; unfold covers; cbn; repeat split; discriminate.
    + intros b V. pose proof (V _ (or_introl eq_refl)) as A. pose proof (V _ (or_intror (or_introl eq_refl))) as B.
      unfold covers, within in *. cbn in *. repeat split; tauto.
  - unfold covers; cbn; repeat split; discriminate.
Qed.

(** C58 is false of every cloud of one point other than the origin. *)
Theorem C58_smallest_refuted : forall p : Q * Q, ~ (fst p == 0)%Q \/ ~ (snd p == 0)%Q ->
  ~ smallest_box (getMinMax2D [p]) [p].
Proof. exact bbox_not_smallest. Qed.
Print Assumptions C58_smallest_refuted.
