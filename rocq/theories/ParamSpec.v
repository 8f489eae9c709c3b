(** Vocabulary for the settings of the program. *)
From Coq Require Import Reals List ZArith QArith Bool Ascii String.
From Verif Require Import Base RunModel ParamModel.
Import ListNotations.
Open Scope string_scope.

(** What a setting is worth: the value given, if it is of the right kind; otherwise the
    default. *)
Inductive number (p : store) (k : string) (d : R) : R -> Prop :=
| number_given r : p k = Some (PDbl r) -> number p k d r
| number_whole z : p k = Some (PInt z) -> number p k d (IZR z)
| number_default : (forall r, p k <> Some (PDbl r)) -> (forall z, p k <> Some (PInt z)) -> number p k d d.
Inductive switch (p : store) (k : string) (d : bool) : bool -> Prop :=
| switch_given b : p k = Some (PBool b) -> switch p k d b
| switch_default : (forall b, p k <> Some (PBool b)) -> switch p k d d.
Inductive text (p : store) (k d : string) : string -> Prop :=
| text_given s : p k = Some (PStr s) -> text p k d s
| text_default : (forall s, p k <> Some (PStr s)) -> text p k d d.
(** The name of a frame: the text given, below the prefix if there is one. *)
Inductive frame_name (p : store) (found : option pval) (k d : string) : string -> Prop :=
| name_plain s : (found = Some (PStr "") \/ forall q, found <> Some (PStr q)) -> text p k d s -> frame_name p found k d s
| name_prefixed q s : found = Some (PStr q) -> q <> "" -> text p k d s -> frame_name p found k d (q ++ "/" ++ s).

Definition slash_free (s : string) : Prop := forall a b, s <> a ++ String "/" b.
(** The settings that are read. *)
Definition settings : list string :=
  ["robot_base_frame_id"; "odom_farme_id"; "map_farme_id"; "subscribe_mode"; "scanmatch_window_radius";
   "node_gen_distance"; "loop_max_distance"; "loop_min_distance"; "loop_score_threshold"; "serialize_graph"].
Definition with_setting (p : store) (k : string) (v : option pval) : store :=
  fun k' => if (k' =? k)%string then v else p k'.
(** The frames a program names in what it publishes and asks for; [laser] is the frame of
    the scans. *)
Definition names_frame {X} (c : config) (laser f : string) : Prop :=
  (exists o : rout X, In f (framesOf c o)) \/ exists a b, In (a, b) (lookups c laser) /\ (f = a \/ f = b) /\ f <> laser.
(** The topics a program listens to and publishes, as it names them. *)
Definition uses_topic {X} (c : config) (k : string) : Prop :=
  In k (inputs c) \/ exists o : rout X, k = topicName o.
