(** C128: the text of the graph can be read again. *)
From Coq Require Import List ZArith QArith Qabs NArith Bool Arith Ascii String Lia.
From Verif Require Import Base GraphModel LoopModel SlamModel SlamSpec ExportModel ExportProofs TextModel TextSpec TextNum TextProofs PropsSlam.
Import ListNotations.
Open Scope nat_scope.

(** C128: whatever was done with the graph before, a reader gets from the characters of
    its text exactly the poses, in order, each at the place where it is reported to be, up
    to five parts in a million in each coordinate (and without any error if six digits are
    enough for it), and then exactly the constraints, each with its two poses.  (As far as
    reading one element past the end of a vector goes well, like C99.) *)
Theorem C128_readable_partial : forall (Pose Obj Info Guess D : Type) (xy : Pose -> dbl * dbl)
    (env : senv Pose Obj Info Guess D) l s log null, srun env l = Ok (s, log) ->
  exists t np es, graphStream xy (Some null) s = Ok t /\ readGraph t = Some (np ++ es) /\
    List.length np = n_poses log /\
    (forall id w, nth_error np id = Some w -> exists p rx ry, getPoseLocation s id = Ok p /\
       w = SaidNode id rx ry /\ reads_as (fst (xy p)) rx /\ reads_as (snd (xy p)) ry) /\
    (forall id, getConstrainPoses s id <> Throw <-> id < List.length es) /\
    (forall id w, nth_error es id = Some w -> exists f to, getConstrainPoses s id = Ok (f, to) /\ w = SaidEdge f to).
Proof. exact @stream. Qed.
Print Assumptions C128_readable_partial.

(** Every number alone, with anything behind it that does not go on like a number. *)
Theorem C128_number : forall x t, ends t ->
  exists r, readDbl (spellDbl x ++ t) = Some (r, t) /\ reads_as x r.
Proof. exact read_dbl. Qed.
Print Assumptions C128_number.

(** Places that differ by more than the resolution of the maps can have the same text:
    one hundred kilometres and fifteen centimetres away, and forty-five. *)
Theorem C128_exact_refuted : exists a b : dbl, a = DFin false 10000015 100 /\ b = DFin false 10000045 100 /\
  spellDbl a = spellDbl b.
Proof. eexists _, _. split; [reflexivity|]. split; [reflexivity|]. vm_compute. reflexivity. Qed.
Print Assumptions C128_exact_refuted.

Definition ex_xy (p : Z) : dbl * dbl :=
  (DFin (p <? 0)%Z (Z.abs_N (p * 1234567)) 1000, DFin true (Z.abs_N p) 40000).
Example C128_case : exists s log, srun ex_senv ex_sops = Ok (s, log) /\ n_poses log = 4 /\
  graphStream ex_xy (Some true) s = Ok (List.concat (map (fun w => lit w ++ [newline])
    ["p0[ pose = ""0,-0!""] "; "p1[ pose = ""1234.57,-2.5e-05!""] "; "p2[ pose = ""2469.13,-5e-05!""] ";
     "p3[ pose = ""3703.7,-7.5e-05!""] "; "p0->p1"; "p1->p2"; "p2->p3"; "p3->p1"; "p3->p0"]%string)).
Proof. eexists _, _. split; [vm_compute; reflexivity|]. vm_compute. auto. Qed.
Example C128_numbers : map (fun x => string_of_list_ascii (spellDbl x))
  [DFin false 1 3; DFin true 123456789 1; DFin false 1234565 10; DFin false 999999999 1000; DFin true 0 7;
   DFin false 1 8000; DFin false 7 (10 ^ 120); DInf true; DNan false] =
  ["0.333333"; "-1.23457e+08"; "123456"; "1e+06"; "-0"; "0.000125"; "7e-120"; "-inf"; "nan"]%string.
Proof. vm_compute. reflexivity. Qed.
