(** The text of the graph can be read again. *)
From Coq Require Import List ZArith QArith Qabs NArith Bool Arith Ascii String Lia Lqa.
From Verif Require Import Base GraphModel LoopModel SlamModel SlamSpec ExportModel ExportSpec ExportProofs TextModel TextSpec TextNum.
Import ListNotations.
Open Scope nat_scope.

Lemma first_digit t p : readMag t = Some p -> exists c r, t = c :: r /\ digitOf c <> None.
Proof.
  unfold readMag, readDigits. destruct t as [|c r]; cbn [takeDigits]; [discriminate|].
  destruct (digitOf c) eqn:E; [|discriminate]. intros _. exists c, r. split; [reflexivity|congruence].
Qed.
Lemma expect_other a w c r : digitOf a = None -> digitOf c <> None -> expect (a :: w) (c :: r) = None.
Proof. intros A C. cbn [expect]. destruct (Ascii.eqb_spec a c); [congruence|reflexivity]. Qed.
Lemma read_unsigned b t q r : readMag t = Some (q, r) -> readUnsigned b t = Some (RFin b q, r) /\ expect (lit "-") t = None.
Proof.
  intro H. destruct (first_digit t _ H) as (c & t' & -> & D). unfold readUnsigned.
  cbn [lit list_ascii_of_string]. rewrite !expect_other by (reflexivity || exact D). rewrite H. auto.
Qed.
Lemma read_signed b t q r : readMag t = Some (q, r) -> readDbl (sign b ++ t) = Some (RFin b q, r).
Proof.
  intro H. unfold readDbl. destruct (read_unsigned b t q r H) as [A B].
  destruct b; cbn [sign].
  - rewrite expect_app. exact A.
  - cbn [app]. rewrite B. exact A.
Qed.
Lemma mag_zero t : ends t -> exists q, readMag (lit "0" ++ t) = Some (q, t) /\ (q == 0)%Q.
Proof.
  intro E. destruct (read_mag [0%N] [] [] 0%Z t) as (q & R & V);
    [constructor; [reflexivity|constructor]|discriminate|constructor|exact E|left; auto|].
  exists q. split; [exact R|]. rewrite V. reflexivity.
Qed.
Lemma read_dbl x t : ends t ->
  exists r, readDbl (spellDbl x ++ t) = Some (r, t) /\ near x r /\ (short x -> exactly x r).
Proof.
  intro E. destruct x as [b n d|b|b]; cbn [spellDbl].
  - rewrite <- app_assoc. set (m := Z.of_N n # d).
    destruct (Qlt_le_dec 0 m) as [P | P].
    + destruct (spell_mag m t P E) as (q & R & V). exists (RFin b q).
      split; [apply read_signed, R|]. destruct (sixDigits m) as [d' x] eqn:S.
      destruct (sixDigits_spec m d' x P S) as (_ & A & B). cbn [fst snd] in V.
      cbn [near short exactly]. fold m. split; [split; [reflexivity|split]|].
      * rewrite V. assert (T := ten_pos (x - 5)).
        assert (I : (0 <= inject_Z (Z.of_N d'))%Q) by (change 0%Q with (inject_Z 0); rewrite <- Zle_Qle; lia). nra.
      * rewrite V. exact A.
      * intros (c & z & C & F). split; [reflexivity|]. rewrite V. exact (B c z C F).
    + assert (Z0 : (m == 0)%Q).
      { apply Qle_antisym; [exact P|]. unfold m, Qle. cbn. lia. }
      destruct (mag_zero t E) as (q & R & V). exists (RFin b q).
      split; [|cbn [near short exactly]; fold m; split; [split; [reflexivity|split]|]].
      * apply read_signed. unfold spellMag. rewrite (proj2 (Qeq_bool_iff m 0) Z0). exact R.
      * rewrite V. lra.
      * rewrite V, Z0. cbn. lra.
      * intros _. split; [reflexivity|]. rewrite V, Z0. reflexivity.
  - exists (RInf b). rewrite <- app_assoc. split; [|split; [reflexivity|intros []]].
    unfold readDbl. destruct b; reflexivity.
  - exists (RNan b). rewrite <- app_assoc. split; [|split; [reflexivity|intros []]].
    unfold readDbl. destruct b; reflexivity.
Qed.

(** What the reader should have got from a line. *)
Definition line_read (l : line (dbl * dbl)) (x : said) : Prop :=
  match l, x with
  | LNode id (px, py), SaidNode id' rx ry => id = id' /\ near px rx /\ near py ry /\
      (short px -> exactly px rx) /\ (short py -> exactly py ry)
  | LEdge f t, SaidEdge f' t' => f = f' /\ t = t'
  | _, _ => False
  end.
Lemma read_line l t : exists x, readLine (spellLine l ++ t) = Some (x, t) /\ line_read l x.
Proof.
  destruct l as [id [px py] | f to]; cbn [spellLine]; rewrite <- !app_assoc; unfold readLine.
  - rewrite expect_app.
    match goal with |- context [readNat (spellNat id ++ ?u)] => rewrite (read_nat id u) by reflexivity end.
    rewrite (app_assoc (lit "[ pose = ")). rewrite expect_app.
    match goal with |- context [readDbl (spellDbl px ++ ?u)] => destruct (read_dbl px u) as (rx & Rx & Nx & Sx) end;
      [repeat split; discriminate|]. rewrite Rx. rewrite expect_app.
    match goal with |- context [readDbl (spellDbl py ++ ?u)] => destruct (read_dbl py u) as (ry & Ry & Ny & Sy) end;
      [repeat split; discriminate|]. rewrite Ry.
    match goal with |- context [expect ?w ?u] => change u with (w ++ t) end.
    rewrite expect_app. exists (SaidNode id rx ry). split; [reflexivity|]. cbn. auto.
  - rewrite expect_app.
    match goal with |- context [readNat (spellNat f ++ ?u)] => rewrite (read_nat f u) by reflexivity end.
    match goal with |- context [expect (lit "[ pose = " ++ [quote]) ?u] => assert (NO : expect (lit "[ pose = " ++ [quote]) u = None) by reflexivity end.
    rewrite NO, expect_app.
    match goal with |- context [readNat (spellNat to ++ ?u)] => rewrite (read_nat to u) by reflexivity end.
    rewrite expect_app. exists (SaidEdge f to). cbn. auto.
Qed.
Lemma spell_ne l t : exists c r, spellLine l ++ t = c :: r.
Proof. destruct l as [id [px py] | f to]; cbn [spellLine lit list_ascii_of_string app]; eauto. Qed.
Lemma read_lines ls : forall fuel, List.length ls <= fuel ->
  exists xs, readLines fuel (List.concat (map spellLine ls)) = Some xs /\ Forall2 line_read ls xs.
Proof.
  induction ls as [|l ls IH]; intros fuel F.
  - exists []. split; [destruct fuel; reflexivity|constructor].
  - cbn [map List.concat]. destruct fuel as [|fuel]; [cbn in F; lia|].
    destruct (read_line l (List.concat (map spellLine ls))) as (x & R & G).
    destruct (IH fuel) as (xs & RS & GS); [cbn in F; lia|].
    destruct (spell_ne l (List.concat (map spellLine ls))) as (c & r & E).
    exists (x :: xs). split; [|constructor; assumption].
    rewrite E in *. cbn [readLines]. rewrite R, RS. reflexivity.
Qed.
Lemma lines_length ls : List.length ls <= List.length (List.concat (map spellLine ls)).
Proof.
  induction ls as [|l ls IH]; [cbn; lia|]. cbn [map List.concat List.length]. rewrite app_length.
  destruct (spell_ne l []) as (c & r & E). rewrite app_nil_r in E. rewrite E. cbn [List.length]. lia.
Qed.
Lemma read_graph ls : exists xs, readGraph (List.concat (map spellLine ls)) = Some xs /\ Forall2 line_read ls xs.
Proof. apply read_lines, lines_length. Qed.

Lemma Forall2_nth {A B} (P : A -> B -> Prop) l l' : Forall2 P l l' ->
  List.length l = List.length l' /\
  forall i y, nth_error l' i = Some y -> exists x, nth_error l i = Some x /\ P x y.
Proof.
  induction 1 as [|a b l l' H _ [IL IH]]; [split; [reflexivity|intros [|i] y; discriminate]|].
  split; [cbn; congruence|]. intros [|i] y E; cbn in *; [injection E as <-; eauto|apply IH, E].
Qed.

Section Stream.
Context {Pose Obj Info Guess D : Type}.
Variable xy : Pose -> dbl * dbl.
Theorem stream (env : senv Pose Obj Info Guess D) l s log null : srun env l = Ok (s, log) ->
  exists t np es, graphStream xy (Some null) s = Ok t /\ readGraph t = Some (np ++ es) /\
    List.length np = n_poses log /\
    (forall id w, nth_error np id = Some w -> exists p rx ry, getPoseLocation s id = Ok p /\ w = SaidNode id rx ry /\
       reads_as (fst (xy p)) rx /\ reads_as (snd (xy p)) ry) /\
    (forall id, getConstrainPoses s id <> Throw <-> id < List.length es) /\
    (forall id w, nth_error es id = Some w -> exists f to, getConstrainPoses s id = Ok (f, to) /\ w = SaidEdge f to).
Proof.
  intro H. destruct (ExportProofs.text xy env l s log null H) as (np & es & T & LN & N & LE & E).
  destruct (read_graph (np ++ es)) as (xs & R & F).
  apply Forall2_app_inv_l in F. destruct F as (np' & es' & FN & FE & ->).
  apply Forall2_nth in FN, FE. destruct FN as [LN' FN], FE as [LE' FE].
  exists (List.concat (map spellLine (np ++ es))), np', es'.
  split; [unfold graphStream; rewrite T; reflexivity|]. split; [exact R|].
  split; [congruence|]. split; [|split].
  - intros id w W. destruct (FN id w W) as (x & X & G). destruct (N id x X) as (p & P & ->).
    unfold line_read in G. destruct (xy p) as [px py] eqn:XY. destruct w as [id' rx ry|]; [|contradiction].
    destruct G as (<- & G). exists p, rx, ry. rewrite XY. unfold reads_as. cbn [fst snd]. tauto.
  - intro id. rewrite LE, LE'. tauto.
  - intros id w W. destruct (FE id w W) as (x & X & G). destruct (E id x X) as (f & to & P & ->).
    unfold line_read in G. destruct w as [|f' t']; [contradiction|]. destruct G as [<- <-]. exists f, to. auto.
Qed.
End Stream.
