(** Proofs about the mapper. *)
From Coq Require Import List ZArith QArith Qround Qabs Lqa Lia Bool
  Sorting.Permutation Sorting.Sorted.
From Verif Require Import Base QLemmas VoxelModel VoxelSpec VoxelProofs VoxelOps VoxelAdd VoxelRay
  GridModel GridSpec GridProofs GridOps MapModel MapSpec.
Import ListNotations.
Open Scope nat_scope.

(** ** Results do not depend on the counter of valid cells *)
Section Valid.
Context {C : Type}.
Notation grid := (vgrid C).

Definition likeR {A} (R : A -> A -> Prop) (a b : res A) : Prop :=
  match a, b with
  | Ok x, Ok y => R x y
  | UB, UB => True
  | Throw, Throw => True
  | _, _ => False
  end.
Definition alike (a b : grid) : Prop := exists n, b = with_valid a n.

Lemma likeR_bind {A B} (R : A -> A -> Prop) (S : B -> B -> Prop) a b f h :
  likeR R a b -> (forall x y, R x y -> likeR S (f x) (h y)) ->
  likeR S (bind a f) (bind b h).
Proof. destruct a, b; cbn; auto; contradiction. Qed.
Lemma likeR_foldM {A I} (R : A -> A -> Prop) (f h : A -> I -> res A) (l : list I) :
  (forall x y i, In i l -> R x y -> likeR R (f x i) (h y i)) ->
  forall x y, R x y -> likeR R (foldM f l x) (foldM h l y).
Proof.
  induction l as [|i t IH]; intros H x y XY; [exact XY|]. cbn [foldM].
  eapply likeR_bind; [apply H; [left; reflexivity|exact XY]|].
  intros x' y' XY'. apply IH; [|exact XY']. intros; apply H; [right|]; assumption.
Qed.

Lemma alike_refl (g : grid) : alike g g.
Proof. exists (n_valid g). destruct g; reflexivity. Qed.
Lemma alike_cells (a b : grid) l : alike a b -> alike (with_cells a l) (with_cells b l).
Proof. intros [n ->]. exists n. reflexivity. Qed.

Lemma enlargeGrid_alike (a b : grid) l r u d : alike a b ->
  likeR alike (enlargeGrid a l r u d) (enlargeGrid b l r u d).
Proof.
  intros [n ->]. unfold enlargeGrid. cbn [cells width height w_left w_right h_up h_down with_valid].
  destruct (l + r + u + d =? 0); [exists n; reflexivity|].
  change (width (with_valid a n)) with (width a). change (height (with_valid a n)) with (height a).
  destruct (foldM _ _ _) as [[[x y] z]| |]; cbn; auto. exists n. reflexivity.
Qed.
Lemma enlarge_alike (a b : grid) x y z w : alike a b ->
  likeR alike (enlarge a x y z w) (enlarge b x y z w).
Proof.
  intro H. unfold enlarge.
  replace (calcIncLeft b x) with (calcIncLeft a x) by (destruct H as [n ->]; reflexivity).
  replace (calcIncRight b z) with (calcIncRight a z) by (destruct H as [n ->]; reflexivity).
  replace (calcIncUp b w) with (calcIncUp a w) by (destruct H as [n ->]; reflexivity).
  replace (calcIncDown b y) with (calcIncDown a y) by (destruct H as [n ->]; reflexivity).
  apply enlargeGrid_alike. exact H.
Qed.
Lemma enlargeToFit_alike (a b : grid) p : alike a b ->
  likeR alike (enlargeToFit a p) (enlargeToFit b p).
Proof.
  intro H. unfold enlargeToFit.
  replace (isInside b p) with (isInside a p) by (destruct H as [n ->]; reflexivity).
  destruct (isInside a p); [exact H|]. apply enlarge_alike. exact H.
Qed.
Lemma addCell_alike mrg (a b : grid) p c m : alike a b ->
  likeR alike (addCell mrg a p c m) (addCell mrg b p c m).
Proof.
  intro H. unfold addCell. eapply likeR_bind; [apply enlargeToFit_alike; exact H|].
  clear a b H. intros a b [n ->].
  change (calcIndex (with_valid a n) p) with (calcIndex a p).
  change (cells (with_valid a n)) with (cells a).
  destruct (calcIndex a p) as [i| |]; cbn; auto.
  destruct (vget (cells a) i) as [[o|]| |]; cbn; auto; eexists; reflexivity.
Qed.
Lemma rayTrace_alike dflt (a b : grid) s e : alike a b ->
  likeR (fun r t => alike (fst r) (fst t) /\ snd r = snd t)
        (rayTrace dflt a s e) (rayTrace dflt b s e).
Proof.
  intros [n ->]. unfold rayTrace.
  change (isInside (with_valid a n) s) with (isInside a s).
  change (calcIndex (with_valid a n) s) with (calcIndex a s).
  change (cells (with_valid a n)) with (cells a).
  change (ray_len (with_valid a n) s e) with (ray_len a s e).
  change (ray_count (with_valid a n) s e) with (ray_count a s e).
  change (ray_delta (with_valid a n) s e) with (ray_delta a s e).
  set (f := rayStep dflt (with_valid a n) (ray_delta a s e)).
  change f with (rayStep dflt a (ray_delta a s e)). clear f.
  destruct (isInside a s); cbn [negb]; [|split; [exists n; reflexivity|reflexivity]].
  destruct (calcIndex a s) as [i| |]; cbn [bind]; try exact I.
  destruct (touch dflt (cells a) i) as [l| |]; cbn [bind]; try exact I.
  destruct (Qeq_bool (ray_len a s e) 0); [exact I|].
  destruct (iter_N _ _ _); cbn; try exact I; (split; [exists n; reflexivity|reflexivity]).
Qed.
Lemma clear_alike (a b : grid) : alike a b -> alike (clear a) (clear b).
Proof. intros [n ->]. exists n. reflexivity. Qed.
End Valid.

(** ** The window only grows, and a second pass leaves it alone *)
Section Stable.
Context {C : Type}.
Notation grid := (vgrid C).

Definition fixedw (a b : grid) : Prop :=
  w_left b = w_left a /\ w_right b = w_right a /\ h_up b = h_up a /\
  h_down b = h_down a /\ cell_size b = cell_size a.
Lemma fixedw_refl (a : grid) : fixedw a a. Proof. repeat split. Qed.
Lemma fixedw_trans (a b c : grid) : fixedw a b -> fixedw b c -> fixedw a c.
Proof. unfold fixedw. intuition congruence. Qed.
Lemma fixedw_grows (a b : grid) : fixedw a b -> grows a b.
Proof. unfold fixedw, grows. intros (-> & -> & -> & -> & ->). repeat split; lia. Qed.
Lemma fixedw_wf (a : grid) l : wf a -> length l = length (cells a) -> wf (with_cells a l).
Proof. intros [A B] E. split; [exact A|]. cbn. rewrite E. exact B. Qed.

Definition stable (f : grid -> res grid) : Prop :=
  forall g g', wf g -> f g = Ok g' ->
    wf g' /\ grows g g' /\
    forall h h', wf h -> grows g' h -> f h = Ok h' -> fixedw h h'.

Lemma stable_ok : stable Ok.
Proof.
  intros g g' W E. injection E as <-. split; [exact W|]. split; [apply vgrows_refl|].
  intros h h' _ _ E. injection E as <-. apply fixedw_refl.
Qed.
Lemma stable_wf f g g' : stable f -> wf g -> f g = Ok g' -> wf g'.
Proof. intros S W E. apply (S g g' W E). Qed.
Lemma stable_bind f h : stable f -> stable h -> stable (fun g => do x <- f g; h x).
Proof.
  intros F H g g' W E. apply bind_ok_inv in E. destruct E as (x & E1 & E2).
  destruct (F g x W E1) as (W1 & G1 & S1). destruct (H x g' W1 E2) as (W2 & G2 & S2).
  split; [exact W2|]. split; [eapply vgrows_trans; eauto|].
  intros k k' Wk Gk E. apply bind_ok_inv in E. destruct E as (y & Ey & E).
  assert (FY : fixedw k y) by (apply (S1 k y Wk); [eapply vgrows_trans; eauto|exact Ey]).
  eapply fixedw_trans; [exact FY|]. apply (S2 y k'); [eapply stable_wf; [exact F|exact Wk|exact Ey]| |exact E].
  eapply vgrows_trans; [exact Gk|apply fixedw_grows; exact FY].
Qed.
Lemma stable_foldM {I} (f : grid -> I -> res grid) l :
  (forall i, In i l -> stable (fun g => f g i)) -> stable (foldM f l).
Proof.
  induction l as [|i t IH]; intro H; [apply stable_ok|].
  change (stable (fun g => do x <- f g i; foldM f t x)).
  apply stable_bind; [apply H; left; reflexivity|].
  apply IH. intros j Hj. apply H. right. exact Hj.
Qed.
Lemma stable_ext f h : (forall g, f g = h g) -> stable f -> stable h.
Proof.
  intros E S g g' W H. rewrite <- E in H. destruct (S g g' W H) as (A & B & D).
  split; [exact A|]. split; [exact B|]. intros k k' Wk Gk K. rewrite <- E in K. eauto.
Qed.

(** Operations on the storage alone *)
Lemma stable_cells (f : grid -> res grid) :
  (forall g g', f g = Ok g' -> exists l, g' = with_cells g l /\ length l = length (cells g)) ->
  stable f.
Proof.
  intros H g g' W E. destruct (H g g' E) as (l & -> & L).
  split; [apply fixedw_wf; assumption|]. split; [apply fixedw_grows; repeat split|].
  intros h h' _ _ E'. destruct (H h h' E') as (l' & -> & _). repeat split.
Qed.

Lemma enlarge_zero (g : grid) a b x y g' : wf g -> enlarge g a b x y = Ok g' ->
  forall h, (0 < cell_size h)%Q -> grows g' h -> enlarge h a b x y = Ok h.
Proof.
  intros [HC HL] E h HC' [(G1 & G2 & G3 & G4) G5]. unfold enlarge in *.
  destruct (enlargeGrid_spec g (calcIncLeft g a) (calcIncRight g x)
              (calcIncUp g y) (calcIncDown g b) HL)
    as (g1 & E1 & A1 & A2 & A3 & A4 & A5 & _). rewrite E in E1. injection E1 as <-.
  destruct (round_left (a / cell_size g)) as (za & Za1 & Za2).
  destruct (round_right (x / cell_size g)) as (zx & Zx1 & Zx2).
  destruct (round_right (y / cell_size g)) as (zy & Zy1 & Zy2).
  destruct (round_left (b / cell_size g)) as (zb & Zb1 & Zb2).
  pose proof (incLeft_val g a za HC Za1 Za2) as IL.
  pose proof (incRight_val g x zx HC Zx1 Zx2) as IR.
  pose proof (incUp_val g y zy HC Zy1 Zy2) as IU.
  pose proof (incDown_val g b zb HC Zb1 Zb2) as ID.
  rewrite <- A1 in IL. rewrite <- A2 in IR. rewrite <- A3 in IU. rewrite <- A4 in ID.
  assert (CS : cell_size h = cell_size g) by congruence.
  assert (Z1 : calcIncLeft h a = 0).
  { assert (X := incLeft_val h a za HC'). rewrite CS in X. specialize (X Za1 Za2). lia. }
  assert (Z2 : calcIncRight h x = 0).
  { assert (X := incRight_val h x zx HC'). rewrite CS in X. specialize (X Zx1 Zx2). lia. }
  assert (Z3 : calcIncUp h y = 0).
  { assert (X := incUp_val h y zy HC'). rewrite CS in X. specialize (X Zy1 Zy2). lia. }
  assert (Z4 : calcIncDown h b = 0).
  { assert (X := incDown_val h b zb HC'). rewrite CS in X. specialize (X Zb1 Zb2). lia. }
  rewrite Z1, Z2, Z3, Z4. reflexivity.
Qed.
Lemma stable_enlarge a b x y : stable (fun g => enlarge g a b x y).
Proof.
  intros g g' W E. destruct (enlarge_spec g a b x y W) as (g1 & E1 & W1 & G1 & _).
  rewrite E in E1. injection E1 as <-. split; [exact W1|]. split; [exact G1|].
  intros h h' Wh Gh Eh.
  rewrite (enlarge_zero g a b x y g' W E h (wf_cs h Wh) Gh) in Eh. injection Eh as <-.
  apply fixedw_refl.
Qed.
Lemma enlargeToFit_enlarge (g : grid) p : (0 < cell_size g)%Q ->
  enlargeToFit g p = enlarge g (fst p) (snd p) (fst p) (snd p).
Proof. intro H. rewrite enlargeToFit_eq by exact H. reflexivity. Qed.
Lemma stable_fit p : stable (fun g => enlargeToFit g p).
Proof.
  intros g g' W E. rewrite enlargeToFit_enlarge in E by (apply wf_cs; exact W).
  destruct (stable_enlarge _ _ _ _ g g' W E) as (A & B & D).
  split; [exact A|]. split; [exact B|]. intros h h' Wh Gh Eh.
  rewrite enlargeToFit_enlarge in Eh by (apply wf_cs; exact Wh). eauto.
Qed.
Lemma stable_addCell mrg p c m : stable (fun g => addCell mrg g p c m).
Proof.
  unfold addCell. apply (stable_bind (fun g => enlargeToFit g p)); [apply stable_fit|].
  assert (K : forall g g' : grid,
    (do idx <- calcIndex g p; do old <- vget (cells g) idx;
     match old with
     | Some o => let v := if m then mrg o c else c in
                 Ok (with_cells g (upd (cells g) idx (Some v)))
     | None => Ok (with_valid (with_cells g (upd (cells g) idx (Some c))) (u64 (n_valid g + 1)))
     end) = Ok g' ->
    exists l n, g' = with_valid (with_cells g l) n /\ length l = length (cells g)).
  { intros g g' E. apply bind_ok_inv in E. destruct E as (i & _ & E).
    apply bind_ok_inv in E. destruct E as ([o|] & _ & E); injection E as <-.
    - eexists (upd (cells g) i _), (n_valid g). split; [reflexivity|apply length_upd].
    - eexists (upd (cells g) i _), _. split; [reflexivity|apply length_upd]. }
  intros g g' W E. destruct (K g g' E) as (l & n & -> & LL).
  split; [apply wf_with_valid, fixedw_wf; assumption|].
  split; [apply fixedw_grows; repeat split|].
  intros h h' _ _ Eh. destruct (K h h' Eh) as (l' & n' & -> & _). repeat split.
Qed.

Lemma touch_length dflt (l l' : list (option C)) i : touch dflt l i = Ok l' -> length l' = length l.
Proof.
  unfold touch. intro E. apply bind_ok_inv in E. destruct E as ([c|] & _ & E);
    injection E as <-; [reflexivity|apply length_upd].
Qed.
Lemma iter_nat_inv {S} (P : S -> Prop) (f : S -> flow S) :
  (forall s, P s -> match f s with Next t | Break t => P t | Fail => True end) ->
  forall n s, P s -> match iter_nat n f s with Next t | Break t => P t | Fail => True end.
Proof.
  intros H n. induction n as [|n IH]; intros s Ps; cbn [iter_nat]; [exact Ps|].
  specialize (H s Ps). destruct (f s); [apply IH; exact H|exact H|exact I].
Qed.
Lemma rayTrace_cells dflt (g : grid) s e r : rayTrace dflt g s e = Ok r ->
  exists l, fst r = with_cells g l /\ length l = length (cells g).
Proof.
  unfold rayTrace. destruct (isInside g s); cbn [negb].
  2: { intro E. injection E as <-. exists (cells g). split; [destruct g; reflexivity|reflexivity]. }
  intro E. apply bind_ok_inv in E. destruct E as (i & _ & E).
  apply bind_ok_inv in E. destruct E as (l & T & E).
  destruct (Qeq_bool (ray_len g s e) 0); [discriminate|].
  rewrite iter_N_nat in E.
  pose proof (iter_nat_inv (fun st => length (r_cells st) = length (cells g))
                (rayStep dflt g (ray_delta g s e))) as I.
  assert (ST : forall st, length (r_cells st) = length (cells g) ->
     match rayStep dflt g (ray_delta g s e) st with
     | Next t | Break t => length (r_cells t) = length (cells g) | Fail => True end).
  { intros st H. unfold rayStep.
    assert (K : match (if r_cur st =? r_old st then Ok (r_cells st, r_res st)
                 else do l <- touch dflt (r_cells st) (r_cur st); Ok (l, r_res st ++ [r_cur st])) with
                | Ok (l, _) => length l = length (cells g) | _ => True end).
    { destruct (r_cur st =? r_old st); [exact H|].
      destruct (touch dflt (r_cells st) (r_cur st)) as [l0| |] eqn:T0; cbn [bind]; try exact Logic.I.
      apply touch_length in T0. congruence. }
    destruct (if r_cur st =? r_old st then _ else _) as [[l1 o1]| |]; try exact Logic.I.
    destruct (_ || _)%bool; [exact K|]. destruct (calcIndex g _); exact Logic.I || exact K. }
  specialize (I ST (N.to_nat (ray_count g s e)) (mkRay l [i] s i i)).
  apply touch_length in T. specialize (I T).
  destruct (iter_nat _ _ _) as [st|st|]; [| |discriminate]; injection E as <-;
    (exists (r_cells st); split; [reflexivity|exact I]).
Qed.
End Stable.
