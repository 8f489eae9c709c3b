(** Model of the loop detector (INC/slam_optimizer/loop_detector.h).

    What is abstract: the numbers [D] distances are made of, the two distance
    functions, the scan matcher, and the order in which the priority queue hands
    out its entries.  The queue is ordered by the determinant of a propagated
    covariance (lines 41-44, 46-63, 84-89) that starts from an uninitialised
    matrix (line 35), so [pick] may be any function of the step number and of
    the queue's content.  The scan radius/centroid cache (350-370) influences
    nothing and is left out, as are the covariances themselves. *)
From Coq Require Import List ZArith Bool Arith.
From Verif Require Import Base GraphModel.
Import ListNotations.
Open Scope nat_scope.

Section Loop.
Context {Pose Obj Info Guess D : Type}.
Notation graph := (graph Pose Obj Info).
Notation edge := (edge Pose Info).
Notation node := (node Pose Obj).

(** loop_detector.h:112-126.  [lc_trans] is the transformation as a vector
    (converted by the caller, slam2d.h:270). *)
Record closure := mkLC { lc_from : nat; lc_to : nat; lc_info : Info; lc_trans : Pose }.

(** Parameters of a detector and of its environment. *)
Record lenv := mkLEnv {
  dadd : D -> D -> D;                 (* + on double *)
  dlt : D -> D -> bool;               (* < on double *)
  euclid : Pose -> Pose -> D;         (* (a.head(2) - b.head(2)).norm() *)
  elen : Pose -> D;                   (* translation().norm() of the inverted edge transform *)
  min_dist : D; max_dist : D;         (* lines 143-144, 179-192 *)
  guess : Pose -> Pose -> Guess;      (* lines 252-254: from target and source pose *)
  matcher : Obj -> Obj -> Guess -> option (Info * Pose);  (* source, target; Some: success_ *)
  oob : option bool }.                (* see GraphModel.v, Iterators *)

(** Choices that differ from query to query: the content of the uninitialised
    distance_ of the start entry (line 33-40) and the queue order. *)
Record lchoice := mkLChoice { d0 : D; pick : nat -> list (nat * D) -> nat }.

(** Dereferencing an Edge*: the slot that holds this address. *)
Fixpoint find_addr (l : list (option (addr * edge))) (a : addr) : option (nat * edge) :=
  match l with
  | [] => None
  | s :: t =>
      match s with
      | Some (b, e) => if b =? a then Some (0, e)
                       else option_map (fun p => (S (fst p), snd p)) (find_addr t a)
      | None => option_map (fun p => (S (fst p), snd p)) (find_addr t a)
      end
  end.

(** edge->setUsed(b) through a pointer *)
Definition setUsedAt (g : graph) (id : nat) (a : addr) (e : edge) (b : bool) : graph :=
  mkGraph (upd (g_edges g) id (Some (a, e_setUsed b e))) (g_nodes g) (g_pool g).

(** loop_detector.h:334-346, body of the loop.  A queue entry is (node_id_, distance_). *)
Definition genStep (env : lenv) (last : D) (st : graph * list (nat * D)) (a : addr)
  : res (graph * list (nat * D)) :=
  let '(g, out) := st in
  match find_addr (g_edges g) a with
  | None => UB  (* dangling pointer *)
  | Some (id, e) =>
      if e_used e then Ok st
      else
        let g1 := setUsedAt g id a e true in
        do nf <- vget (g_nodes g1) (e_from e);
        if n_visited nf then Ok (g1, out)
        else Ok (g1, out ++ [(n_id nf, dadd env last (elen env (e_trans e)))])
  end.

(** loop_detector.h:327-348 *)
Definition genPossibleEdges (env : lenv) (g : graph) (id : nat) (last : D)
  : res (graph * list (nat * D)) :=
  do n <- getNode g id;
  foldM (genStep env last) (n_in n) (g, []).

(** Local variables of genLoopClosures; [ls_calls] records the calls of the
    matcher with their outcome, newest first. *)
Record lstate := mkLS {
  ls_g : graph; ls_fringe : list (nat * D); ls_visited : nat; ls_depth : nat;
  ls_out : list closure; ls_calls : list (nat * bool) }.

(** loop_detector.h:235-283, body of the loop; the isCloseMatch test is 389-392. *)
Definition loopStep (env : lenv) (ch : lchoice) (q : nat) (s : lstate) : res lstate :=
  match ls_fringe s with
  | [] => UB  (* top() of an empty priority_queue *)
  | x0 :: _ =>
      let i := pick ch (ls_visited s) (ls_fringe s) mod length (ls_fringe s) in
      let '(c, d) := nth i (ls_fringe s) x0 in
      let rest := firstn i (ls_fringe s) ++ skipn (S i) (ls_fringe s) in
      do tn <- getNode (ls_g s) q;
      do sn <- getNode (ls_g s) c;
      let s1 :=
        if dlt env (euclid env (n_pose tn) (n_pose sn)) (max_dist env) &&
           negb (dlt env d (min_dist env))
        then match matcher env (n_obj sn) (n_obj tn) (guess env (n_pose tn) (n_pose sn)) with
             | Some (inf, tr) =>
                 mkLS (ls_g s) (ls_fringe s) (ls_visited s) (S (ls_depth s))
                      (ls_out s ++ [mkLC q c inf tr]) ((c, true) :: ls_calls s)
             | None =>
                 mkLS (ls_g s) (ls_fringe s) (ls_visited s) (S (ls_depth s))
                      (ls_out s) ((c, false) :: ls_calls s)
             end
        else s in
      do g1 <- modNode (ls_g s1) c (n_setVisited true);
      do r <- genPossibleEdges env g1 c d;
      Ok (mkLS (fst r) (rest ++ snd r) (S (ls_visited s1)) (ls_depth s1) (ls_out s1) (ls_calls s1))
  end.

(** max_search_depth_, line 145 *)
Definition max_search_depth : nat := 50.

(** loop_detector.h:235-284.  Running out of fuel is reported as UB and shown
    impossible. *)
Fixpoint loopRun (env : lenv) (ch : lchoice) (q : nat) (fuel : nat) (s : lstate) : res lstate :=
  if (ls_visited s <? nodeCount (ls_g s)) && (ls_depth s <? max_search_depth)
  then match fuel with
       | O => UB
       | S f => do s' <- loopStep env ch q s; loopRun env ch q f s'
       end
  else Ok s.

(** loop_detector.h:286-290: std::for_each uses ++it *)
Definition resetFlags (env : lenv) (g : graph) : res graph :=
  do ns <- visitNodesPre (oob env) g;
  do g1 <- foldM (fun g n => modNode g (n_id n) (n_setVisited false)) ns g;
  do es <- visitEdgesPre (oob env) g1;
  foldM (fun g (ae : addr * edge) => modEdge g (e_id (snd ae)) (e_setUsed false)) es g1.

(** loop_detector.h:215-292.  Result: graph, closures, matcher calls. *)
Definition genLoopClosures (env : lenv) (ch : lchoice) (g : graph) (q : nat)
  : res (graph * list closure * list (nat * bool)) :=
  do g1 <- modNode g q (n_setVisited true);
  do r <- genPossibleEdges env g1 q (d0 ch);
  do s <- loopRun env ch q (nodeCount g) (mkLS (fst r) (snd r) 1 0 [] []);
  do g' <- resetFlags env (ls_g s);
  Ok (g', ls_out s, ls_calls s).

End Loop.
Arguments closure : clear implicits.
Arguments lenv : clear implicits.
Arguments lchoice : clear implicits.
Arguments lstate : clear implicits.
