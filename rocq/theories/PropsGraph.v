(** Pose graph properties C31-C35. Only statements, non-vacuity examples and
    [Print Assumptions]; the proofs live in GraphProofs.v. *)
From Coq Require Import List ZArith Bool Arith Lia.
From Verif Require Import Base GraphModel GraphSpec GraphProofs.
Import ListNotations.
Open Scope nat_scope.

(** A history with three nodes, three edges, one removal and one re-used id;
    the allocator hands out the freed address 11 again. *)
Definition ex_gops : list (gop Z bool Z) :=
  [GAddNode 1%Z true; GAddNode 2%Z false; GAddNode 3%Z true;
   GAddEdge 10 0 1 5%Z 6%Z; GAddEdge 11 1 2 7%Z 8%Z; GAddEdge 12 0 2 9%Z 9%Z;
   GRemove 1; GAddEdge 11 2 0 4%Z 4%Z; GRemove 7].
Definition ex_gops_keep : list (gop Z bool Z) :=
  [GAddNode 1%Z true; GAddNode 2%Z false; GAddNode 3%Z true;
   GAddEdge 10 0 1 5%Z 6%Z; GAddEdge 11 1 2 7%Z 8%Z; GAddEdge 12 0 2 9%Z 9%Z;
   GAddEdge 15 2 2 1%Z 1%Z].
Example ex_gops_runs : exists g log, grun ex_gops = Ok (g, log) /\
  live_edge log 1 = Some (mkED 2 0 4%Z 4%Z) /\ edgeCount g = 3%Z /\ nodeCount g = 3.
Proof. eexists _, _. split; [vm_compute; reflexivity|]. repeat split; vm_compute; reflexivity. Qed.

(** ** C31 *)
(** After any history of calls, getEdge(id) and getNode(id) return exactly what
    the caller's own log says is stored under [id], throw for every other id, and
    the counters count the live objects. *)
Theorem C31_ids_agree_with_log {Pose Obj Info : Type} (l : list (gop Pose Obj Info)) g log :
  grun l = Ok (g, log) ->
  (forall id, match live_edge log id with
              | Some d => exists e, getEdge g id = Ok e /\ e_id e = id /\ data_of e = d
              | None => getEdge g id = Throw
              end) /\
  (forall id, match live_node log id with
              | Some (p, o) => exists n, getNode g id = Ok n /\ n_id n = id /\
                                 n_pose n = p /\ n_obj n = o
              | None => getNode g id = Throw
              end) /\
  (exists ids, NoDup ids /\ (forall id, In id ids <-> live_edge log id <> None) /\
     edgeCount g = u64 (Z.of_nat (length ids))) /\
  (forall id, id < nodeCount g <-> live_node log id <> None).
Proof. exact (graph_ids l g log). Qed.
Print Assumptions C31_ids_agree_with_log.

(** addEdge returns an id no live edge has, and invents a new one only if no
    removed id is left. *)
Theorem C31_new_edge_id {Pose Obj Info : Type} (l : list (gop Pose Obj Info)) g log a f t tr i g' id :
  grun l = Ok (g, log) ->
  gstep g (GAddEdge a f t tr i) = Ok (g', EvEdge id f t tr i) ->
  live_edge log id = None /\
  ((exists old, edge_id_used log old = true /\ live_edge log old = None) ->
     edge_id_used log id = true).
Proof. exact (addEdge_id l g log a f t tr i g' id). Qed.
Print Assumptions C31_new_edge_id.

(** addEdge is defined whenever both end points exist. *)
Theorem C31_addEdge_defined {Pose Obj Info : Type} (l : list (gop Pose Obj Info)) g log a f t tr i :
  grun l = Ok (g, log) ->
  live_addr g a = false -> live_node log f <> None -> live_node log t <> None ->
  exists g' id, gstep g (GAddEdge a f t tr i) = Ok (g', EvEdge id f t tr i).
Proof. exact (addEdge_defined l g log a f t tr i). Qed.
Print Assumptions C31_addEdge_defined.

(** Whatever was added and removed, an edge counts as made but not yet used, and as no loop
    closure, and no node counts as visited, until the caller says so. *)
Section Fresh.
Context {Pose Obj Info : Type}.
Definition fresh_edge (s : option (addr * edge Pose Info)) : Prop :=
  match s with Some (_, e) => e_state e = Constructed /\ e_loop e = false /\ e_used e = false | None => True end.
Definition fresh_node (n : node Pose Obj) : Prop := n_visited n = false.
Lemma all_upd {A} (P : A -> Prop) (l : list A) i v : Forall P l -> P v -> Forall P (upd l i v).
Proof.
  intros F V. apply Forall_forall. intros x I. apply In_nth_error in I. destruct I as [j E]. rewrite nth_error_upd in E.
  destruct ((j =? i) && (i <? length l)); [injection E as <-; exact V|].
  rewrite Forall_forall in F. apply F. eapply nth_error_In, E.
Qed.
Lemma all_vset {A} (P : A -> Prop) (l : list A) i v l' : vset l i v = Ok l' -> Forall P l -> P v -> Forall P l'.
Proof. unfold vset. intros E F V. destruct (_ <? _); [|discriminate]. injection E as <-. apply all_upd; assumption. Qed.
Lemma all_vget {A} (P : A -> Prop) (l : list A) i v : vget l i = Ok v -> Forall P l -> P v.
Proof.
  unfold vget. intros E F. destruct (nth_error l i) as [w|] eqn:N; [|discriminate]. injection E as <-.
  rewrite Forall_forall in F. apply F. eapply nth_error_In, N.
Qed.
Lemma all_onNode (l : list (node Pose Obj)) i f l' : onNode l i f = Ok l' -> (forall n, fresh_node n -> fresh_node (f n)) ->
  Forall fresh_node l -> Forall fresh_node l'.
Proof.
  unfold onNode. intros E H F. apply bind_ok_inv in E. destruct E as (n & E & K). injection K as <-.
  apply all_upd; [exact F|]. apply H. eapply all_vget; eassumption.
Qed.
Lemma fresh_run (l : list (gop Pose Obj Info)) : forall g log, grun l = Ok (g, log) ->
  Forall fresh_edge (g_edges g) /\ Forall fresh_node (g_nodes g).
Proof.
  induction l as [|o l IH] using rev_ind; intros g log R.
  - injection R as <- <-. split; constructor.
  - unfold grun in R. rewrite foldM_app in R. apply bind_ok_inv in R. destruct R as ([g0 log0] & R & K).
    cbn [foldM] in K. apply bind_ok_inv in K. destruct K as (s & K & E). injection E as ->.
    apply bind_ok_inv in K. destruct K as ([g1 ev] & K & E). cbn [fst snd] in *. injection E as -> <-.
    destruct (IH g0 log0 R) as [FE FN]. destruct o as [p x|a f t tr i|id]; cbn [gstep] in K.
    + unfold addNode in K. injection K as <- <-. cbn [g_edges g_nodes]. split; [exact FE|].
      apply Forall_app. split; [exact FN|]. repeat constructor.
    + apply bind_ok_inv in K. destruct K as ([g2 id] & K & E). injection E as <- <-. cbn [fst].
      unfold addEdge in K. destruct (live_addr g0 a); [discriminate|].
      apply bind_ok_inv in K. destruct K as ([[es pool] id'] & S & K).
      assert (FR : fresh_edge (Some (a, newEdge f t tr i)) /\ forall k, fresh_edge (Some (a, e_setId (newEdge f t tr i) k))) by (repeat split).
      assert (FS : Forall fresh_edge es).
      { destruct (g_pool g0).
        - injection S as <- <- <-. apply Forall_app. split; [exact FE|]. constructor; [apply FR|constructor].
        - apply bind_ok_inv in S. destruct S as (l' & V & E). injection E as <- <- <-. eapply all_vset; [exact V|exact FE|apply FR]. }
      repeat (apply bind_ok_inv in K; let x := fresh "x" in let V := fresh "V" in destruct K as (x & V & K)).
      injection K as <- <-. cbn [g_edges g_nodes]. split; [eapply all_vset; [exact V|exact FS|apply FR]|].
      eapply all_onNode; [exact V3|intros n H; exact H|]. eapply all_onNode; [exact V1|intros n H; exact H|exact FN].
    + apply bind_ok_inv in K. destruct K as ([g2 b] & K & E). injection E as <- <-. cbn [fst].
      unfold removeEdge in K. destruct (_ <? _); [injection K as <- <-; split; assumption|].
      destruct (existsb _ _); [injection K as <- <-; split; assumption|].
      apply bind_ok_inv in K. destruct K as (es & V & E). injection E as <- <-. split; [|exact FN].
      eapply all_vset; [exact V|exact FE|exact I].
Qed.
End Fresh.
Theorem C31_fresh {Pose Obj Info : Type} (l : list (gop Pose Obj Info)) g log : grun l = Ok (g, log) ->
  (forall id e, getEdge g id = Ok e -> e_state e = Constructed /\ e_loop e = false /\ e_used e = false) /\
  (forall id n, getNode g id = Ok n -> n_visited n = false).
Proof.
  intro R. destruct (fresh_run l g log R) as [FE FN]. split.
  - intros id e E. unfold getEdge in E. destruct (_ <=? _); [discriminate|]. destruct (existsb _ _); [discriminate|].
    apply bind_ok_inv in E. destruct E as (s & V & E). pose proof (all_vget _ _ _ _ V FE) as F.
    destruct s as [[a e']|]; [|discriminate]. injection E as ->. exact F.
  - intros id n E. unfold getNode in E. destruct (_ <=? _); [discriminate|]. exact (all_vget _ _ _ _ E FN).
Qed.
Print Assumptions C31_fresh.

Example C31_example : exists g log g' id, grun ex_gops = Ok (g, log) /\
  gstep g (GAddEdge 77 1 1 0%Z 0%Z) = Ok (g', EvEdge id 1 1 0%Z 0%Z) /\ id = 3.
Proof. eexists _, _, _, _. split; [vm_compute; reflexivity|]. repeat split; vm_compute; reflexivity. Qed.
Example C31_example_reuse : exists g log g', grun (firstn 7 ex_gops) = Ok (g, log) /\
  (edge_id_used log 1 = true /\ live_edge log 1 = None) /\
  gstep g (GAddEdge 77 1 1 0%Z 0%Z) = Ok (g', EvEdge 1 1 1 0%Z 0%Z).
Proof. eexists _, _, _. split; [vm_compute; reflexivity|]. repeat split; vm_compute; reflexivity. Qed.

(** ** C32 *)
Theorem C32_removed_edge_partial {Pose Obj Info : Type} (l : list (gop Pose Obj Info)) g log id g' :
  grun l = Ok (g, log) -> removeEdge g id = Ok (g', true) ->
  getEdge g' id = Throw /\ g_nodes g' = g_nodes g /\
  (forall j, j <> id -> getEdge g' j = getEdge g j).
Proof. exact (removed_edge_throws l g log id g'). Qed.
Print Assumptions C32_removed_edge_partial.

(** The other half of C32 is false: the removed edge stays in the lists of both
    its end nodes - after every removal, since the nodes are unchanged. *)
Theorem C32_removed_edge_still_listed {Pose Obj Info : Type} (l : list (gop Pose Obj Info))
    g log id a e g' :
  grun l = Ok (g, log) -> nth_error (g_edges g) id = Some (Some (a, e)) ->
  removeEdge g id = Ok (g', true) ->
  live_addr g' a = false /\
  exists nf nt, getNode g' (e_from e) = Ok nf /\ getNode g' (e_to e) = Ok nt /\
    In a (n_out nf) /\ In a (n_in nt).
Proof. exact (removed_edge_listed l g log id a e g'). Qed.
Print Assumptions C32_removed_edge_still_listed.

(** C32 as stated is refuted, and worse: when the memory is handed out again,
    the new edge 2 -> 0 is listed as an outgoing edge of node 1. *)
Theorem C32_removed_edge_gone_refuted :
  (exists g log g' n, grun (firstn 6 ex_gops) = Ok (g, log) /\
     removeEdge g 1 = Ok (g', true) /\ getEdge g' 1 = Throw /\
     getNode g' 1 = Ok n /\ In 11 (n_out n) /\ live_addr g' 11 = false) /\
  (exists g log n e, grun ex_gops = Ok (g, log) /\ getNode g 1 = Ok n /\ In 11 (n_out n) /\
     nth_error (g_edges g) 1 = Some (Some (11, e)) /\ e_from e = 2).
Proof.
  split; eexists _, _, _, _; (split; [vm_compute; reflexivity|]);
    (split; [vm_compute; reflexivity|]).
  - repeat split; vm_compute; auto.
  - repeat split; vm_compute; auto.
Qed.
Print Assumptions C32_removed_edge_gone_refuted.

(** ** C33 *)
Theorem C33_removeEdge_total_partial {Pose Obj Info : Type} (l : list (gop Pose Obj Info)) g log id :
  grun l = Ok (g, log) -> id <> length (g_edges g) ->
  match live_edge log id with
  | Some _ => exists g', removeEdge g id = Ok (g', true)
  | None => removeEdge g id = Ok (g, false)
  end.
Proof. exact (removeEdge_total l g log id). Qed.
Print Assumptions C33_removeEdge_total_partial.

(** The excluded id is the first one that was never returned, for every history
    - including the empty graph and id 0. *)
Theorem C33_removeEdge_total_refuted {Pose Obj Info : Type} (l : list (gop Pose Obj Info)) g log id :
  grun l = Ok (g, log) ->
  edge_id_used log id = false -> (forall j, j < id -> edge_id_used log j = true) ->
  removeEdge g id = UB.
Proof. exact (removeEdge_first_unused l g log id). Qed.
Print Assumptions C33_removeEdge_total_refuted.

Example C33_example : exists g log, grun ex_gops = Ok (g, log) /\ length (g_edges g) = 3 /\
  (exists g', removeEdge g 2 = Ok (g', true)) /\ removeEdge g 3 = UB /\
  removeEdge g 4 = Ok (g, false) /\
  edge_id_used log 3 = false /\ forall j, j < 3 -> edge_id_used log j = true.
Proof.
  eexists _, _. split; [vm_compute; reflexivity|]. split; [reflexivity|].
  split; [eexists; vm_compute; reflexivity|]. repeat (split; [vm_compute; reflexivity|]).
  intros [|[|[|j]]] H; try (vm_compute; reflexivity). lia.
Qed.

(** ** C34 *)
(** With [it++], the loop visits the live edges once each, in id order, if the
    graph never had an edge or the edge with id 0 is live.  With [++it] the same
    holds on a machine where reading one element past the end is harmless. *)
Theorem C34_iteration_partial {Pose Obj Info : Type} (l : list (gop Pose Obj Info)) g log :
  grun l = Ok (g, log) ->
  (edge_id_used log 0 = true -> live_edge log 0 <> None) ->
  exists es, visitEdgesPost g = Ok es /\
    (forall null, visitEdgesPre (Some null) g = Ok es) /\
    map (fun ae => e_id (snd ae)) es =
      filter (fun id => match live_edge log id with Some _ => true | None => false end)
             (seq 0 (length (g_edges g))) /\
    (forall ae, In ae es -> getEdge g (e_id (snd ae)) = Ok (snd ae)).
Proof. exact (visit_post l g log). Qed.
Print Assumptions C34_iteration_partial.

(** With [++it] every complete traversal of a graph that ever had an edge reads
    past the end of the vector ... *)
Theorem C34_preincrement_refuted {Pose Obj Info : Type} (l : list (gop Pose Obj Info)) g log :
  grun l = Ok (g, log) -> edge_id_used log 0 = true -> visitEdgesPre None g = UB.
Proof. exact (visit_pre_ub l g log). Qed.
Print Assumptions C34_preincrement_refuted.

(** ... and once edge 0 has been removed, every traversal dereferences null. *)
Theorem C34_first_removed_refuted {Pose Obj Info : Type} (l : list (gop Pose Obj Info)) g log :
  grun l = Ok (g, log) -> edge_id_used log 0 = true -> live_edge log 0 = None ->
  visitEdgesPost g = UB /\ forall oob, visitEdgesPre oob g = UB.
Proof. exact (visit_first_removed l g log). Qed.
Print Assumptions C34_first_removed_refuted.

Theorem C34_nodes {Pose Obj Info : Type} (g : graph Pose Obj Info) :
  (forall null, visitNodesPre (Some null) g = Ok (g_nodes g)) /\
  (nodeCount g <> 0 -> visitNodesPre None g = UB).
Proof. exact (visit_nodes g). Qed.
Print Assumptions C34_nodes.

Example C34_example : exists g log, grun (firstn 7 ex_gops) = Ok (g, log) /\
  live_edge log 0 <> None /\ live_edge log 1 = None /\
  option_map (map (fun ae => e_id (snd ae)))
    (match visitEdgesPost g with Ok es => Some es | _ => None end) = Some [0; 2].
Proof. eexists _, _. split; [vm_compute; reflexivity|]. vm_compute. repeat split. discriminate. Qed.
Example C34_example_removed : exists g log,
  grun (firstn 6 ex_gops ++ [GRemove 0]) = Ok (g, log) /\
  edge_id_used log 0 = true /\ live_edge log 0 = None.
Proof. eexists _, _. split; [vm_compute; reflexivity|]. repeat split; vm_compute; reflexivity. Qed.

(** ** C35 *)
(** Without removals the lists are exactly the addresses of the edges leaving
    and entering the node, in id order; the addresses are pairwise distinct, so
    each edge is listed once. *)
Theorem C35_adjacency {Pose Obj Info : Type} (l : list (gop Pose Obj Info)) g log :
  grun l = Ok (g, log) -> no_removal l = true ->
  NoDup (map fst (somes (g_edges g))) /\
  forall k n, getNode g k = Ok n ->
    n_out n = map fst (filter (fun ae => e_from (snd ae) =? k) (somes (g_edges g))) /\
    n_in n = map fst (filter (fun ae => e_to (snd ae) =? k) (somes (g_edges g))).
Proof. exact (fun R NR => conj (addresses_distinct l g log R) (adjacency_exact l g log R NR)). Qed.
Print Assumptions C35_adjacency.

(** With removals, a live edge is still listed exactly once at both its ends. *)
Theorem C35_live_edges_listed {Pose Obj Info : Type} (l : list (gop Pose Obj Info)) g log :
  grun l = Ok (g, log) ->
  forall id a e, nth_error (g_edges g) id = Some (Some (a, e)) ->
  exists nf nt, getNode g (e_from e) = Ok nf /\ getNode g (e_to e) = Ok nt /\
    count_occ Nat.eq_dec (n_out nf) a = 1 /\ count_occ Nat.eq_dec (n_in nt) a = 1.
Proof. exact (adjacency_listed l g log). Qed.
Print Assumptions C35_live_edges_listed.

Example C35_example : exists g log n, grun ex_gops_keep = Ok (g, log) /\
  no_removal ex_gops_keep = true /\ getNode g 2 = Ok n /\ n_in n = [11; 12; 15] /\ n_out n = [15].
Proof. eexists _, _, _. split; [vm_compute; reflexivity|]. repeat split; vm_compute; reflexivity. Qed.
