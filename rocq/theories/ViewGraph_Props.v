(** Property theorems C04-C07: the view graph. *)
From stdpp Require Import gmap.
From Verif Require Import Base ViewGraph_Model ViewGraph_Spec ViewGraph_Proofs.

(** C04.  After any sequence of AddEdge / RemoveEdge / RemoveView / edge updates, every query answers like
    the mathematical graph, every call reported what the mathematical operation reports, and that graph
    is symmetric, has no self edges and only edges between known views. *)
Theorem view_graph_refines : forall (E : Type) (ops : list (vg_op E)),
  answers_like (vg_run vg_empty ops).1 (ag_run ag_empty ops).1 /\
  (vg_run vg_empty ops).2 = (ag_run (E := E) ag_empty ops).2 /\
  simple_graph (ag_run ag_empty ops).1.
Proof. exact @view_graph_refines_lemma. Qed.
Print Assumptions view_graph_refines.

(** C05.  ExtractSubgraph into an empty graph never aborts and yields exactly the induced edges. *)
Theorem extract_subgraph_induced : forall (E : Type) (ops : list (vg_op E)) (S : gset N)
    (ov : order (N * gset N)) (o : order N),
  let c := (vg_run vg_empty ops).1 in
  exists sub, vg_extract_subgraph ov o c S vg_empty = Ok sub /\
    (forall a b, vg_get_edge sub a b =
       if decide (a ∈ S /\ b ∈ S) then vg_get_edge c a b else None) /\
    (forall v, vg_has_view sub v = true <->
       exists u, v ∈ S /\ u ∈ S /\ vg_has_edge c v u = true).
Proof. exact @extract_subgraph_lemma. Qed.
Print Assumptions extract_subgraph_induced.

(** C06.  The largest connected component, for every iteration order; CHECK failure without edges. *)
Theorem largest_component_correct : forall (E : Type) (ops : list (vg_op E))
    (oe : order (N * N)) (on : order N) (oc : order (N * gset N)),
  let c := (vg_run vg_empty ops).1 in
  let g := (ag_run ag_empty ops).1 in
  has_valid_ids c ->
  ((exists a b, vg_has_edge c a b = true) ->
     exists X, vg_largest_component oe on oc c = Ok X /\ ag_largest_component g X) /\
  ((forall a b, vg_has_edge c a b = false) -> vg_largest_component oe on oc c = CheckFail).
Proof. exact @largest_component_lemma. Qed.
Print Assumptions largest_component_correct.

(** C07.  RemoveDisconnectedViewPairs keeps exactly the edges inside one largest component [X]; the
    returned set is exactly the set of removed views; surviving views with an edge are all connected.
    (Views without any edge are not touched.) *)
Theorem remove_disconnected_correct : forall (E : Type) (ops : list (vg_op E))
    (oe : order (N * N)) (on : order N) (oc : order (N * gset N)),
  let c := (vg_run vg_empty ops).1 in
  let g := (ag_run ag_empty ops).1 in
  has_valid_ids c -> (exists a b, vg_has_edge c a b = true) ->
  exists c' removed X, vg_remove_disconnected oe on oc c = Ok (c', removed) /\
    ag_largest_component g X /\
    (forall a b, vg_get_edge c' a b =
       if decide (a ∈ X /\ b ∈ X) then vg_get_edge c a b else None) /\
    (forall v, v ∈ removed <-> vg_has_view c v = true /\ vg_has_view c' v = false) /\
    (forall v, vg_has_view c' v = true <->
       vg_has_view c v = true /\ (v ∈ X \/ forall u, vg_has_edge c v u = false)) /\
    (forall a b, (exists u, vg_has_edge c' a u = true) -> (exists u, vg_has_edge c' b u = true) ->
       rtc (fun x y => vg_has_edge c' x y = true) a b).
Proof. exact @remove_disconnected_lemma. Qed.
Print Assumptions remove_disconnected_correct.

Theorem remove_disconnected_no_edges : forall (E : Type) (ops : list (vg_op E))
    (oe : order (N * N)) (on : order N) (oc : order (N * gset N)),
  let c := (vg_run vg_empty ops).1 in
  (forall a b, vg_has_edge c a b = false) -> vg_remove_disconnected oe on oc c = Ok (c, ∅).
Proof. exact @remove_disconnected_no_edges_lemma. Qed.
Print Assumptions remove_disconnected_no_edges.

(** Non-vacuity: two components of different size, a removed view, an updated edge. *)
Definition vg_example : list (vg_op N) :=
  [VAddEdge 1 2 10; VAddEdge 3 2 20; VAddEdge 7 8 30; VAddEdge 8 9 40; VAddEdge 9 10 50;
   VAddEdge 4 4 60; VRemoveView ord_rev 10; VUpdateEdge 2 1 N.succ; VAddEdge 3 5 70; VRemoveEdge 6 5]%N.

Example vg_example_results :
  (vg_run vg_empty vg_example).2 = [true; true; true; true; true; true; true; true; true; false] /\
  vg_get_edge (vg_run vg_empty vg_example).1 2 1 = Some 11%N /\
  vg_num_edges (vg_run vg_empty vg_example).1 = 5%nat.
Proof. by vm_compute. Qed.

Example vg_example_valid : has_valid_ids (vg_run vg_empty vg_example).1.
Proof.
  assert (H : Forall (fun v => (v < kInvalidViewId)%N)
            (elements (vg_view_ids (vg_run vg_empty vg_example).1))).
  { apply (bool_decide_unpack _). by vm_compute. }
  intros v Hv. rewrite Forall_forall in H. apply H. apply elem_of_elements.
  destruct (view_graph_refines N vg_example) as [(H1 & _ & _ & _ & _ & -> & _) _]. by apply H1.
Qed.

Example vg_example_edge : exists a b, vg_has_edge (vg_run vg_empty vg_example).1 a b = true.
Proof. exists 2%N, 1%N. by vm_compute. Qed.

Example vg_example_largest :
  elements <$> vg_largest_component ord_id ord_rev ord_id (vg_run vg_empty vg_example).1
  = Ok [1; 3; 5; 2]%N.
Proof. by vm_compute. Qed.

Example vg_example_removed :
  (fun r => (elements r.2, vg_num_edges r.1)) <$>
    vg_remove_disconnected ord_id ord_rev ord_id (vg_run vg_empty vg_example).1
  = Ok ([7; 9; 8]%N, 3%nat).
Proof. by vm_compute. Qed.
