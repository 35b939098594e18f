(** Model of /repo/src/theia/sfm/view_graph/view_graph.{h,cc} and
    /repo/src/theia/sfm/view_graph/remove_disconnected_view_pairs.cc.

    [E] is the type of edge values (TwoViewInfo in the C++; the graph only copies it).  View ids are
    [N] (uint32 in the C++). *)
From stdpp Require Import gmap.
From Verif Require Import Base ConnectedComponents_Model.

(** sfm/types.h:47-56: kInvalidViewId = numeric_limits<uint32_t>::max(). *)
Definition kInvalidViewId : N := (2 ^ 32 - 1)%N.

Section view_graph.
Context {E : Type}.

(** view_graph.h:136-137, the data members. *)
Record view_graph := VG { vg_vertices : gmap N (gset N); vg_edges : gmap (N * N) E }.

Definition vg_empty : view_graph := VG ∅ ∅.

(** The ordered key built at view_graph.cc:100-102, 118-120, 142-144, 158-160, 184-186, 192-194. *)
Definition view_id_pair (a b : N) : N * N := if decide (a < b)%N then (a, b) else (b, a).

(** view_graph.cc:54, 56. *)
Definition vg_num_views (g : view_graph) : nat := size (vg_vertices g).
Definition vg_num_edges (g : view_graph) : nat := size (vg_edges g).

(** view_graph.cc:86-93. *)
Definition vg_view_ids (g : view_graph) : gset N := dom (vg_vertices g).

(** view_graph.cc:95-97. *)
Definition vg_has_view (g : view_graph) (v : N) : bool :=
  bool_decide (is_Some (vg_vertices g !! v)).

(** view_graph.cc:99-104. *)
Definition vg_has_edge (g : view_graph) (a b : N) : bool :=
  match vg_edges g !! view_id_pair a b with Some _ => true | None => false end.

(** [vertices_[v].erase(u)], with the insertion of a default-constructed set by operator[]. *)
Definition vertex_erase (m : gmap N (gset N)) (v u : N) : gmap N (gset N) :=
  <[v := (m !!! v) ∖ {[u]}]> m.

(** The loop body view_graph.cc:116-122. *)
Definition remove_view_step (v : N) (g : view_graph) (n : N) : view_graph :=
  VG (vertex_erase (vg_vertices g) n v) (delete (view_id_pair v n) (vg_edges g)).

(** view_graph.cc:109-127; [o] is the iteration order of the neighbor set. *)
Definition vg_remove_view (o : order N) (g : view_graph) (v : N) : view_graph * bool :=
  match vg_vertices g !! v with
  | None => (g, false)
  | Some ns =>
      let g' := foldl (remove_view_step v) g (o (elements ns)) in
      (VG (delete v (vg_vertices g')) (vg_edges g'), true)
  end.

(** [vertices_[v].insert(u)]. *)
Definition vertex_insert (m : gmap N (gset N)) (v u : N) : gmap N (gset N) :=
  <[v := {[u]} ∪ (m !!! v)]> m.

(** view_graph.cc:133-153. *)
Definition vg_add_edge (g : view_graph) (a b : N) (e : E) : view_graph :=
  if decide (a = b) then g
  else VG (vertex_insert (vertex_insert (vg_vertices g) a b) b a)
          (<[view_id_pair a b := e]> (vg_edges g)).

(** view_graph.cc:157-173, including the short-circuit evaluation of the three erase calls. *)
Definition vg_remove_edge (g : view_graph) (a b : N) : view_graph * bool :=
  match vg_edges g !! view_id_pair a b with
  | None => (g, false)
  | Some _ =>
      let ok1 := bool_decide (b ∈ vg_vertices g !!! a) in
      let m1 := vertex_erase (vg_vertices g) a b in
      if ok1 then
        let ok2 := bool_decide (a ∈ m1 !!! b) in
        let m2 := vertex_erase m1 b a in
        if ok2 then (VG m2 (delete (view_id_pair a b) (vg_edges g)), true)
        else (VG m2 (vg_edges g), false)
      else (VG m1 (vg_edges g), false)
  end.

(** view_graph.cc:176-179. *)
Definition vg_neighbors (g : view_graph) (v : N) : option (gset N) := vg_vertices g !! v.

(** view_graph.cc:182-188. *)
Definition vg_get_edge (g : view_graph) (a b : N) : option E := vg_edges g !! view_id_pair a b.

(** view_graph.cc:190-196: the caller receives a pointer and overwrites the value with [f] of it. *)
Definition vg_update_edge (g : view_graph) (a b : N) (f : E -> E) : view_graph :=
  VG (vg_vertices g) (alter f (view_id_pair a b) (vg_edges g)).

(** view_graph.cc:223-236, inner loop of ExtractSubgraph. *)
Definition extract_subgraph_inner (g : view_graph) (views : gset N) (v : N)
    (sub : view_graph) (u : N) : outcome view_graph :=
  if decide (u ∉ views \/ (u < v)%N) then Ok sub
  else
    e ← or_die (vg_edges g !! (v, u));
    Ok (vg_add_edge sub v u e).

(** view_graph.cc:214-237, one vertex of the outer loop. *)
Definition extract_subgraph_step (o : order N) (g : view_graph) (views : gset N)
    (sub : view_graph) (vertex : N * gset N) : outcome view_graph :=
  if decide (vertex.1 ∉ views) then Ok sub
  else run_steps (extract_subgraph_inner g views vertex.1) sub (o (elements vertex.2)).

(** view_graph.cc:207-238.  The output graph [sub] is not cleared by the C++. *)
Definition vg_extract_subgraph (ov : order (N * gset N)) (o : order N) (g : view_graph)
    (views : gset N) (sub : view_graph) : outcome view_graph :=
  run_steps (extract_subgraph_step o g views) sub (ov (map_to_list (vg_vertices g))).

(** view_graph.cc:242-250 and remove_disconnected_view_pairs.cc:53-59: union all edges (in some order)
    and extract the components. *)
Definition vg_components (oe : order (N * N)) (on : order N) (g : view_graph)
  : outcome (gmap N (gset N)) :=
  s ← run_steps (fun s e => cc_add_edge s e.1 e.2) (cc_default (2 ^ 32 - 1)%N)
        (oe (map_to_list (vg_edges g)).*1);
  '(_, m) ← cc_extract s (on (elements (dom (cc_set s))));
  Ok m.

(** view_graph.cc:253-260 and remove_disconnected_view_pairs.cc:62-69: the first component of strictly
    larger size in iteration order. *)
Definition largest_step (best : N * nat) (kx : N * gset N) : N * nat :=
  if decide (best.2 < size kx.2)%nat then (kx.1, size kx.2) else best.
Definition largest_cc (comps : list (N * gset N)) : N * nat :=
  foldl largest_step (kInvalidViewId, 0%nat) comps.

(** view_graph.cc:240-265. *)
Definition vg_largest_component (oe : order (N * N)) (on : order N) (oc : order (N * gset N))
    (g : view_graph) : outcome (gset N) :=
  m ← vg_components oe on g;
  let best := largest_cc (oc (map_to_list m)) in
  _ ← check (bool_decide (best.1 ≠ kInvalidViewId));
  Ok (m !!! best.1).

(** remove_disconnected_view_pairs.cc:82-85, inner loop. *)
Definition remove_views (o : order N) (st : view_graph * gset N) (vs : list N)
  : view_graph * gset N :=
  foldl (fun st v => ((vg_remove_view o st.1 v).1, {[v]} ∪ st.2)) st vs.

(** remove_disconnected_view_pairs.cc:48-95. *)
Definition vg_remove_disconnected (oe : order (N * N)) (on : order N) (oc : order (N * gset N))
    (g : view_graph) : outcome (view_graph * gset N) :=
  m ← vg_components oe on g;
  let comps := oc (map_to_list m) in
  let best := largest_cc comps in
  Ok (foldl (fun st kx => if decide (kx.1 = best.1) then st
                          else remove_views on st (on (elements kx.2)))
            (g, ∅) comps).

(** The mutating operations, as one state machine.  RemoveView carries the iteration order used by that
    call. *)
Inductive vg_op :=
| VAddEdge (a b : N) (e : E)
| VRemoveEdge (a b : N)
| VRemoveView (o : order N) (v : N)
| VUpdateEdge (a b : N) (f : E -> E).

(** Result: whether the call reported success (true for the void calls). *)
Definition vg_step (g : view_graph) (op : vg_op) : view_graph * bool :=
  match op with
  | VAddEdge a b e => (vg_add_edge g a b e, true)
  | VRemoveEdge a b => vg_remove_edge g a b
  | VRemoveView o v => vg_remove_view o g v
  | VUpdateEdge a b f => (vg_update_edge g a b f, true)
  end.

Fixpoint vg_run (g : view_graph) (ops : list vg_op) : view_graph * list bool :=
  match ops with
  | [] => (g, [])
  | op :: ops' =>
      let '(g1, r) := vg_step g op in
      let '(g2, rs) := vg_run g1 ops' in
      (g2, r :: rs)
  end.

End view_graph.
Arguments view_graph : clear implicits.
Arguments vg_op : clear implicits.
