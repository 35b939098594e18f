(** Model of the relative rotations of a view graph: /repo/src/theia/math/rotation.cc,
    /repo/src/theia/sfm/twoview_info.{h,cc}, /repo/src/theia/sfm/filter_view_pairs_from_orientation.cc,
    /repo/src/theia/sfm/filter_view_graph_cycles_by_rotation.cc and
    /repo/src/theia/sfm/view_graph/orientations_from_maximum_spanning_tree.cc, on top of the models of
    the view graph, of the spanning tree and triplet extractors and of rotations.

    Doubles are real numbers.  M_PI is [PI]. *)
From stdpp Require Import gmap sorting.
From Coq Require Import Reals.
From Verif Require Import Base ConnectedComponents_Model ViewGraph_Model MinSpanningTree_Model.
From Verif Require Import TripletExtractor_Model Camera_Model PriorityQueue_Model.
Open Scope R_scope.

(** twoview_info.h:64-83, the members that the modelled functions use. *)
Record two_view := TwoView {
  tv_focal1 : R; tv_focal2 : R; tv_position : vec3; tv_rotation : vec3; tv_matches : Z }.

(** ceres::RotationMatrixToAngleAxis: an angle-axis vector of the rotation, with an angle of at most pi. *)
Definition aa_canonical (f : mat3 -> vec3) : Prop :=
  forall M, rotation M -> rot_of_aa (f M) = M /\ norm3 (f M) <= PI.

(** math/util.h:47-56. *)
Definition rad_to_deg (x : R) : R := x * (180 / PI).
Definition deg_to_rad (x : R) : R := x * (PI / 180).

(** rotation.cc:122-132, MultiplyRotations. *)
Definition multiply_rotations (to_aa : mat3 -> vec3) (a b : vec3) : vec3 :=
  to_aa (mmul (rot_of_aa a) (rot_of_aa b)).

(** twoview_info.cc:45-62, SwapCameras. *)
Definition swap_cameras (i : two_view) : outcome two_view :=
  if Req_EM_T (tv_focal1 i) 0 then CheckFail
  else if Req_EM_T (tv_focal2 i) 0 then CheckFail
  else Ok (TwoView (tv_focal2 i) (tv_focal1 i) (vopp (aa_rotate (tv_rotation i) (tv_position i)))
             (vscale (-1) (tv_rotation i)) (tv_matches i)).

(** Eigen's normalize(): a zero vector is left alone. *)
Definition normalize (v : vec3) : vec3 :=
  if Req_EM_T (norm3 v) 0 then v else vscale (/ norm3 v) v.

(** twoview_info.h:109-141, TwoViewInfoFromTwoCameras, for the poses and focal lengths of two cameras.  [norm] is the
    template argument; the other members of [i] are left alone. *)
Definition two_view_from_cameras (to_aa : mat3 -> vec3) (norm : bool) (f1 : R) (c1 : pose) (f2 : R) (c2 : pose)
    (i : two_view) : two_view :=
  let rotation_2 := multiply_rotations to_aa (p_aa c2) (vopp (p_aa c1)) in
  let position_2 := aa_rotate (p_aa c1) (vsub (p_pos c2) (p_pos c1)) in
  TwoView f1 f2 (if norm then normalize position_2 else position_2) rotation_2 (tv_matches i).

Section graph.
Context (to_aa : mat3 -> vec3).
Notation graph := (view_graph two_view).

(** RemoveEdge for every pair of an unordered_set. *)
Definition remove_pairs (o : order (N * N)) (g : graph) (pairs : gset (N * N)) : graph :=
  foldl (fun g p => (vg_remove_edge g p.1 p.2).1) g (o (elements pairs)).

(** filter_view_pairs_from_orientation.cc:55-68, AngularDifferenceIsAcceptable. *)
Definition difference_acceptable (o1 o2 rel : vec3) (sq_max : R) : bool :=
  let composed := multiply_rotations to_aa o2 (vopp o1) in
  let loop := multiply_rotations to_aa (vopp rel) composed in
  if Rle_dec (dot loop loop) sq_max then true else false.

(** filter_view_pairs_from_orientation.cc:88-114, the body of the loop. *)
Definition orientation_step (orientations : gmap N vec3) (sq_max : R) (bad : gset (N * N))
    (pe : (N * N) * two_view) : gset (N * N) :=
  match orientations !! pe.1.1, orientations !! pe.1.2 with
  | Some o1, Some o2 =>
      if difference_acceptable o1 o2 (tv_rotation pe.2) sq_max then bad else {[pe.1]} ∪ bad
  | _, _ => {[pe.1]} ∪ bad
  end.

(** filter_view_pairs_from_orientation.cc:72-122, FilterViewPairsFromOrientation.  The orders are those of the map of
    the edges and of the set of pairs to remove. *)
Definition filter_from_orientation (oe : order ((N * N) * two_view)) (op : order (N * N))
    (orientations : gmap N vec3) (max_degrees : R) (g : graph) : outcome graph :=
  if Rlt_dec max_degrees 0 then CheckFail
  else
    let max := deg_to_rad max_degrees in
    let bad := foldl (orientation_step orientations (max * max)) ∅ (oe (map_to_list (vg_edges g))) in
    Ok (remove_pairs op g bad).

(** filter_view_graph_cycles_by_rotation.cc:54-80, ComputeLoopRotationError. *)
Definition loop_rotation_error (i12 i13 i23 : two_view) : R :=
  let r12 := rot_of_aa (tv_rotation i12) in
  let r13 := rot_of_aa (tv_rotation i13) in
  let r23 := rot_of_aa (tv_rotation i23) in
  rad_to_deg (norm3 (to_aa (mmul (mmul r23 r12) (mtrans r13)))).

(** filter_view_graph_cycles_by_rotation.cc:117-137 (and 82-91), the body of the loops over the triplets. *)
Definition cycle_step (g : graph) (max_degrees : R) (invalid : gset (N * N)) (t : triplet)
    : outcome (gset (N * N)) :=
  let '(a, b, c) := t in
  i12 ← or_ub (vg_get_edge g a b);
  i13 ← or_ub (vg_get_edge g a c);
  i23 ← or_ub (vg_get_edge g b c);
  Ok (if Rlt_dec (loop_rotation_error i12 i13 i23) max_degrees
      then invalid ∖ {[(a, b)]} ∖ {[(a, c)]} ∖ {[(b, c)]} else invalid).

(** filter_view_graph_cycles_by_rotation.cc:95-145, FilterViewGraphCyclesByRotation.  [ot] is the order of the set of all
    pairs, the next five arguments are those of the extractor, [op] is the order of the pairs to remove. *)
Definition filter_cycles (ot : order (N * N)) (ord_e : order (N * N * list N)) (ord_c : order N)
    (ord_g : order (N * gset N)) (ord_i : order N) (srt : size_sort) (op : order (N * N))
    (max_degrees : R) (g : graph) : outcome graph :=
  let pairs : gset (N * N) := dom (vg_edges g) in
  '(ok, groups) ← extract_triplets ord_e ord_c ord_g ord_i srt (ot (elements pairs)) [];
  _ ← check ok;
  invalid ← run_steps (cycle_step g max_degrees) pairs (mjoin groups);
  Ok (remove_pairs op g invalid).

(** * Orientations from the maximum spanning tree *)

(** orientations_from_maximum_spanning_tree.cc:54, HeapElement. *)
Notation heap_element := (two_view * (N * N))%type.

(** 56-58, SortHeapElement. *)
Definition sort_heap_element (h1 h2 : heap_element) : bool :=
  bool_decide (tv_matches h2.1 < tv_matches h1.1)%Z.

(** std::push_heap and std::pop_heap with that comparison: any functions with the effects the C++ standard
    prescribes. *)
Record edge_heap := EdgeHeap {
  eh_push : list heap_element -> list heap_element;
  eh_pop : list heap_element -> list heap_element;
  eh_push_ok : forall l x, is_heap sort_heap_element l ->
    eh_push (l ++ [x]) ≡ₚ l ++ [x] /\ is_heap sort_heap_element (eh_push (l ++ [x]));
  eh_pop_ok : forall x l, is_heap sort_heap_element (x :: l) ->
    exists l', eh_pop (x :: l) = l' ++ [x] /\ l' ≡ₚ l /\ is_heap sort_heap_element l' }.

(** 62-84, ComputeOrientation. *)
Definition compute_orientation (source : vec3) (i : two_view) (u v : N) : vec3 :=
  let rs := rot_of_aa source in
  let rel := rot_of_aa (tv_rotation i) in
  to_aa (if decide (u < v)%N then mmul rel rs else mmul (mtrans rel) rs).

Context (H : edge_heap) (o : order N).

(** 88-105, AddEdgesToHeap; [o] is the order of the neighbours. *)
Definition add_edge_to_heap (g : graph) (orientations : gmap N vec3) (v : N) (heap : list heap_element) (u : N)
    : outcome (list heap_element) :=
  match orientations !! u with
  | Some _ => Ok heap
  | None => i ← or_ub (vg_get_edge g v u); Ok (eh_push H (heap ++ [(i, (v, u))]))
  end.
Definition add_edges_to_heap (g : graph) (orientations : gmap N vec3) (v : N) (heap : list heap_element)
    : outcome (list heap_element) :=
  ns ← or_ub (vg_neighbors g v);
  run_steps (add_edge_to_heap g orientations v) heap (o (elements ns)).

(** 156-178, the loop, for at most [fuel] rounds. *)
Fixpoint chain_loop (fuel : nat) (g : graph) (orientations : gmap N vec3) (heap : list heap_element)
    : outcome (gmap N vec3) :=
  match fuel with
  | O => Hang
  | S fuel =>
      match heap with
      | [] => Ok orientations
      | (i, (u, v)) :: _ =>
          let heap := removelast (eh_pop H heap) in
          match orientations !! v with
          | Some _ => chain_loop fuel g orientations heap
          | None =>
              src ← or_die (orientations !! u);
              let orientations := <[v := compute_orientation src i u v]> orientations in
              heap ← add_edges_to_heap g orientations v heap;
              chain_loop fuel g orientations heap
          end
      end
  end.

(** 139-145, the graph of the spanning tree. *)
Definition tree_step (sub : graph) (t : graph) (e : N * N) : outcome graph :=
  i ← or_ub (vg_get_edge sub e.1 e.2);
  Ok (vg_add_edge t e.1 e.2 i).

(** 109-180, OrientationsFromMaximumSpanningTree: the returned value and the map.  The orders: [oe on oc] of
    GetLargestConnectedComponentIds, [ov oi] of ExtractSubgraph, [ow] of the edges of the subgraph, [om] of the set of
    the edges of the tree.  The fuel is enough for every directed edge of the tree. *)
Definition orientations_from_mst (oe : order (N * N)) (on : order N) (oc : order (N * gset N))
    (ov : order (N * gset N)) (oi : order N) (ow : order ((N * N) * two_view)) (om : order (N * N))
    (g : graph) (orientations : gmap N vec3) : outcome (bool * gmap N vec3) :=
  largest_cc ← vg_largest_component oe on oc g;
  sub ← vg_extract_subgraph ov oi g largest_cc vg_empty;
  let edges := foldl (fun l pe => mst_add_edge l pe.1.1 pe.1.2 (- tv_matches pe.2)) []
                 (ow (map_to_list (vg_edges sub))) in
  '(ok, _, mst) ← mst_extract (2 ^ 32 - 1) edges ∅;
  if negb ok then Ok (false, orientations)
  else
    tree ← run_steps (tree_step sub) vg_empty (om (elements mst));
    root ← or_ub (fst <$> head (om (elements mst)));
    let orientations := <[root := V3 0 0 0]> orientations in
    heap ← add_edges_to_heap tree orientations root [];
    orientations ← chain_loop (S (2 * size mst)) tree orientations heap;
    Ok (true, orientations).
End graph.
