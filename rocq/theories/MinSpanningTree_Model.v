(** Model of /repo/src/theia/math/graph/minimum_spanning_tree.h.

    Nodes are [N].  Weights are [Z]: the code only compares weights, and any finite set of finite floating
    point numbers can be scaled to integers.  std::sort on (weight, (node1, node2)) tuples is a total order,
    so the sorted vector is unique; the model uses merge sort. *)
From stdpp Require Import gmap sorting.
From Verif Require Import Base ConnectedComponents_Model.

(** An element of edges_ (line 120): (weight, (node1, node2)). *)
Notation wedge := (Z * (N * N))%type.

(** operator< of the tuples, negated and reversed: the order used by std::sort. *)
Definition edge_le (e f : wedge) : Prop :=
  (e.1 < f.1)%Z \/ e.1 = f.1 /\ ((e.2.1 < f.2.1)%N \/ e.2.1 = f.2.1 /\ (e.2.2 <= f.2.2)%N).
Global Instance edge_le_dec : RelDecision edge_le.
Proof. intros e f. unfold edge_le. apply _. Defined.

(** minimum_spanning_tree.h:62-64, AddEdge. *)
Definition mst_add_edge (edges : list wedge) (a b : N) (w : Z) : list wedge := edges ++ [(w, (a, b))].

(** minimum_spanning_tree.h:106-118, CountNodesInGraph: the number of distinct end points. *)
Definition count_nodes (edges : list wedge) : nat :=
  length (remove_dups (edges ≫= fun e => [e.2.1; e.2.2])).

(** minimum_spanning_tree.h:88-100, the loop.  [num] is num_nodes - 1. *)
Fixpoint mst_loop (num : nat) (s : cc) (out : gset (N * N)) (edges : list wedge)
    : outcome (gset (N * N)) :=
  match edges with
  | [] => Ok out
  | e :: rest =>
      if decide (size out < num)%nat then
        '(s1, same) ← cc_same s e.2.1 e.2.2;
        if (same : bool) then mst_loop num s1 out rest
        else
          s2 ← cc_add_edge s1 e.2.1 e.2.2;
          mst_loop num s2 ({[e.2]} ∪ out) rest
      else Ok out
  end.

(** minimum_spanning_tree.h:69-103, Extract.  The result is the return value, the sorted [edges_] and the
    output set ([out] is what the caller's set contains before).  [limit]: see [cc_default]. *)
Definition mst_extract (limit : N) (edges : list wedge) (out : gset (N * N))
    : outcome (bool * list wedge * gset (N * N)) :=
  match edges with
  | [] => Ok (false, edges, out)
  | _ =>
      let num := (count_nodes edges - 1)%nat in
      let sorted := merge_sort edge_le edges in
      out' ← mst_loop num (cc_default limit) out sorted;
      Ok (bool_decide (size out' = num), sorted, out')
  end.
