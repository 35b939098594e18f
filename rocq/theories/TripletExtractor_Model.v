(** Model of /repo/src/theia/math/graph/triplet_extractor.h, class TripletExtractor.

    Nodes are [N] with their usual order.  The unordered_set of edges is given by its iteration order: a
    list without repetitions ([FindTriplets] iterates over it twice without changing it). *)
From stdpp Require Import gmap sorting.
From Verif Require Import Base ConnectedComponents_Model.

Notation edge := (N * N)%type.
Notation triplet := (N * N * N)%type.

(** triplet_extractor.h:110-121, SortTriplet. *)
Definition sort_triplet (t : triplet) : triplet :=
  let '(a, b, c) := t in
  let '(b, c) := if decide (c < b)%N then (c, b) else (b, c) in
  let '(a, b) := if decide (b < a)%N then (b, a) else (a, b) in
  (a, b, c).

(** triplet_extractor.h:89-94, the data members triplets_ and triplet_edges_. *)
Record tx := TX { tx_triplets : list triplet; tx_edges : gmap edge (list N) }.

(** triplet_edges_[p].emplace_back(id). *)
Definition push_edge (m : gmap edge (list N)) (p : edge) (id : N) : gmap edge (list N) :=
  <[p := (m !!! p) ++ [id]]> m.

(** triplet_extractor.h:210-228, StoreTriplet; triplet_id is a uint32_t (line 59). *)
Definition store_triplet (s : tx) (a b c : N) : tx :=
  let '(x, y, z) := sort_triplet (a, b, c) in
  let triplets := tx_triplets s ++ [(x, y, z)] in
  let id := (N.of_nat (length triplets - 1) mod 2 ^ 32)%N in
  TX triplets (push_edge (push_edge (push_edge (tx_edges s) (x, y) id) (x, z) id) (y, z) id).

(** triplet_extractor.h:167-173, the adjacency graph. *)
Definition adjacency (edges : list edge) : gmap N (gset N) :=
  foldl (fun g e =>
    let g := <[e.1 := {[e.2]} ∪ (g !!! e.1)]> g in
    <[e.2 := {[e.1]} ∪ (g !!! e.2)]> g) ∅ edges.

(** triplet_extractor.h:176-207, the body of the loop of FindTriplets.  std::set_intersection of two sorted
    sets gives the common elements in increasing order. *)
Definition find_step (st : tx * gmap N (gset N)) (e : edge) : outcome (tx * gmap N (gset N)) :=
  let '(s, g) := st in
  n1 ← or_die (g !! e.1);
  n2 ← or_die (g !! e.2);
  let common := merge_sort N.le (elements (n1 ∩ n2)) in
  let s := foldl (fun s c => store_triplet s e.1 e.2 c) s common in
  let g := <[e.1 := (g !!! e.1) ∖ {[e.2]}]> g in
  let g := <[e.2 := (g !!! e.2) ∖ {[e.1]}]> g in
  Ok (s, g).

(** triplet_extractor.h:164-208, FindTriplets, on the cleared members (lines 128-129). *)
Definition find_triplets (edges : list edge) : outcome tx :=
  '(s, _) ← run_steps find_step (TX [] ∅, adjacency edges) edges;
  Ok s.

(** triplet_extractor.h:241-256: the AddEdge calls for one entry of triplet_edges_.  The loop bound is
    size() - 1 on an unsigned type: an empty entry would run the loop with an out-of-range access. *)
Fixpoint chain (l : list N) : list (N * N) :=
  match l with
  | x :: ((y :: _) as l') => (x, y) :: chain l'
  | _ => []
  end.
Definition entry_links (l : list N) : outcome (list (N * N)) :=
  match l with
  | [] => UB
  | [x] => Ok [(x, x)]
  | _ => Ok (chain l)
  end.

(** triplet_extractor.h:235-259, GetConnectedTripletGraphs.  [ord_e] is the iteration order of
    triplet_edges_, [ord_c] that of the members of the ConnectedComponents object. *)
Definition link_step (c : cc) (l : list N) : outcome cc :=
  links ← entry_links l;
  run_steps (fun c e => cc_add_edge c e.1 e.2) c links.

Definition connected_triplet_graphs (ord_e : order (edge * list N)) (ord_c : order N)
    (s : tx) : outcome (gmap N (gset N)) :=
  c ← run_steps link_step (cc_default (2 ^ 32 - 1)) ((ord_e (map_to_list (tx_edges s))).*2);
  '(_, m) ← cc_extract c (ord_c (elements (dom (cc_set c))));
  Ok m.

(** std::sort with CompareBySize (lines 100-104, 153-155): a permutation, larger vectors first; which one is
    unspecified for vectors of the same size. *)
Record size_sort := SizeSort {
  ss_sort : list (list triplet) -> list (list triplet);
  ss_perm : forall l, ss_sort l ≡ₚ l;
  ss_sorted : forall l, StronglySorted (fun v w => length w <= length v) (ss_sort l)
}.

(** triplet_extractor.h:137-149: one component. *)
Definition group_of (ord_i : order N) (s : tx) (ids : gset N) : outcome (list triplet) :=
  (fix go (l : list N) : outcome (list triplet) :=
     match l with
     | [] => Ok []
     | i :: l' => t ← or_ub (tx_triplets s !! N.to_nat i); ts ← go l'; Ok (t :: ts)
     end) (ord_i (elements ids)).

Fixpoint groups_of (ord_i : order N) (s : tx) (l : list (N * gset N)) : outcome (list (list triplet)) :=
  match l with
  | [] => Ok []
  | kv :: l' => g ← group_of ord_i s kv.2; gs ← groups_of ord_i s l'; Ok (g :: gs)
  end.

(** triplet_extractor.h:124-158, ExtractTriplets.  [out] is what the caller's vector contains before;
    [ord_g], [ord_i]: the iteration orders of the components and of their members. *)
Definition extract_triplets (ord_e : order (edge * list N)) (ord_c : order N) (ord_g : order (N * gset N))
    (ord_i : order N) (srt : size_sort) (edges : list edge) (out : list (list triplet))
    : outcome (bool * list (list triplet)) :=
  s ← find_triplets edges;
  m ← connected_triplet_graphs ord_e ord_c s;
  gs ← groups_of ord_i s (ord_g (map_to_list m));
  Ok (true, ss_sort srt (out ++ gs)).
