(** Independent specification: triangles of an undirected graph. *)
From stdpp Require Import gmap.
From Verif Require Import Base TripletExtractor_Model.

(** Every edge is given once, smaller node first. *)
Definition ordered_edges (edges : list edge) : Prop :=
  NoDup edges /\ forall a b, (a, b) ∈ edges -> (a < b)%N.

(** (a, b, c), in increasing order, is a triangle of the graph. *)
Definition triangle (edges : list edge) (t : triplet) : Prop :=
  let '(a, b, c) := t in
  (a < b < c)%N /\ (a, b) ∈ edges /\ (b, c) ∈ edges /\ (a, c) ∈ edges.

(** Two triangles have a side in common. *)
Definition sides (t : triplet) : list edge := let '(a, b, c) := t in [(a, b); (a, c); (b, c)].
Definition share_side (t u : triplet) : Prop := exists p, p ∈ sides t /\ p ∈ sides u.

(** Linked by a chain of triangles of the graph, each sharing a side with the next. *)
Definition side_connected (edges : list edge) : triplet -> triplet -> Prop :=
  rtc (fun t u => triangle edges t /\ triangle edges u /\ share_side t u).

(** The graph has less than [n] triangles. *)
Definition fewer_triangles (edges : list edge) (n : N) : Prop :=
  forall ts, NoDup ts -> (forall t, t ∈ ts -> triangle edges t) -> (N.of_nat (length ts) < n)%N.
