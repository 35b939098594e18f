(** Independent specification: spanning trees and their weight. *)
From stdpp Require Import gmap.
From Verif Require Import Base ConnectedComponents_Model ConnectedComponents_Spec MinSpanningTree_Model.

(** The nodes of a weighted graph. *)
Definition nodes (edges : list wedge) : gset N := mentioned (edges.*2).

(** The edges [es] connect all nodes in [V]. *)
Definition connects (es : list wedge) (V : gset N) : Prop :=
  forall a b, a ∈ V -> b ∈ V -> reachable (es.*2) a b.

(** [T] is a spanning tree: edges of the graph that connect all nodes, one less than there are nodes. *)
Definition spanning_tree (edges T : list wedge) : Prop :=
  (forall e, e ∈ T -> e ∈ edges) /\ connects T (nodes edges) /\ S (length T) = size (nodes edges).

Definition weight (T : list wedge) : Z := foldr Z.add 0%Z (T.*1).

(** [T] is a spanning tree and none is lighter. *)
Definition minimum_spanning_tree (edges T : list wedge) : Prop :=
  spanning_tree edges T /\ forall S, spanning_tree edges S -> (weight T <= weight S)%Z.

Definition no_self_loops (edges : list wedge) : Prop := forall e, e ∈ edges -> e.2.1 ≠ e.2.2.
