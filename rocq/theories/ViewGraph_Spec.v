(** Independent specification: an undirected simple graph with labelled edges is a finite set of
    vertices and a symmetric, irreflexive partial labelling function of vertex pairs. *)
From stdpp Require Import gmap.
From Verif Require Import Base ViewGraph_Model.

Section spec.
Context {E : Type}.

Record agraph := AG { ag_views : gset N; ag_label : N -> N -> option E }.

Definition ag_empty : agraph := AG ∅ (fun _ _ => None).

(** [x,y] is the pair [a,b] in one of the two directions. *)
Definition same_pair (a b x y : N) : Prop := (x = a /\ y = b) \/ (x = b /\ y = a).
Global Instance same_pair_dec a b x y : Decision (same_pair a b x y).
Proof. unfold same_pair. apply _. Defined.

(** What each operation does to the mathematical graph, and what it reports. *)
Definition ag_step (g : agraph) (op : vg_op E) : agraph * bool :=
  match op with
  | VAddEdge a b e =>
      (if decide (a = b) then g
       else AG ({[a; b]} ∪ ag_views g)
               (fun x y => if decide (same_pair a b x y) then Some e else ag_label g x y), true)
  | VRemoveEdge a b =>
      match ag_label g a b with
      | None => (g, false)
      | Some _ => (AG (ag_views g)
                      (fun x y => if decide (same_pair a b x y) then None else ag_label g x y), true)
      end
  | VRemoveView _ v =>
      if decide (v ∈ ag_views g)
      then (AG (ag_views g ∖ {[v]})
               (fun x y => if decide (x = v \/ y = v) then None else ag_label g x y), true)
      else (g, false)
  | VUpdateEdge a b f =>
      (AG (ag_views g)
          (fun x y => if decide (same_pair a b x y) then f <$> ag_label g x y
                      else ag_label g x y), true)
  end.

Fixpoint ag_run (g : agraph) (ops : list (vg_op E)) : agraph * list bool :=
  match ops with
  | [] => (g, [])
  | op :: ops' =>
      let '(g1, r) := ag_step g op in
      let '(g2, rs) := ag_run g1 ops' in
      (g2, r :: rs)
  end.

(** The concrete graph answers all queries like the mathematical graph. *)
Definition answers_like (c : view_graph E) (g : agraph) : Prop :=
  (forall v, vg_has_view c v = true <-> v ∈ ag_views g) /\
  (forall a b, vg_has_edge c a b = true <-> is_Some (ag_label g a b)) /\
  (forall a b, vg_get_edge c a b = ag_label g a b) /\
  (forall v ns, vg_neighbors c v = Some ns <->
     v ∈ ag_views g /\ forall u, u ∈ ns <-> is_Some (ag_label g v u)) /\
  vg_num_views c = size (ag_views g) /\
  vg_view_ids c = ag_views g /\
  (* GetAllEdges / NumEdges: each edge exactly once, smaller id first *)
  (forall a b e, vg_edges c !! (a, b) = Some e <-> (a < b)%N /\ ag_label g a b = Some e) /\
  vg_num_edges c = size (dom (vg_edges c)).

(** Sanity of the mathematical graph. *)
Definition simple_graph (g : agraph) : Prop :=
  (forall x y, ag_label g x y = ag_label g y x) /\
  (forall x, ag_label g x x = None) /\
  (forall x y, is_Some (ag_label g x y) -> x ∈ ag_views g).

(** Adjacency and connected components of the mathematical graph (of its edges). *)
Definition ag_adj (g : agraph) (x y : N) : Prop := is_Some (ag_label g x y).
Definition ag_component (g : agraph) (X : gset N) : Prop :=
  exists a b, ag_adj g a b /\ forall x, x ∈ X <-> rtc (ag_adj g) a x.
Definition ag_largest_component (g : agraph) (X : gset N) : Prop :=
  ag_component g X /\ forall Y, ag_component g Y -> (size Y <= size X)%nat.

(** Every view id in the graph is a valid id (smaller than kInvalidViewId). *)
Definition has_valid_ids (c : view_graph E) : Prop :=
  forall v, vg_has_view c v = true -> (v < kInvalidViewId)%N.

End spec.
Arguments agraph : clear implicits.
