(** Independent specification of connected components: partitions as sets of blocks. *)
From stdpp Require Import gmap.
From Verif Require Import Base ConnectedComponents_Model.

(** A partition of a finite set of nodes: a finite set of blocks. *)
Definition partition := gset (gset N).

(** Pairwise disjoint and non-empty blocks. *)
Definition is_partition (P : partition) : Prop :=
  (forall X, X ∈ P -> X ≠ ∅) /\
  (forall X Y x, X ∈ P -> Y ∈ P -> x ∈ X -> x ∈ Y -> X = Y).

(** All nodes of the partition. *)
Definition covered (P : partition) : gset N := ⋃ (elements P).

(** Make [a] known: as a block of its own unless it is known already. *)
Definition ensure (P : partition) (a : N) : partition :=
  if decide (a ∈ covered P) then P else {[ {[a]} ]} ∪ P.

(** The block of [a] (empty when [a] is unknown). *)
Definition block (P : partition) (a : N) : gset N :=
  ⋃ (filter (fun X => a ∈ X) (elements P)).

(** Adding the edge a - b with maximum block size [cap]: make both ends known; then merge their blocks
    when they differ and the result is not too large. *)
Definition spec_add (cap : N) (P : partition) (a b : N) : partition :=
  let Q := ensure (ensure P a) b in
  let A := block Q a in
  let B := block Q b in
  if decide (A ≠ B /\ (N.of_nat (size A) + N.of_nat (size B) <= cap)%N)
  then {[ A ∪ B ]} ∪ (Q ∖ {[ A; B ]})
  else Q.

(** The partition after a list of edges. *)
Definition spec_adds (cap : N) (es : list (N * N)) : partition :=
  foldl (fun P e => spec_add cap P e.1 e.2) ∅ es.

(** All nodes mentioned by a list of edges. *)
Definition mentioned (es : list (N * N)) : gset N :=
  list_to_set (es ≫= fun e => [e.1; e.2]).

(** Reachability through a list of undirected edges. *)
Definition linked (es : list (N * N)) (a b : N) : Prop :=
  (a, b) ∈ es \/ (b, a) ∈ es.
Definition reachable (es : list (N * N)) : N -> N -> Prop := rtc (linked es).

(** The edges added by a history of calls. *)
Definition op_edges (o : cc_op) : list (N * N) :=
  match o with CAddEdge a b => [(a, b)] | _ => [] end.

Definition edges_of (ops : list cc_op) : list (N * N) := ops ≫= op_edges.

(** The iteration orders given to Extract are orders of the nodes present at that time. *)
Fixpoint orders_ok (prefix : list (N * N)) (ops : list cc_op) : Prop :=
  match ops with
  | [] => True
  | o :: ops' =>
      match o with
      | CExtract order => order ≡ₚ elements (mentioned prefix)
      | _ => True
      end /\ orders_ok (prefix ++ op_edges o) ops'
  end.

(** What the calls must answer when the partition is [P]. *)
Definition spec_same (P : partition) (a b : N) : Prop := exists X, X ∈ P /\ a ∈ X /\ b ∈ X.

(** [m] lists exactly the blocks of [P], each under the id of one of its own members. *)
Definition components_of (m : gmap N (gset N)) (P : partition) : Prop :=
  (forall k X, m !! k = Some X -> X ∈ P /\ k ∈ X) /\
  (forall X, X ∈ P -> exists k, m !! k = Some X) /\
  (forall k1 k2 X, m !! k1 = Some X -> m !! k2 = Some X -> k1 = k2).

Definition good_res (P : partition) (o : cc_op) (r : cc_res) : Prop :=
  match o, r with
  | CAddEdge _ _, RUnit => True
  | CSame a b, RBool t => t = true <-> spec_same P a b
  | CExtract _, RComponents m => components_of m P
  | _, _ => False
  end.

(** A call that only asks. *)
Definition is_query (o : cc_op) : Prop := op_edges o = [].
