(** Model of /repo/src/theia/math/graph/connected_components.h.

    Simplifications: node ids are [N]; the component sizes ([int] in the C++) are [N] and do not
    overflow (an overflow needs 2^31 nodes in memory).  A [Root*] returned by the C++ points to the
    slot of some key of [disjoint_set_]; the model returns that key. *)
From stdpp Require Import gmap sorting.
From Verif Require Import Base.

(** connected_components.h:65-69, struct Root. *)
Record root := Root { r_id : N; r_size : N }.

(** connected_components.h:164-169, the data members. *)
Record cc := CC { cc_max : N; cc_set : gmap N root }.

(** connected_components.h:71-72, the default constructor; [limit] is numeric_limits<T>::max(). *)
Definition cc_default (limit : N) : cc := CC limit ∅.

(** connected_components.h:75-78: the [int] argument is converted to [uint64_t], then checked. *)
Definition cc_new (max_size : Z) : outcome cc :=
  let m := Z.to_N (max_size mod 2 ^ 64) in
  _ ← check (bool_decide (0 < m)%N);
  Ok (CC m ∅).

(** connected_components.h:150-162, FindRoot.  [fuel] bounds the recursion depth; running out of it is
    the outcome [Hang].  The result is the updated table (path compression) and the key of the root's
    slot. *)
Fixpoint find_root (fuel : nat) (m : gmap N root) (node : N) : outcome (gmap N root * N) :=
  match fuel with
  | O => Hang
  | S fuel' =>
      parent ← or_die (m !! node);
      if decide (node = r_id parent) then Ok (m, node)
      else
        '(m', k) ← find_root fuel' m (r_id parent);
        r ← or_ub (m' !! k);
        Ok (<[node := r]> m', k)
  end.

(** The recursion budget given to FindRoot: one more than the number of nodes. *)
Definition cc_fuel (m : gmap N root) : nat := S (size m).

(** connected_components.h:136-145, FindOrInsert. *)
Definition find_or_insert (m : gmap N root) (node : N) : outcome (gmap N root * N) :=
  match m !! node with
  | None => Ok (<[node := Root node 1]> m, node)
  | Some _ => find_root (cc_fuel m) m node
  end.

(** connected_components.h:87-108, AddEdge. *)
Definition cc_add_edge (s : cc) (node1 node2 : N) : outcome cc :=
  '(m1, k1) ← find_or_insert (cc_set s) node1;
  '(m2, k2) ← find_or_insert m1 node2;
  root1 ← or_ub (m2 !! k1);
  root2 ← or_ub (m2 !! k2);
  if decide (r_id root1 = r_id root2 \/ (cc_max s < r_size root1 + r_size root2)%N)
  then Ok (CC (cc_max s) m2)
  else if decide (r_size root1 < r_size root2)%N
  then (* root2->size += root1->size; *root1 = *root2; *)
    let root2' := Root (r_id root2) (r_size root2 + r_size root1) in
    Ok (CC (cc_max s) (<[k1 := root2']> (<[k2 := root2']> m2)))
  else (* root1->size += root2->size; *root2 = *root1; *)
    let root1' := Root (r_id root1) (r_size root1 + r_size root2) in
    Ok (CC (cc_max s) (<[k2 := root1']> (<[k1 := root1']> m2))).

(** connected_components.h:123-132, NodesInSameConnectedComponent. *)
Definition cc_same (s : cc) (node1 node2 : N) : outcome (cc * bool) :=
  match cc_set s !! node1, cc_set s !! node2 with
  | Some _, Some _ =>
      '(m1, k1) ← find_root (cc_fuel (cc_set s)) (cc_set s) node1;
      '(m2, k2) ← find_root (cc_fuel m1) m1 node2;
      root1 ← or_ub (m2 !! k1);
      root2 ← or_ub (m2 !! k2);
      Ok (CC (cc_max s) m2, bool_decide (r_id root1 = r_id root2))
  | _, _ => Ok (s, false)
  end.

(** connected_components.h:115-118, the loop of Extract: one node. *)
Definition cc_extract_step (st : gmap N root * gmap N (gset N)) (node : N)
  : outcome (gmap N root * gmap N (gset N)) :=
  let '(m, out) := st in
  '(m', k) ← find_root (cc_fuel m) m node;
  r ← or_ub (m' !! k);
  Ok (m', <[r_id r := {[node]} ∪ (out !!! r_id r)]> out).

(** connected_components.h:111-119, Extract.  [order] is the iteration order of [disjoint_set_]; the
    C++ visits every key once, in an unspecified order (assigning to mapped values during the loop does
    not change it). *)
Definition cc_extract (s : cc) (order : list N) : outcome (cc * gmap N (gset N)) :=
  '(m', out) ← run_steps cc_extract_step (cc_set s, ∅) order;
  Ok (CC (cc_max s) m', out).

(** The operations of the class, as one state machine. *)
Inductive cc_op :=
| CAddEdge (a b : N)
| CSame (a b : N)
| CExtract (order : list N).

Inductive cc_res :=
| RUnit
| RBool (b : bool)
| RComponents (m : gmap N (gset N)).

Definition cc_step (s : cc) (o : cc_op) : outcome (cc * cc_res) :=
  match o with
  | CAddEdge a b => s' ← cc_add_edge s a b; Ok (s', RUnit)
  | CSame a b => '(s', r) ← cc_same s a b; Ok (s', RBool r)
  | CExtract order => '(s', m) ← cc_extract s order; Ok (s', RComponents m)
  end.
