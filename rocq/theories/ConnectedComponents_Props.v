(** Property theorems C01-C03: connected components. *)
From stdpp Require Import gmap.
From Verif Require Import Base ConnectedComponents_Model ConnectedComponents_Spec
  ConnectedComponents_Proofs.

(** C01.  [h] is any history of calls on a default-constructed object ([limit] = the largest value of the
    node type).  As long as there are not more nodes than values of the type, nothing aborts, "same
    component" is reachability between mentioned nodes, and Extract returns exactly the reachability
    classes, each once, under one of its own members. *)
Theorem cc_reachability : forall (limit : N) (h : list cc_op),
  orders_ok [] h -> (N.of_nat (size (mentioned (edges_of h))) <= limit)%N ->
  exists s rs, run_obs cc_step (cc_default limit) h = Ok (s, rs) /\
    (forall a b, exists s' t, cc_same s a b = Ok (s', t) /\
       (t = true <-> a ∈ mentioned (edges_of h) /\ b ∈ mentioned (edges_of h) /\
                    reachable (edges_of h) a b)) /\
    (forall order, order ≡ₚ elements (mentioned (edges_of h)) ->
       exists s' m, cc_extract s order = Ok (s', m) /\
         (forall X, (exists k, m !! k = Some X) <->
              exists a, a ∈ mentioned (edges_of h) /\
                        forall x, x ∈ X <-> reachable (edges_of h) a x) /\
         (forall k X, m !! k = Some X -> k ∈ X) /\
         (forall k1 k2 X, m !! k1 = Some X -> m !! k2 = Some X -> k1 = k2)).
Proof. exact cc_reachability_lemma. Qed.
Print Assumptions cc_reachability.

(** C02.  With a maximum size: every answer is the answer of the abstract partition [spec_adds], which
    merges two blocks exactly when an edge joins them and the merged block fits; that partition covers
    exactly the mentioned nodes, its blocks are connected through added edges and respect the maximum. *)
Theorem cc_capped : forall (max_size : Z) (h : list cc_op),
  (0 < max_size < 2 ^ 31)%Z -> orders_ok [] h ->
  let P := spec_adds (Z.to_N max_size) (edges_of h) in
  exists s0 s rs, cc_new max_size = Ok s0 /\ run_obs cc_step s0 h = Ok (s, rs) /\
    (forall a b, exists s' t, cc_same s a b = Ok (s', t) /\ (t = true <-> spec_same P a b)) /\
    (forall order, order ≡ₚ elements (mentioned (edges_of h)) ->
       exists s' m, cc_extract s order = Ok (s', m) /\ components_of m P) /\
    is_partition P /\
    covered P = mentioned (edges_of h) /\
    (forall X x y, X ∈ P -> x ∈ X -> y ∈ X -> reachable (edges_of h) x y) /\
    (forall X, X ∈ P -> (Z.of_nat (size X) <= max_size)%Z).
Proof. exact cc_capped_lemma. Qed.
Print Assumptions cc_capped.

(** C03.  Removing a query from a history changes neither the results before it nor those after it. *)
Theorem cc_query_transparent : forall (cap : N) (h1 : list cc_op) (q : cc_op) (h2 : list cc_op),
  is_query q -> orders_ok [] (h1 ++ [q] ++ h2) ->
  exists s1 s2 r1 rq r2,
    run_obs cc_step (cc_default cap) (h1 ++ [q] ++ h2) = Ok (s1, r1 ++ [rq] ++ r2) /\
    run_obs cc_step (cc_default cap) (h1 ++ h2) = Ok (s2, r1 ++ r2) /\
    length r1 = length h1.
Proof. exact query_transparent. Qed.
Print Assumptions cc_query_transparent.

(** Non-vacuity: a history with two components, a rejected merge, queries and an extraction. *)
Definition cc_example : list cc_op :=
  [CAddEdge 1 2; CAddEdge 3 4; CSame 1 4; CAddEdge 2 3; CExtract [4; 2; 1; 3]; CAddEdge 5 1;
   CSame 5 1; CSame 1 4]%N.

Example cc_example_orders : orders_ok [] cc_example.
Proof.
  simpl. split_and!; try exact I.
  apply NoDup_Permutation; [|apply NoDup_elements|].
  - by apply (bool_decide_unpack _).
  - intros x. rewrite elem_of_elements. unfold mentioned. simpl.
    rewrite !elem_of_cons, elem_of_nil. set_solver.
Qed.

Example cc_example_size : (N.of_nat (size (mentioned (edges_of cc_example))) <= 2 ^ 32 - 1)%N.
Proof. by vm_compute. Qed.

Example cc_example_results_uncapped : exists s m,
  run_obs cc_step (cc_default (2 ^ 32 - 1)) cc_example =
  Ok (s, [RUnit; RUnit; RBool false; RUnit; RComponents m; RUnit; RBool true; RBool true])
  /\ (elements <$> m) !! 1%N = Some [1; 3; 2; 4]%N.
Proof.
  eexists _, _. split; [vm_compute; reflexivity|]. by vm_compute.
Qed.

Example cc_example_results_capped : exists s0 s m,
  cc_new 3 = Ok s0 /\ run_obs cc_step s0 cc_example =
  Ok (s, [RUnit; RUnit; RBool false; RUnit; RComponents m; RUnit; RBool true; RBool false])
  /\ (elements <$> m) !! 1%N = Some [1; 2]%N /\ (elements <$> m) !! 3%N = Some [3; 4]%N.
Proof.
  eexists _, _, _. split; [reflexivity|]. split; [vm_compute; reflexivity|]. by vm_compute.
Qed.
