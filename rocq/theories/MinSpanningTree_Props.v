(** C22: minimum spanning trees. *)
From stdpp Require Import gmap.
From Verif Require Import Base ConnectedComponents_Model ConnectedComponents_Spec MinSpanningTree_Model
  MinSpanningTree_Spec MinSpanningTree_Proofs.

(** C22.  For every graph without self loops: Extract into an empty set succeeds exactly when the graph is
    not empty and connected, and then the set holds the edges of a spanning tree of minimum weight (as
    many as the tree has: no edge is lost in the set). *)
Theorem minimum_spanning_tree_optimal : forall (limit : N) (edges : list wedge),
  no_self_loops edges -> (N.of_nat (size (nodes edges)) <= limit)%N ->
  exists ok sorted out, mst_extract limit edges ∅ = Ok (ok, sorted, out) /\
    (ok = true <-> edges ≠ [] /\ connects edges (nodes edges)) /\
    (ok = true -> exists T, minimum_spanning_tree edges T /\ NoDup (T.*2) /\ out = list_to_set (T.*2)) /\
    sorted ≡ₚ edges.
Proof. exact mst_lemma. Qed.
Print Assumptions minimum_spanning_tree_optimal.

Lemma ok_test {A} `{EqDecision A} (x : outcome A) (a : A) :
  match x with Ok b => bool_decide (b = a) | _ => false end = true -> x = Ok a.
Proof. destruct x; try done. intros H%bool_decide_eq_true. by subst. Qed.

(** Self loops break it: the graph 1 - 2 with a light self loop at 1 is connected, and Extract answers
    true with a set that does not connect it. *)
Theorem minimum_spanning_tree_self_loop_refuted :
  exists edges sorted out, connects edges (nodes edges) /\
    mst_extract 4294967295 edges ∅ = Ok (true, sorted, out) /\
    ~ exists T, spanning_tree edges T /\ out = list_to_set (T.*2).
Proof.
  exists [(0%Z, (1, 1)%N); (5%Z, (1, 2)%N)], [(0%Z, (1, 1)%N); (5%Z, (1, 2)%N)], {[(1, 1)%N]}.
  assert (Hn : nodes [(0%Z, (1, 1)%N); (5%Z, (1, 2)%N)] = {[1%N; 2%N]}).
  { apply (bool_decide_eq_true _). vm_compute. reflexivity. }
  rewrite !Hn. split_and!.
  - intros a b Ha Hb. rewrite !elem_of_union, !elem_of_singleton in Ha, Hb.
    assert (H12 : reachable ([(0%Z, (1, 1)%N); (5%Z, (1, 2)%N)].*2) 1 2).
    { apply rtc_once. left. simpl. right. by left. }
    destruct Ha as [->| ->], Hb as [->| ->]; try apply reach_refl; [done|by apply reach_sym].
  - apply ok_test. by vm_compute.
  - intros (T & (_ & Hc & _) & Hout). rewrite Hn in Hc.
    assert (Hr : reachable (T.*2) 2 1) by (apply Hc; rewrite !elem_of_union, !elem_of_singleton; auto).
    destruct (rtc_inv _ _ Hr) as [?|(y & [Hy|Hy] & _)]; [done| |];
      apply (elem_of_list_to_set (C := gset (N * N))) in Hy; rewrite <-Hout, elem_of_singleton in Hy; done.
Qed.
Print Assumptions minimum_spanning_tree_self_loop_refuted.

(** The output set is not cleared: edges left in it by an earlier use are counted as edges of the tree. *)
Theorem minimum_spanning_tree_reused_output_refuted :
  exists edges sorted out, no_self_loops edges /\ connects edges (nodes edges) /\
    mst_extract 4294967295 edges {[(7, 8)%N]} = Ok (true, sorted, out) /\
    ~ exists T, spanning_tree edges T /\ out = list_to_set (T.*2).
Proof.
  exists [(5%Z, (1, 2)%N)], [(5%Z, (1, 2)%N)], {[(7, 8)%N]}.
  assert (Hn : nodes [(5%Z, (1, 2)%N)] = {[1%N; 2%N]}).
  { apply (bool_decide_eq_true _). vm_compute. reflexivity. }
  rewrite !Hn. split_and!.
  - intros e ->%elem_of_list_singleton. done.
  - intros a b Ha Hb. rewrite !elem_of_union, !elem_of_singleton in Ha, Hb.
    assert (H12 : reachable ([(5%Z, (1, 2)%N)].*2) 1 2).
    { apply rtc_once. left. simpl. by left. }
    destruct Ha as [->| ->], Hb as [->| ->]; try apply reach_refl; [done|by apply reach_sym].
  - apply ok_test. by vm_compute.
  - intros (T & (Hsub & _) & Hout).
    assert (Hin : (7, 8)%N ∈ (list_to_set (T.*2) : gset (N * N))) by (rewrite <-Hout; by apply elem_of_singleton).
    apply elem_of_list_to_set, elem_of_list_fmap in Hin as (e & E & He%Hsub%elem_of_list_singleton).
    by subst e.
Qed.
Print Assumptions minimum_spanning_tree_reused_output_refuted.

(** Non-vacuity: a square with a diagonal, parallel edges and a negative weight. *)
Example minimum_spanning_tree_sample :
  let edges := [(4, (1, 2)%N); (-3, (2, 3)%N); (2, (3, 4)%N); (7, (4, 1)%N); (1, (1, 3)%N); (9, (2, 1)%N)]%Z in
  no_self_loops edges /\ (N.of_nat (size (nodes edges)) <= 4294967295)%N /\
  match mst_extract 4294967295 edges ∅ with
  | Ok (ok, _, out) => ok && bool_decide (out = {[(2, 3)%N; (1, 3)%N; (3, 4)%N]})
  | _ => false
  end = true.
Proof.
  split_and!.
  - intros e. rewrite !elem_of_cons. intros [->|[->|[->|[->|[->|[->|H]]]]]]; try done. by apply elem_of_nil in H.
  - by vm_compute.
  - by vm_compute.
Qed.
