(** C23: triplets. *)
From stdpp Require Import gmap sorting.
From Verif Require Import Base ConnectedComponents_Model TripletExtractor_Model TripletExtractor_Spec
  TripletExtractor_Proofs.

(** C23.  For every graph whose edges are given once each as (a, b) with a < b, whatever the iteration
    orders of the hash tables: ExtractTriplets appends groups to the output and sorts it by decreasing
    size; the groups are not empty; every triangle is in exactly one group, once, in increasing order, and
    nothing else is in a group; two triangles are in the same group exactly when a chain of triangles that
    share sides links them.  (The ids of triangles are 32 bit numbers.) *)
Theorem triplets_exact : forall (ord_e : order (edge * list N)) (ord_c : order N) (ord_g : order (N * gset N))
    (ord_i : order N) (srt : size_sort) (edges : list edge) (out : list (list triplet)),
  ordered_edges edges -> fewer_triangles edges (2 ^ 32) ->
  exists gs res, extract_triplets ord_e ord_c ord_g ord_i srt edges out = Ok (true, res) /\
    res ≡ₚ out ++ gs /\ StronglySorted (fun v w => length w <= length v)%nat res /\
    NoDup (mjoin gs) /\ [] ∉ gs /\
    (forall t, t ∈ mjoin gs <-> triangle edges t) /\
    (forall t u, triangle edges t -> triangle edges u ->
       (exists g, g ∈ gs /\ t ∈ g /\ u ∈ g) <-> side_connected edges t u).
Proof. exact triplets_lemma. Qed.
Print Assumptions triplets_exact.

(** An instance of the std::sort contract, for the examples. *)
Definition by_size (v w : list triplet) : Prop := (length w <= length v)%nat.
Global Instance by_size_dec : RelDecision by_size.
Proof. intros v w. unfold by_size. apply _. Defined.
Global Instance by_size_total : Total by_size.
Proof. intros v w. unfold by_size. lia. Qed.
Global Instance by_size_trans : Transitive by_size.
Proof. intros v w x. unfold by_size. lia. Qed.
Definition merge_by_size : size_sort :=
  SizeSort (merge_sort by_size) (merge_sort_Permutation by_size) (StronglySorted_merge_sort by_size).

(** The condition a < b is needed: for other pairs the triplet is not in increasing order, and an edge
    given in both directions gives the same triangle twice. *)
Theorem triplets_unordered_refuted :
  extract_triplets ord_id ord_id ord_id ord_id merge_by_size [(5, 1); (1, 3); (3, 5)]%N [] =
    Ok (true, [[(1, 5, 3)%N]]) /\
  extract_triplets ord_id ord_id ord_id ord_id merge_by_size [(1, 2); (2, 1); (1, 3); (2, 3)]%N [] =
    Ok (true, [[(1, 2, 3)%N; (1, 2, 3)%N]]).
Proof. split; by vm_compute. Qed.
Print Assumptions triplets_unordered_refuted.

(** Non-vacuity: two groups, one of them with two triangles that share the side 1 - 3. *)
Example triplets_sample :
  let edges := [(7, 8); (0, 1); (1, 2); (8, 9); (2, 3); (0, 3); (1, 3); (7, 9); (3, 4)]%N in
  ordered_edges edges /\ fewer_triangles edges (2 ^ 32) /\
  extract_triplets ord_rev ord_id ord_rev ord_id merge_by_size edges [] =
    Ok (true, [[(0, 1, 3)%N; (1, 2, 3)%N]; [(7, 8, 9)%N]]).
Proof.
  set (edges := [(7, 8); (0, 1); (1, 2); (8, 9); (2, 3); (0, 3); (1, 3); (7, 9); (3, 4)]%N).
  split_and!.
  - split; [by apply (bool_decide_unpack _); vm_compute|].
    intros a b. unfold edges. rewrite !elem_of_cons, elem_of_nil. naive_solver lia.
  - intros ts Hnd Hts.
    assert (Hsub : forall t, t ∈ ts -> t ∈ (e ← edges; f ← edges; [(e.1, e.2, f.2)])).
    { intros [[x y] z] Ht. destruct (Hts _ Ht) as (_ & H1 & H2 & _).
      apply elem_of_list_bind. exists (x, y). split; [|done].
      apply elem_of_list_bind. exists (y, z). split; [|done]. by left. }
    pose proof (submseteq_length _ _ (NoDup_submseteq _ _ Hnd Hsub)) as Hl.
    assert (length (e ← edges; f ← edges; [(e.1, e.2, f.2)]) = 81%nat) as E by (by vm_compute).
    rewrite E in Hl. lia.
  - by vm_compute.
Qed.
