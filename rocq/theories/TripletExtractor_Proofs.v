(** Proofs about the triplet extractor. *)
From stdpp Require Import gmap sorting.
From Verif Require Import Base ConnectedComponents_Model ConnectedComponents_Spec ConnectedComponents_Proofs
  MinSpanningTree_Proofs TripletExtractor_Model TripletExtractor_Spec.

(** ** Adding a list of edges to a ConnectedComponents object and extracting *)

Lemma edges_of_adds (L : list (N * N)) : edges_of ((fun e => CAddEdge e.1 e.2) <$> L) = L.
Proof.
  induction L as [|[a b] L IH]; [done|]. unfold edges_of in *. rewrite fmap_cons, bind_cons, IH. done.
Qed.

Lemma cc_adds limit (L : list (N * N)) : exists c,
  run_steps (fun c e => cc_add_edge c e.1 e.2) (cc_default limit) L = Ok c /\
  cc_max c = limit /\ inv (cc_set c) (c_run limit L).
Proof.
  induction L as [|e L (c & Hrun & Hmax & Hinv)] using rev_ind.
  - exists (cc_default limit). split_and!; [done|done|]. apply inv_empty.
  - destruct (add_edge_inv c _ e.1 e.2 Hinv) as (m' & E & Hinv').
    exists (CC (cc_max c) m'). split_and!.
    + rewrite run_steps_app, Hrun. cbn [mbind outcome_bind run_steps]. by rewrite E.
    + done.
    + rewrite c_run_snoc, <-Hmax. simpl. by rewrite <-Hmax in Hinv'.
Qed.

Lemma cc_adds_extract limit (L : list (N * N)) : (N.of_nat (size (mentioned L)) <= limit)%N -> exists c,
  run_steps (fun c e => cc_add_edge c e.1 e.2) (cc_default limit) L = Ok c /\
  dom (cc_set c) = mentioned L /\
  forall order, order ≡ₚ elements (mentioned L) -> exists c' m, cc_extract c order = Ok (c', m) /\
    (forall X, (exists k, m !! k = Some X) <->
       exists a, a ∈ mentioned L /\ forall x, x ∈ X <-> reachable L a x) /\
    (forall k1 k2 X, m !! k1 = Some X -> m !! k2 = Some X -> k1 = k2).
Proof.
  intros Hcap. destruct (cc_adds limit L) as (c & Hrun & Hmax & Hinv).
  exists c. split; [done|]. split.
  { destruct Hinv as [d [Hd _]]. by rewrite Hd, dom_c_run. }
  intros order Hord.
  destruct (cc_after_extract limit ((fun e => CAddEdge e.1 e.2) <$> L) c order) as (c' & m & E & Hm).
  { split; [done|]. by rewrite edges_of_adds. }
  { by rewrite edges_of_adds. }
  rewrite edges_of_adds in Hm. destruct Hm as (H1 & H2 & H3).
  exists c', m. split; [done|]. split; [|done].
  intros X. rewrite <-(spec_adds_reach_classes limit) by done. split.
  - intros [k Hk]. by apply (H1 k).
  - apply H2.
Qed.

(** ** Finding the triangles *)

Lemma sort_triplet_sorted a b c : (a < b)%N -> c ≠ a -> c ≠ b ->
  exists x y z, sort_triplet (a, b, c) = (x, y, z) /\ (x < y < z)%N /\
    ((x, y, z) = (a, b, c) \/ (x, y, z) = (a, c, b) \/ (x, y, z) = (c, a, b)).
Proof.
  intros Hab Hca Hcb. unfold sort_triplet.
  destruct (decide (c < b)%N); [destruct (decide (c < a)%N)|destruct (decide (b < a)%N)].
  - exists c, a, b. split_and!; [done|lia|lia|auto].
  - exists a, c, b. split_and!; [done|lia|lia|auto].
  - lia.
  - exists a, b, c. split_and!; [done|lia|lia|auto].
Qed.

Definition ids_ok (ts : list triplet) (m : gmap edge (list N)) : Prop :=
  (forall p i, i ∈ m !!! p <-> exists t, ts !! N.to_nat i = Some t /\ p ∈ sides t) /\
  (forall p, m !! p ≠ Some []).

Lemma push_elem m p id q i : i ∈ push_edge m p id !!! q <-> i ∈ m !!! q \/ (q = p /\ i = id).
Proof.
  unfold push_edge. destruct (decide (q = p)) as [->|Hne].
  - rewrite lookup_total_insert, elem_of_app, elem_of_list_singleton. naive_solver.
  - rewrite lookup_total_insert_ne by done. naive_solver.
Qed.
Lemma push_nonempty m p id : (forall q, m !! q ≠ Some []) -> forall q, push_edge m p id !! q ≠ Some [].
Proof.
  intros Hm q. unfold push_edge. destruct (decide (q = p)) as [->|Hne].
  - rewrite lookup_insert. intros [= E]. by destruct (m !!! p).
  - by rewrite lookup_insert_ne.
Qed.

Lemma store_ok s a b c : ids_ok (tx_triplets s) (tx_edges s) ->
  (N.of_nat (length (tx_triplets s)) < 2 ^ 32)%N ->
  tx_triplets (store_triplet s a b c) = tx_triplets s ++ [sort_triplet (a, b, c)] /\
  ids_ok (tx_triplets (store_triplet s a b c)) (tx_edges (store_triplet s a b c)).
Proof.
  intros [Hids Hne] Hlen. unfold store_triplet.
  destruct (sort_triplet (a, b, c)) as [[x y] z] eqn:E. simpl. split; [done|].
  rewrite app_length. replace (length (tx_triplets s) + length [(x, y, z)] - 1)%nat with (length (tx_triplets s))
    by (simpl; lia).
  rewrite N.mod_small by done. split.
  - intros p i. rewrite !push_elem, Hids. split.
    + intros [[[(t & Ht & Hp)|[-> ->]]|[-> ->]]|[-> ->]].
      * exists t. split; [|done]. by apply lookup_app_l_Some.
      * exists (x, y, z). rewrite Nat2N.id, list_lookup_middle by done. split; [done|]. simpl. set_solver.
      * exists (x, y, z). rewrite Nat2N.id, list_lookup_middle by done. split; [done|]. simpl. set_solver.
      * exists (x, y, z). rewrite Nat2N.id, list_lookup_middle by done. split; [done|]. simpl. set_solver.
    + intros (t & [Ht|[Hle Ht]]%lookup_app_Some & Hp).
      * left; left; left. eauto.
      * destruct (N.to_nat i - length (tx_triplets s))%nat eqn:Ei; simpl in Ht; [|done].
        injection Ht as <-. assert (i = N.of_nat (length (tx_triplets s))) as -> by lia.
        unfold sides in Hp. rewrite !elem_of_cons, elem_of_nil in Hp. naive_solver.
  - repeat apply push_nonempty. done.
Qed.

Lemma store_all_ok s a b cs : ids_ok (tx_triplets s) (tx_edges s) ->
  (N.of_nat (length (tx_triplets s) + length cs) <= 2 ^ 32)%N ->
  let s' := foldl (fun s c => store_triplet s a b c) s cs in
  tx_triplets s' = tx_triplets s ++ ((fun c => sort_triplet (a, b, c)) <$> cs) /\
  ids_ok (tx_triplets s') (tx_edges s').
Proof.
  revert s. induction cs as [|c cs IH]; intros s Hi Hlen; simpl; [by rewrite app_nil_r|].
  simpl in Hlen. destruct (store_ok s a b c Hi) as [Ht Hi']; [lia|].
  destruct (IH (store_triplet s a b c) Hi') as [Ht' Hi'']; [rewrite Ht, app_length; simpl; lia|].
  split; [|done]. rewrite Ht', Ht, <-app_assoc. done.
Qed.

Definition adj_ok (g : gmap N (gset N)) (R : list edge) : Prop :=
  (forall x y, y ∈ g !!! x <-> linked R x y) /\
  (forall e, e ∈ R -> is_Some (g !! e.1) /\ is_Some (g !! e.2)).

Lemma is_Some_insert {A} (m : gmap N A) i j x : is_Some (m !! j) -> is_Some (<[i := x]> m !! j).
Proof. intros Hm. apply lookup_insert_is_Some. destruct (decide (i = j)); auto. Qed.

Lemma adjacency_ok R : adj_ok (adjacency R) R.
Proof.
  unfold adjacency. induction R as [|e R [IH1 IH2]] using rev_ind.
  - split; [|by intros e ?%elem_of_nil]. intros x y. simpl. rewrite lookup_total_alt, lookup_empty.
    split; [set_solver|]. unfold linked. rewrite !elem_of_nil. tauto.
  - rewrite foldl_app. simpl. set (g := foldl _ _ R) in *. split.
    + intros x y. unfold linked. rewrite !elem_of_app, !elem_of_list_singleton.
      specialize (IH1 x y). unfold linked in IH1.
      assert (Hg : forall k v (m : gmap N (gset N)) x, y ∈ <[k := {[v]} ∪ m !!! k]> m !!! x <->
                y ∈ m !!! x \/ (x = k /\ y = v)).
      { intros k v m x'. destruct (decide (x' = k)) as [->|].
        - rewrite lookup_total_insert, elem_of_union, elem_of_singleton. naive_solver.
        - rewrite lookup_total_insert_ne by done. naive_solver. }
      rewrite !Hg, IH1. destruct e as [a b]. simpl. naive_solver.
    + intros f [Hf| ->%elem_of_list_singleton]%elem_of_app.
      * destruct (IH2 f Hf) as [H1 H2].
        split; by repeat apply is_Some_insert.
      * split; [|rewrite lookup_insert; eauto].
        destruct (decide (e.2 = e.1)) as [->|]; [rewrite lookup_insert; eauto|].
        rewrite lookup_insert_ne, lookup_insert by done. eauto.
Qed.

Lemma adj_remove g e R : adj_ok g (e :: R) -> ordered_edges (e :: R) ->
  let g1 := <[e.1 := (g !!! e.1) ∖ {[e.2]}]> g in
  adj_ok (<[e.2 := (g1 !!! e.2) ∖ {[e.1]}]> g1) R.
Proof.
  intros [H1 H2] [Hnd Hord]. apply NoDup_cons in Hnd as [Hfresh Hnd]. destruct e as [a b]. simpl.
  assert (Hab : (a < b)%N) by (apply Hord; by left).
  split.
  - intros x y.
    assert (Hg : forall k v (m : gmap N (gset N)) x, y ∈ <[k := (m !!! k) ∖ {[v]}]> m !!! x <->
              y ∈ m !!! x /\ ~ (x = k /\ y = v)).
    { intros k v m x'. destruct (decide (x' = k)) as [->|].
      - rewrite lookup_total_insert, elem_of_difference, elem_of_singleton. naive_solver.
      - rewrite lookup_total_insert_ne by done. naive_solver. }
    rewrite !Hg, H1. unfold linked. rewrite !elem_of_cons.
    assert (Hba : (b, a) ∉ R).
    { intros Hin. assert (b < a)%N by (apply Hord; by right). lia. }
    split.
    + intros [[[[[= -> ->]|?]|[[= -> ->]|?]] Hn1] Hn2]; naive_solver.
    + intros Hl. split; [split|]; [naive_solver| |].
      * intros [-> ->]. destruct Hl; done.
      * intros [-> ->]. destruct Hl; done.
  - intros f Hf. destruct (H2 f) as [Ha Hb]; [by right|].
    split; by repeat apply is_Some_insert.
Qed.

(** The triangles that contain the edge a - b. *)
Lemma new_triangles g a b R : adj_ok g ((a, b) :: R) -> ordered_edges ((a, b) :: R) ->
  let common := merge_sort N.le (elements ((g !!! a) ∩ (g !!! b))) in
  let new := (fun c => sort_triplet (a, b, c)) <$> common in
  NoDup new /\
  (forall t, t ∈ new -> (a, b) ∈ sides t) /\
  (forall t, t ∈ new <-> triangle ((a, b) :: R) t /\ (a, b) ∈ sides t).
Proof.
  intros [Hadj _] [Hnd Hord] common new.
  assert (Hab : (a < b)%N) by (apply Hord; by left).
  assert (Hc : forall c, c ∈ common <-> linked ((a, b) :: R) a c /\ linked ((a, b) :: R) b c).
  { intros c. unfold common. rewrite merge_sort_Permutation, elem_of_elements, elem_of_intersection, !Hadj. done. }
  assert (Hne : forall c, c ∈ common -> c ≠ a /\ c ≠ b).
  { intros c [H1 H2]%Hc. split; intros ->.
    - destruct H1 as [H1|H1]; apply Hord in H1; lia.
    - destruct H2 as [H2|H2]; apply Hord in H2; lia. }
  assert (Hlink : forall x y, linked ((a, b) :: R) x y -> (x < y)%N -> (x, y) ∈ (a, b) :: R).
  { intros x y [?|H] Hlt; [done|]. apply Hord in H. lia. }
  assert (Hlink' : forall x y, linked ((a, b) :: R) x y -> (y < x)%N -> (y, x) ∈ (a, b) :: R).
  { intros x y [H|?] Hlt; [|done]. apply Hord in H. lia. }
  assert (Hin : forall t, t ∈ new -> triangle ((a, b) :: R) t /\ (a, b) ∈ sides t).
  { intros t (c & -> & Hcc)%elem_of_list_fmap. destruct (Hne c Hcc) as [Hca Hcb].
    apply Hc in Hcc as [H1 H2].
    destruct (sort_triplet_sorted a b c Hab Hca Hcb) as (x & y & z & -> & Hlt & Hcase).
    assert (H0 : (a, b) ∈ (a, b) :: R) by (by left).
    unfold triangle, sides.
    destruct Hcase as [[= -> -> ->]|[[= -> -> ->]|[= -> -> ->]]].
    - split; [split_and!; try lia; [done|apply Hlink|apply Hlink]; first [done|lia]|by left].
    - split; [split_and!; try lia; [apply Hlink|apply Hlink'|done]; first [done|lia]|right; by left].
    - split; [split_and!; try lia; [apply Hlink'|done|apply Hlink']; first [done|lia]|right; right; by left]. }
  split_and!.
  - apply NoDup_fmap_2_strong.
    + intros c d Hcc Hdd E. destruct (Hne c Hcc) as [Hca Hcb], (Hne d Hdd) as [Hda Hdb].
      destruct (sort_triplet_sorted a b c Hab Hca Hcb) as (x & y & z & E1 & Hlt & Hcase).
      destruct (sort_triplet_sorted a b d Hab Hda Hdb) as (x' & y' & z' & E2 & Hlt' & Hcase').
      rewrite E1, E2 in E. injection E as <- <- <-. naive_solver.
    + unfold common. rewrite merge_sort_Permutation. apply NoDup_elements.
  - intros t Ht. by apply Hin.
  - intros t. split; [apply Hin|]. intros [Htri Hs]. apply elem_of_list_fmap.
    destruct t as [[x y] z]. destruct Htri as (Hlt & H1 & H2 & H3).
    unfold sides in Hs. rewrite !elem_of_cons, elem_of_nil in Hs.
    assert (Hl : forall u v, (u, v) ∈ (a, b) :: R -> linked ((a, b) :: R) u v /\ linked ((a, b) :: R) v u).
    { intros u v Huv. split; [by left|by right]. }
    pose proof (Hl _ _ H1) as []. pose proof (Hl _ _ H2) as []. pose proof (Hl _ _ H3) as [].
    destruct Hs as [[= -> ->]|[[= -> ->]|[[= -> ->]|[]]]].
    + exists z. split; [|by apply Hc]. unfold sort_triplet. rewrite !decide_False by lia. done.
    + exists y. split; [|by apply Hc]. unfold sort_triplet. rewrite decide_True by lia. rewrite decide_False by lia. done.
    + exists x. split; [|by apply Hc]. unfold sort_triplet. rewrite decide_True by lia. rewrite decide_True by lia. done.
Qed.

Lemma triangle_split a b R t : (a, b) ∉ R ->
  triangle ((a, b) :: R) t <-> (triangle ((a, b) :: R) t /\ (a, b) ∈ sides t) \/ triangle R t.
Proof.
  intros Hf. destruct t as [[x y] z]. unfold triangle, sides.
  rewrite !elem_of_cons, elem_of_nil. split; [|naive_solver].
  intros (Hlt & H1 & H2 & H3).
  destruct (decide ((x, y) = (a, b))); [left; naive_solver|].
  destruct (decide ((y, z) = (a, b))); [left; naive_solver|].
  destruct (decide ((x, z) = (a, b))); [left; naive_solver|].
  right. naive_solver.
Qed.

Lemma triangle_sides R t p : triangle R t -> p ∈ sides t -> p ∈ R.
Proof.
  destruct t as [[x y] z]. unfold triangle, sides. rewrite !elem_of_cons, elem_of_nil. naive_solver.
Qed.

Lemma find_ok R : forall s g all,
  ordered_edges R -> adj_ok g R -> ids_ok (tx_triplets s) (tx_edges s) ->
  fewer_triangles all (2 ^ 32) ->
  (forall t, t ∈ tx_triplets s -> triangle all t) -> NoDup (tx_triplets s) ->
  (forall t, triangle R t -> triangle all t /\ t ∉ tx_triplets s) ->
  exists s' g', run_steps find_step (s, g) R = Ok (s', g') /\
    ids_ok (tx_triplets s') (tx_edges s') /\ NoDup (tx_triplets s') /\
    (forall t, t ∈ tx_triplets s' <-> t ∈ tx_triplets s \/ triangle R t).
Proof.
  induction R as [|e R IH]; intros s g all Hord Hadj Hids Hfew Hall Hnd Hnew.
  { exists s, g. split_and!; try done. intros t. split; [by left|]. intros [?|Ht]; [done|].
    destruct t as [[x y] z]. destruct Ht as (_ & Hn & _). by apply elem_of_nil in Hn. }
  cbn [run_steps]. unfold find_step at 2.
  destruct (proj2 Hadj e) as [[n1 Hn1] [n2 Hn2]]; [by left|].
  rewrite Hn1, Hn2. cbn [or_die mbind outcome_bind].
  destruct e as [a b]. cbn [fst snd] in *.
  destruct (new_triangles g a b R Hadj Hord) as (Hnd' & Hside & Hiff).
  rewrite !(lookup_total_correct _ _ _ Hn1), !(lookup_total_correct _ _ _ Hn2) in *.
  set (common := merge_sort N.le (elements (n1 ∩ n2))) in *.
  set (new := (fun c => sort_triplet (a, b, c)) <$> common) in *.
  assert (Hfresh : (a, b) ∉ R) by (by destruct Hord as [[? _]%NoDup_cons _]).
  assert (Hord' : ordered_edges R).
  { destruct Hord as [[_ ?]%NoDup_cons Ho]. split; [done|]. intros x y Hxy. apply Ho. by right. }
  assert (Hndall : NoDup (tx_triplets s ++ new)).
  { apply NoDup_app. split_and!; [done| |done]. intros t Ht Htn. apply Hiff in Htn as [Htri _].
    by apply Hnew in Htri as [_ ?]. }
  destruct (store_all_ok s a b common Hids) as [Hts Hids'].
  { rewrite <-(fmap_length (fun c => sort_triplet (a, b, c)) common), <-app_length. fold new.
    assert (N.of_nat (length (tx_triplets s ++ new)) < 2 ^ 32)%N; [|lia].
    apply Hfew; [done|]. intros t [?|Ht]%elem_of_app; [by apply Hall|]. by apply Hnew, Hiff. }
  fold new in Hts. cbn zeta in Hids', Hts.
  set (s1 := foldl _ s common) in *.
  pose proof (adj_remove g (a, b) R Hadj Hord) as Hadj'. cbn [fst snd] in Hadj'.
  rewrite (lookup_total_correct _ _ _ Hn1) in Hadj'.
  destruct (IH s1 _ all Hord' Hadj' Hids' Hfew) as (s' & g' & Hrun & Hi & Hn & Ht).
  { rewrite Hts. intros t [?|Ht]%elem_of_app; [by apply Hall|]. by apply Hnew, Hiff. }
  { by rewrite Hts. }
  { intros t Ht. assert (Ht' : triangle ((a, b) :: R) t) by (apply triangle_split; auto).
    destruct (Hnew t Ht') as [? ?]. split; [done|]. rewrite Hts. intros [?|Hin]%elem_of_app; [done|].
    apply Hside in Hin. apply Hfresh. by eapply triangle_sides. }
  exists s', g'. split; [exact Hrun|]. split; [done|]. split; [done|].
  intros t. rewrite Ht, Hts, elem_of_app, (triangle_split a b R t Hfresh), Hiff. tauto.
Qed.

Lemma find_triplets_ok edges : ordered_edges edges -> fewer_triangles edges (2 ^ 32) ->
  exists s, find_triplets edges = Ok s /\ ids_ok (tx_triplets s) (tx_edges s) /\ NoDup (tx_triplets s) /\
    forall t, t ∈ tx_triplets s <-> triangle edges t.
Proof.
  intros Hord Hfew. unfold find_triplets.
  destruct (find_ok edges (TX [] ∅) (adjacency edges) edges Hord (adjacency_ok edges)) as (s & g & -> & Hi & Hn & Ht).
  - split; [|done]. intros p i. simpl. rewrite lookup_total_alt, lookup_empty. split; [by intros ?%elem_of_nil|].
    intros (t & Ht & _). by rewrite lookup_nil in Ht.
  - done.
  - by intros t ?%elem_of_nil.
  - constructor.
  - intros t Ht. split; [done|]. simpl. by intros ?%elem_of_nil.
  - exists s. split_and!; [done|done|done|]. intros t. rewrite Ht. simpl. rewrite elem_of_nil. tauto.
Qed.

(** ** Grouping *)

Definition links (l : list N) : list (N * N) := match l with [x] => [(x, x)] | _ => chain l end.

Lemma entry_links_ok l : l ≠ [] -> entry_links l = Ok (links l).
Proof. by destruct l as [|x [|y l]]. Qed.

Lemma link_steps c ls : (forall l, l ∈ ls -> l ≠ []) ->
  run_steps link_step c ls = run_steps (fun c e => cc_add_edge c e.1 e.2) c (ls ≫= links).
Proof.
  revert c. induction ls as [|l ls IH]; intros c Hne; [done|].
  cbn [run_steps mbind list_bind]. rewrite run_steps_app. unfold link_step at 2.
  rewrite entry_links_ok by (apply Hne; by left). cbn [mbind outcome_bind].
  destruct (run_steps _ c (links l)); cbn [mbind outcome_bind]; try done.
  apply IH. intros l' Hl'. apply Hne. by right.
Qed.

Lemma chain_elem l x y : (x, y) ∈ chain l -> x ∈ l /\ y ∈ l.
Proof.
  induction l as [|a l IH]; simpl; [by intros ?%elem_of_nil|].
  destruct l as [|b l]; [by intros ?%elem_of_nil|].
  intros [[= -> ->]|Hin]%elem_of_cons.
  - split; [by left|right; by left].
  - destruct (IH Hin). split; by right.
Qed.
Lemma links_elem l x y : (x, y) ∈ links l -> x ∈ l /\ y ∈ l.
Proof.
  destruct l as [|a [|b l]]; [by intros ?%elem_of_nil| |apply chain_elem].
  simpl. intros [= -> ->]%elem_of_list_singleton. set_solver.
Qed.

Lemma chain_reach L l x y : (forall e, e ∈ chain l -> e ∈ L) -> x ∈ l -> y ∈ l -> reachable L x y.
Proof.
  intros HL. assert (Hh : forall l a, (forall e, e ∈ chain (a :: l) -> e ∈ L) -> forall z, z ∈ a :: l -> reachable L a z).
  { clear. induction l as [|b l IH]; intros a HL z Hz.
    - apply elem_of_list_singleton in Hz as ->. apply reach_refl.
    - apply elem_of_cons in Hz as [->|Hz]; [apply reach_refl|].
      apply reach_trans with b.
      + apply (reach_edge _ (a, b)), HL. simpl. by left.
      + apply IH; [|done]. intros e He. apply HL. simpl. by right. }
  destruct l as [|a l]; [by intros ?%elem_of_nil|]. intros Hx Hy.
  eapply reach_trans; [apply reach_sym|]; eapply Hh; done.
Qed.
Lemma links_reach L l x y : (forall e, e ∈ links l -> e ∈ L) -> x ∈ l -> y ∈ l -> reachable L x y.
Proof.
  destruct l as [|a [|b l]]; [by intros _ ?%elem_of_nil| |apply chain_reach].
  intros _ ->%elem_of_list_singleton ->%elem_of_list_singleton. apply reach_refl.
Qed.
Lemma links_mentioned L l x : (forall e, e ∈ links l -> e ∈ L) -> x ∈ l -> x ∈ mentioned L.
Proof.
  intros HL Hx. unfold mentioned. apply elem_of_list_to_set, elem_of_list_bind.
  assert (exists e, e ∈ links l /\ (x = e.1 \/ x = e.2)) as (e & He & Hxe).
  { destruct l as [|a [|b l]]; [by apply elem_of_nil in Hx| |].
    - apply elem_of_list_singleton in Hx as ->. exists (a, a). split; [by left|by left].
    - change (links (a :: b :: l)) with (chain (a :: b :: l)). clear HL. revert a b Hx.
      induction l as [|c l IH]; intros a b Hx.
      + exists (a, b). split; [by left|]. rewrite !elem_of_cons, elem_of_nil in Hx. simpl. tauto.
      + apply elem_of_cons in Hx as [->|Hx].
        * exists (a, b). split; [by left|by left].
        * destruct (IH b c Hx) as (e & He & Hxe). exists e. split; [|done]. simpl. by right. }
  exists e. split; [|by apply HL]. rewrite !elem_of_cons, elem_of_nil. tauto.
Qed.

(** Ids are linked exactly as the triplets are. *)
Section ids.
  Context (edges : list edge) (s : tx).
  Context (Hids : ids_ok (tx_triplets s) (tx_edges s)).
  Context (Hnd : NoDup (tx_triplets s)).
  Context (Htri : forall t, t ∈ tx_triplets s <-> triangle edges t).
  Context (ents : list (edge * list N)) (Hents : ents ≡ₚ map_to_list (tx_edges s)).
  Let L := ents.*2 ≫= links.
  Let at_ (i : N) (t : triplet) : Prop := tx_triplets s !! N.to_nat i = Some t.

  Lemma entry_in p l : (p, l) ∈ ents <-> tx_edges s !! p = Some l.
  Proof. by rewrite Hents, elem_of_map_to_list. Qed.

  Lemma entry_links_in p l e : tx_edges s !! p = Some l -> e ∈ links l -> e ∈ L.
  Proof.
    intros Hp He. unfold L. apply elem_of_list_bind. exists l. split; [done|].
    apply elem_of_list_fmap. exists (p, l). split; [done|]. by apply entry_in.
  Qed.

  Lemma L_elem x y : (x, y) ∈ L -> exists p t u, at_ x t /\ at_ y u /\ p ∈ sides t /\ p ∈ sides u.
  Proof.
    unfold L. intros (l & Hxy & ([p l'] & -> & Hp%entry_in)%elem_of_list_fmap)%elem_of_list_bind.
    apply links_elem in Hxy as [Hx Hy]. simpl in *.
    rewrite <-(lookup_total_correct _ _ _ Hp) in Hx, Hy. apply (proj1 Hids) in Hx as (t & ? & ?), Hy as (u & ? & ?).
    exists p, t, u. done.
  Qed.

  Lemma side_entry i t p : at_ i t -> p ∈ sides t -> exists l, tx_edges s !! p = Some l /\ i ∈ l.
  Proof.
    intros Hi Hp. assert (Hin : i ∈ tx_edges s !!! p) by (apply (proj1 Hids); eauto).
    rewrite lookup_total_alt in Hin. destruct (tx_edges s !! p) as [l|]; [eauto|]. by apply elem_of_nil in Hin.
  Qed.

  Lemma L_mentioned i : i ∈ mentioned L <-> exists t, at_ i t.
  Proof.
    split.
    - unfold mentioned. intros (e & Hi & He)%elem_of_list_to_set%elem_of_list_bind.
      destruct e as [x y]. apply L_elem in He as (p & t & u & ? & ? & _).
      rewrite !elem_of_cons, elem_of_nil in Hi. simpl in Hi. destruct Hi as [->|[->|[]]]; eauto.
    - intros [t Ht]. destruct t as [[x y] z].
      destruct (side_entry i (x, y, z) (x, y) Ht) as (l & Hl & Hi); [by left|].
      eapply links_mentioned; [|exact Hi]. intros e. by eapply entry_links_in.
  Qed.

  Lemma L_reach i j t u : at_ i t -> at_ j u -> reachable L i j <-> side_connected edges t u.
  Proof.
    intros Hi Hj. split.
    - intros Hr. revert t Hi. induction Hr as [i|i k j Hik _ IH]; intros t Hi.
      + unfold at_ in *. rewrite Hi in Hj. injection Hj as ->. apply rtc_refl.
      + assert (exists p t' v, at_ i t' /\ at_ k v /\ p ∈ sides t' /\ p ∈ sides v) as (p & t' & v & Hi' & Hk & Hp & Hp').
        { destruct Hik as [H|H]; apply L_elem in H as (p & t1 & t2 & ? & ? & ? & ?).
          - exists p, t1, t2. done.
          - exists p, t2, t1. done. }
        unfold at_ in *. rewrite Hi in Hi'. injection Hi' as <-.
        eapply rtc_l; [|by apply IH]. split_and!.
        * apply Htri. by eapply elem_of_list_lookup_2.
        * apply Htri. by eapply elem_of_list_lookup_2.
        * by exists p.
    - intros Hc. revert i Hi. induction Hc as [t|t v u (Ht & Hv & p & Hp & Hp') _ IH]; intros i Hi.
      + unfold at_ in *. pose proof (NoDup_lookup _ _ _ _ Hnd Hi Hj) as E%N2Nat.inj. subst. apply reach_refl.
      + apply Htri, elem_of_list_lookup in Hv as [k Hk].
        assert (Hk' : at_ (N.of_nat k) v) by (unfold at_; by rewrite Nat2N.id).
        eapply reach_trans; [|by apply (IH Hj _ Hk')].
        destruct (side_entry i t p Hi Hp) as (l & Hl & Hil).
        destruct (side_entry _ v p Hk' Hp') as (l' & Hl' & Hkl).
        rewrite Hl in Hl'. injection Hl' as <-.
        eapply links_reach; [|exact Hil|exact Hkl]. intros e. by eapply entry_links_in.
  Qed.

  Lemma L_size : (size (mentioned L) <= length (tx_triplets s))%nat.
  Proof.
    transitivity (size (list_to_set (N.of_nat <$> seq 0 (length (tx_triplets s))) : gset N)).
    - apply subseteq_size. intros i [t Ht]%L_mentioned. apply elem_of_list_to_set, elem_of_list_fmap.
      exists (N.to_nat i). split; [lia|]. apply elem_of_seq. apply lookup_lt_Some in Ht. lia.
    - rewrite size_list_to_set; [by rewrite fmap_length, seq_length|].
      apply NoDup_fmap_2; [|apply NoDup_seq]. intros x y. lia.
  Qed.

  Lemma ents_nonempty l : l ∈ ents.*2 -> l ≠ [].
  Proof.
    intros ([p l'] & E & Hp%entry_in)%elem_of_list_fmap E'. simpl in E. subst. by apply (proj2 Hids p).
  Qed.
End ids.

Definition trip (s : tx) (i : N) : triplet := default (0, 0, 0)%N (tx_triplets s !! N.to_nat i).

Lemma group_of_ok ord_i s (X : gset N) : (forall i, i ∈ X -> is_Some (tx_triplets s !! N.to_nat i)) ->
  group_of ord_i s X = Ok (trip s <$> ord_i (elements X)).
Proof.
  intros HX. unfold group_of.
  assert (Hl : forall i, i ∈ ord_i (elements X) -> is_Some (tx_triplets s !! N.to_nat i)).
  { intros i. rewrite ord_perm, elem_of_elements. apply HX. }
  revert Hl. generalize (ord_i (elements X)) as l. induction l as [|i l IH]; intros Hl; [done|].
  destruct (Hl i) as [t Ht]; [by left|]. rewrite Ht. cbn [or_ub mbind outcome_bind].
  rewrite IH by (intros; apply Hl; by right). cbn [mbind outcome_bind]. unfold trip at 2. simpl.
  unfold trip at 1. by rewrite Ht.
Qed.

Lemma groups_of_ok ord_i s (l : list (N * gset N)) :
  (forall kv i, kv ∈ l -> i ∈ kv.2 -> is_Some (tx_triplets s !! N.to_nat i)) ->
  groups_of ord_i s l = Ok ((fun kv => trip s <$> ord_i (elements kv.2)) <$> l).
Proof.
  induction l as [|kv l IH]; intros Hl; [done|]. simpl.
  rewrite group_of_ok by (intros i; apply Hl; by left). cbn [mbind outcome_bind].
  rewrite IH by (intros ? i ?; apply Hl; by right). done.
Qed.

Lemma nodup_join (ord_i : order N) (l : list (N * gset N)) :
  NoDup l -> (forall kv kv' i, kv ∈ l -> kv' ∈ l -> i ∈ kv.2 -> i ∈ kv'.2 -> kv = kv') ->
  NoDup (l ≫= fun kv => ord_i (elements kv.2)).
Proof.
  induction l as [|kv l IH]; intros Hnd Hd; simpl; [constructor|].
  apply NoDup_cons in Hnd as [Hf Hnd]. apply NoDup_app. split_and!.
  - rewrite ord_perm. apply NoDup_elements.
  - intros i Hi (kv' & Hi' & Hkv')%elem_of_list_bind. rewrite ord_perm, elem_of_elements in Hi, Hi'.
    assert (kv = kv') as <- by (eapply Hd; [by left|by right|done|done]). done.
  - apply IH; [done|]. intros ????? . apply Hd; by right.
Qed.

Lemma join_map {A B} (f : A -> B) (g : N * gset N -> list A) l :
  mjoin ((fun kv => f <$> g kv) <$> l) = f <$> (l ≫= g).
Proof. induction l as [|kv l IH]; [done|]. rewrite bind_cons, fmap_app, <-IH. done. Qed.

Lemma triplets_lemma ord_e ord_c ord_g ord_i srt edges out :
  ordered_edges edges -> fewer_triangles edges (2 ^ 32) ->
  exists gs res, extract_triplets ord_e ord_c ord_g ord_i srt edges out = Ok (true, res) /\
    res ≡ₚ out ++ gs /\ StronglySorted (fun v w => length w <= length v)%nat res /\
    NoDup (mjoin gs) /\ [] ∉ gs /\
    (forall t, t ∈ mjoin gs <-> triangle edges t) /\
    (forall t u, triangle edges t -> triangle edges u ->
       (exists g, g ∈ gs /\ t ∈ g /\ u ∈ g) <-> side_connected edges t u).
Proof.
  intros Hord Hfew. unfold extract_triplets.
  destruct (find_triplets_ok edges Hord Hfew) as (s & -> & Hids & Hnd & Htri).
  cbn [mbind outcome_bind]. unfold connected_triplet_graphs.
  set (ents := ord_e (map_to_list (tx_edges s))).
  assert (Hents : ents ≡ₚ map_to_list (tx_edges s)) by apply ord_perm.
  rewrite link_steps by (intros l; by eapply ents_nonempty).
  set (L := ents.*2 ≫= links).
  assert (Hlen : (N.of_nat (length (tx_triplets s)) < 2 ^ 32)%N).
  { apply Hfew; [done|]. intros t. by rewrite Htri. }
  destruct (cc_adds_extract (2 ^ 32 - 1) L) as (c & -> & Hdom & Hext).
  { pose proof (L_size s Hids ents Hents) as Hs. fold L in Hs. lia. }
  cbn [mbind outcome_bind].
  destruct (Hext (ord_c (elements (dom (cc_set c))))) as (c' & m & -> & Hm & Hinj).
  { by rewrite ord_perm, Hdom. }
  cbn [mbind outcome_bind].
  set (l := ord_g (map_to_list m)).
  assert (Hl : forall k X, (k, X) ∈ l <-> m !! k = Some X).
  { intros k X. unfold l. by rewrite ord_perm, elem_of_map_to_list. }
  assert (Hment : forall i, i ∈ mentioned L <-> exists t, tx_triplets s !! N.to_nat i = Some t).
  { intros i. by apply L_mentioned. }
  assert (Hreach : forall i j t u, tx_triplets s !! N.to_nat i = Some t -> tx_triplets s !! N.to_nat j = Some u ->
            reachable L i j <-> side_connected edges t u).
  { intros i j t u Hi Hj. eapply (L_reach edges s Hids Hnd Htri ents Hents); done. }
  assert (Hclosed : forall i j, i ∈ mentioned L -> reachable L i j -> j ∈ mentioned L).
  { intros i j Hi Hr. destruct (decide (i = j)) as [->|Hne]; [done|]. by apply (reach_mentioned L i j Hr Hne). }
  assert (Hvalid : forall kv i, kv ∈ l -> i ∈ kv.2 -> is_Some (tx_triplets s !! N.to_nat i)).
  { intros [k X] i Hk%Hl Hi. simpl in Hi. destruct (proj1 (Hm X) (ex_intro _ k Hk)) as (a & Ha & HX).
    apply HX in Hi. apply Hment. by apply (Hclosed a). }
  rewrite groups_of_ok by exact Hvalid. cbn [mbind outcome_bind].
  set (gs := (fun kv => trip s <$> ord_i (elements kv.2)) <$> l).
  exists gs, (ss_sort srt (out ++ gs)). split; [done|]. split; [apply ss_perm|]. split; [apply ss_sorted|].
  assert (Hdis : forall kv kv' i, kv ∈ l -> kv' ∈ l -> i ∈ kv.2 -> i ∈ kv'.2 -> kv = kv').
  { intros [k X] [k' X'] i Hk%Hl Hk'%Hl Hi Hi'. simpl in *.
    destruct (proj1 (Hm X) (ex_intro _ k Hk)) as (a & Ha & HX).
    destruct (proj1 (Hm X') (ex_intro _ k' Hk')) as (a' & Ha' & HX').
    assert (X = X') as <-.
    { apply set_eq. intros x. rewrite HX, HX'. apply HX in Hi. apply HX' in Hi'.
      split; intros Hr; eapply reach_trans; try exact Hr.
      - eapply reach_trans; [exact Hi'|]. by apply reach_sym.
      - eapply reach_trans; [exact Hi|]. by apply reach_sym. }
    by rewrite (Hinj k k' X Hk Hk'). }
  assert (Htrip : forall i t, tx_triplets s !! N.to_nat i = Some t -> trip s i = t).
  { intros i t Ht. unfold trip. by rewrite Ht. }
  assert (Hgs : forall g, g ∈ gs <-> exists k X, m !! k = Some X /\ g = trip s <$> ord_i (elements X)).
  { intros g. unfold gs. rewrite elem_of_list_fmap. split.
    - intros ([k X] & -> & Hk%Hl). eauto.
    - intros (k & X & Hk & ->). exists (k, X). split; [done|]. by apply Hl. }
  assert (Hin : forall k X t, m !! k = Some X ->
            t ∈ trip s <$> ord_i (elements X) <-> exists i, i ∈ X /\ tx_triplets s !! N.to_nat i = Some t).
  { intros k X t Hk. rewrite elem_of_list_fmap. split.
    - intros (i & -> & Hi). rewrite ord_perm, elem_of_elements in Hi. exists i. split; [done|].
      destruct (Hvalid (k, X) i) as [t Ht]; [by apply Hl|done|]. by rewrite (Htrip _ _ Ht).
    - intros (i & Hi & Ht). exists i. split; [by rewrite (Htrip _ _ Ht)|]. by rewrite ord_perm, elem_of_elements. }
  split_and!.
  - unfold gs. rewrite join_map. apply NoDup_fmap_2_strong.
    + intros i j (kv & Hi & Hkv)%elem_of_list_bind (kv' & Hj & Hkv')%elem_of_list_bind E.
      rewrite ord_perm, elem_of_elements in Hi, Hj.
      destruct (Hvalid kv i Hkv Hi) as [t Ht], (Hvalid kv' j Hkv' Hj) as [u Hu].
      rewrite (Htrip _ _ Ht), (Htrip _ _ Hu) in E. subst u.
      apply N2Nat.inj. by eapply NoDup_lookup.
    + apply nodup_join; [|exact Hdis]. unfold l. rewrite ord_perm. apply NoDup_map_to_list.
  - intros Hempty. apply Hgs in Hempty as (k & X & Hk & E).
    destruct (proj1 (Hm X) (ex_intro _ k Hk)) as (a & Ha & HX).
    destruct (proj1 (Hment a) Ha) as [t Ht].
    assert (Hc : t ∈ trip s <$> ord_i (elements X)).
    { apply (Hin k X t Hk). exists a. split; [|done]. apply HX, reach_refl. }
    rewrite <-E in Hc. by apply elem_of_nil in Hc.
  - intros t. rewrite elem_of_list_join. split.
    + intros (g & Ht & (k & X & Hk & ->)%Hgs). apply (Hin k X t Hk) in Ht as (i & _ & Hi).
      apply Htri. by eapply elem_of_list_lookup_2.
    + intros Ht. apply Htri, elem_of_list_lookup in Ht as [i Hi].
      assert (Ha : N.of_nat i ∈ mentioned L) by (apply Hment; rewrite Nat2N.id; eauto).
      destruct (proj2 (Hm (list_to_set (filter (fun x => rep L (N.of_nat i) = rep L x) (elements (mentioned L))))))
        as [k Hk].
      { exists (N.of_nat i). split; [done|]. intros x. rewrite elem_of_list_to_set, elem_of_list_filter, elem_of_elements.
        rewrite rep_iff. split; [tauto|]. intros Hr. split; [done|]. apply rep_iff in Hr. by apply (Hclosed _ _ Ha). }
      eexists. split; [|apply Hgs; eexists k, _; split; [exact Hk|done]].
      apply (Hin k _ t Hk). exists (N.of_nat i). split; [|by rewrite Nat2N.id].
      by rewrite elem_of_list_to_set, elem_of_list_filter, elem_of_elements.
  - intros t u Ht Hu. split.
    + intros (g & (k & X & Hk & ->)%Hgs & H1 & H2).
      apply (Hin k X _ Hk) in H1 as (i & HiX & Hi), H2 as (j & HjX & Hj).
      apply (Hreach i j t u Hi Hj).
      destruct (proj1 (Hm X) (ex_intro _ k Hk)) as (a & Ha & HX).
      apply HX in HiX, HjX. eapply reach_trans; [by apply reach_sym|done].
    + intros Hc. apply Htri, elem_of_list_lookup in Ht as [i Hi]. apply Htri, elem_of_list_lookup in Hu as [j Hj].
      assert (Hr : reachable L (N.of_nat i) (N.of_nat j)) by (eapply Hreach; rewrite ?Nat2N.id; done).
      assert (Ha : N.of_nat i ∈ mentioned L) by (apply Hment; rewrite Nat2N.id; eauto).
      set (X := list_to_set (filter (fun x => rep L (N.of_nat i) = rep L x) (elements (mentioned L))) : gset N).
      assert (HX : forall x, x ∈ X <-> reachable L (N.of_nat i) x).
      { intros x. unfold X. rewrite elem_of_list_to_set, elem_of_list_filter, elem_of_elements.
        rewrite rep_iff. split; [tauto|]. intros Hr'. split; [done|]. apply rep_iff in Hr'. by apply (Hclosed _ _ Ha). }
      destruct (proj2 (Hm X)) as [k Hk]; [by exists (N.of_nat i)|].
      eexists. split; [apply Hgs; eexists k, _; split; [exact Hk|done]|].
      split; apply (Hin k _ _ Hk).
      * exists (N.of_nat i). split; [apply HX, reach_refl|by rewrite Nat2N.id].
      * exists (N.of_nat j). split; [by apply HX|by rewrite Nat2N.id].
Qed.
