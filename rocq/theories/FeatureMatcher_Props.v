(** Properties of the feature matcher. *)
From stdpp Require Import gmap strings.
From Verif Require Import Base FeatureMatcher_Model FeatureMatcher_Proofs ThreadPool_Model ThreadPool_Props.

(** C21 (splitting).  For every number of pairs and threads the index ranges given to the pool are
    non-empty, have at most 20 indices, and together list every index once. *)
Theorem feature_matcher_chunks : forall (n : nat) (threads : Z),
  (1 <= n)%nat -> (Z.of_nat n + 20 < 2 ^ 31)%Z -> (1 <= threads)%Z ->
  exists cs, chunks n threads = Ok cs /\ concat (map indices cs) = seq 0 n /\
    Forall (fun c => (0 <= c.1 < c.2 /\ c.2 <= Z.of_nat n /\ c.2 - c.1 <= 20)%Z) cs.
Proof. exact chunks_ok. Qed.
Print Assumptions feature_matcher_chunks.

(** C21 (with the pool).  Whatever the pool's schedule, when its destructor has returned the chunks that
    were run contain every index once. *)
Theorem feature_matcher_pool : forall (n : nat) (threads : Z) cs workers (s : pool (Z * Z)),
  (1 <= n)%nat -> (Z.of_nat n + 20 < 2 ^ 31)%Z -> (1 <= threads)%Z -> chunks n threads = Ok cs ->
  reachable workers s -> p_dtor s = DDone -> p_added s = cs ->
  concat (map indices (p_finished s)) ≡ₚ seq 0 n.
Proof.
  intros n threads cs workers s Hn Hb Ht Hcs Hr Hd Ha.
  destruct (chunks_ok n threads Hn Hb Ht) as (cs' & Hcs' & <- & _).
  assert (cs' = cs) as -> by congruence.
  destruct (thread_pool_destructor _ _ _ Hr Hd) as (Hp & _). rewrite Ha in Hp.
  rewrite <-!flat_map_concat_map. by apply Permutation_flat_map.
Qed.
Print Assumptions feature_matcher_pool.

(** C21 (requested pairs).  After SetImagePairsToMatch with distinct pairs of images that have features,
    MatchImages stores the result of every requested pair that matches, leaves every other stored match
    alone, and does so in whatever order the pairs are handled. *)
Theorem match_images_requested : forall (R : Type) (threads : Z) (sched : list nat -> list nat)
    (features : gset name) (result : nat -> option R) (names : list name) (pairs : list image_pair)
    (db : gmap image_pair R),
  (1 <= threads)%Z -> (1 <= length pairs)%nat -> (Z.of_nat (length pairs) + 20 < 2 ^ 31)%Z ->
  (forall l, sched l ≡ₚ l) -> NoDup pairs ->
  (forall p, p ∈ pairs -> p.1 ∈ features /\ p.2 ∈ features) ->
  exists db', match_images threads sched features result (Matcher names pairs) db =
      Ok (Matcher names pairs, db') /\
    (forall i p, pairs !! i = Some p ->
       db' !! p = match result i with Some r => Some r | None => db !! p end) /\
    (forall p, p ∉ pairs -> db' !! p = db !! p).
Proof. exact @match_images_pairs. Qed.
Print Assumptions match_images_requested.

(** C21 (all pairs).  Without requested pairs, the first MatchImages handles every two different images
    (in the order they were added) once. *)
Theorem match_images_all : forall (R : Type) (threads : Z) (sched : list nat -> list nat)
    (features : gset name) (result : nat -> option R) (names : list name) (db : gmap image_pair R),
  (1 <= threads)%Z -> (2 <= length names)%nat ->
  (Z.of_nat (length names) * (Z.of_nat (length names) - 1) / 2 + 20 < 2 ^ 31)%Z ->
  (forall l, sched l ≡ₚ l) -> NoDup names -> (forall n, n ∈ names -> n ∈ features) ->
  exists pairs db', match_images threads sched features result (Matcher names []) db =
      Ok (Matcher names pairs, db') /\
    NoDup pairs /\
    (forall a b, (a, b) ∈ pairs <-> exists i j, (i < j)%nat /\ names !! i = Some a /\ names !! j = Some b) /\
    (forall i p, pairs !! i = Some p ->
       db' !! p = match result i with Some r => Some r | None => db !! p end) /\
    (forall p, p ∉ pairs -> db' !! p = db !! p).
Proof.
  intros R threads sched features result names db Ht Hn Hb Hs Hnd Hf.
  pose proof (all_pairs_length names) as Hlen.
  assert (Hlz : (Z.of_nat (length names) * (Z.of_nat (length names) - 1) = 2 * Z.of_nat (length (all_pairs names)))%Z) by nia.
  rewrite Hlz, Z.mul_comm, Z.div_mul in Hb by lia.
  destruct (match_images_pairs threads sched features result names (all_pairs names) db) as (db' & E & H1 & H2);
    [done|nia|done|done|by apply all_pairs_NoDup| |].
  { intros [a b] (i & j & _ & Hi & Hj)%elem_of_all_pairs.
    split; apply Hf; by eapply elem_of_list_lookup_2. }
  exists (all_pairs names), db'. split.
  - rewrite <-E. unfold match_images. cbn [fm_pairs fm_names].
    unfold select_all_pairs. rewrite Hlz. rewrite (Z.mod_small (2 * _)) by lia.
    rewrite Z.mul_comm, Z.div_mul by lia. rewrite to_int_small by lia. rewrite bool_decide_eq_true_2 by lia.
    cbn [check mbind outcome_bind]. destruct (all_pairs names) eqn:Ep; [simpl in *; nia|]. done.
  - split; [by apply all_pairs_NoDup|]. split; [apply elem_of_all_pairs|]. done.
Qed.
Print Assumptions match_images_all.

(** C21 (nothing to match).  With fewer than two images and no requested pairs, or without a positive
    number of threads, the call aborts. *)
Theorem match_images_nothing : forall (R : Type) (threads : Z) sched features (result : nat -> option R)
    (names : list name) db,
  (length names < 2)%nat -> match_images threads sched features result (Matcher names []) db = CheckFail.
Proof.
  intros R threads sched features result names db Hn. unfold match_images. cbn [fm_pairs fm_names].
  destruct names as [|a [|b l]]; simpl in Hn; [| |lia].
  - replace (select_all_pairs []) with (Ok ([] : list image_pair)) by done. cbn [mbind outcome_bind length].
    by rewrite chunks_fail by lia.
  - replace (select_all_pairs [a]) with (Ok ([] : list image_pair)) by done. cbn [mbind outcome_bind length].
    by rewrite chunks_fail by lia.
Qed.
Print Assumptions match_images_nothing.

Theorem match_images_no_threads : forall (R : Type) (threads : Z) sched features (result : nat -> option R)
    (names : list name) pairs db,
  (threads < 1)%Z -> (1 <= length pairs)%nat -> (Z.of_nat (length pairs) + 20 < 2 ^ 31)%Z ->
  match_images threads sched features result (Matcher names pairs) db = CheckFail.
Proof.
  intros R threads sched features result names pairs db Ht Hn Hb. unfold match_images. cbn [fm_pairs fm_names].
  destruct pairs as [|p l]; [simpl in Hn; lia|]. cbn [mbind outcome_bind].
  by rewrite chunks_fail by (try done; by right).
Qed.
Print Assumptions match_images_no_threads.

(** C49 is false of the code: feature_matcher.h:100-104 promises that without SetImagePairsToMatch all
    image pairs are matched; a second MatchImages does not match images added after the first one. *)
Theorem match_images_again_refuted : exists (names : list name) (extra : name) m1 db1 m2 db2,
  match_images 4 (fun l => l) {["a"; "b"; "c"]} (fun i => Some i) (add_images fm_new names) ∅ = Ok (m1, db1) /\
  match_images 4 (fun l => l) {["a"; "b"; "c"]} (fun i => Some i) (add_image m1 extra) db1 = Ok (m2, db2) /\
  ("a", "b") ∈ fm_pairs m2 /\ ("a", "c") ∉ fm_pairs m2 /\ db2 !! ("a", "c") = None.
Proof.
  exists ["a"; "b"], "c".
  destruct (match_images_pairs 4 (fun l => l) {["a"; "b"; "c"]} (fun i => Some i) ["a"; "b"] [("a", "b")] ∅)
    as (db1 & E1 & _ & Hout1); [lia|simpl; lia|simpl; lia|done|apply NoDup_singleton| |].
  { intros p ->%elem_of_list_singleton. cbn [fst snd]. rewrite !elem_of_union, !elem_of_singleton. auto. }
  destruct (match_images_pairs 4 (fun l => l) {["a"; "b"; "c"]} (fun i => Some i) ["a"; "b"; "c"] [("a", "b")] db1)
    as (db2 & E2 & _ & Hout2); [lia|simpl; lia|simpl; lia|done|apply NoDup_singleton| |].
  { intros p ->%elem_of_list_singleton. cbn [fst snd]. rewrite !elem_of_union, !elem_of_singleton. auto. }
  exists (Matcher ["a"; "b"] [("a", "b")]), db1, (Matcher ["a"; "b"; "c"] [("a", "b")]), db2.
  split; [exact E1|]. split; [exact E2|]. clear E1 E2. cbn [fm_pairs].
  split; [by left|]. assert (("a", "c") ∉ [("a", "b")]) as Hn by (intros ?%elem_of_list_singleton; done).
  split; [done|]. by rewrite Hout2, Hout1, lookup_empty.
Qed.
Print Assumptions match_images_again_refuted.

(** C49, what does hold: the pairs matched are those set, or all pairs of the images known when the list
    of pairs is first needed.  Missing: images added later. *)
Theorem match_images_again_partial : forall (R : Type) threads sched features (result : nat -> option R) m db m' db',
  match_images threads sched features result m db = Ok (m', db') ->
  fm_pairs m' = match fm_pairs m with [] => all_pairs (fm_names m) | l => l end.
Proof. exact @match_images_stored. Qed.
Print Assumptions match_images_again_partial.

(** Non-vacuity: 45 pairs and 4 threads. *)
Example chunks_sample : chunks 45 4 = Ok [(0, 11); (11, 22); (22, 33); (33, 44); (44, 45)]%Z /\
  chunks 100 3 = Ok [(0, 20); (20, 40); (40, 60); (60, 80); (80, 100)]%Z.
Proof. by vm_compute. Qed.
