(** Properties of the mutable priority queue. *)
From stdpp Require Import gmap.
From Verif Require Import Base PriorityQueue_Model PriorityQueue_Spec PriorityQueue_Proofs.

(** C19, for histories that never insert a key that is live: contains, find, size, empty and top report
    the table of live keys with their latest values; every call is defined (update of an absent key
    aborts); pop removes the reported top (by the definition of [history]); memory is neither leaked nor
    freed twice.  Missing: histories with an insert of a live key, where the claim is false (below). *)
Theorem priority_queue_partial : forall (K V : Type) (EK : EqDecision K) (CK : Countable K)
    (vcmp : V -> V -> bool) (A : heap_alg), swo vcmp ->
  forall (q : mq K V) (m : gmap K V), history vcmp A q m ->
  queue_shows vcmp q m /\
  (forall k v, m !! k = None -> exists q', mq_insert vcmp A q k v = Ok q') /\
  (forall k v, is_Some (m !! k) -> exists q', mq_update vcmp A q k v = Ok q') /\
  (forall k v, m !! k = None -> mq_update vcmp A q k v = CheckFail) /\
  (forall k, exists q', mq_erase vcmp A q k = Ok q') /\
  (m ≠ ∅ -> exists q', mq_pop vcmp A q = Ok q') /\
  size (mq_mem q) = size m /\
  (exists q', mq_clear q = Ok q' /\ mq_mem q' = ∅).
Proof. exact @mpq_lemma. Qed.
Print Assumptions priority_queue_partial.

(** The same claim without the restriction is false: whatever heap algorithms are used, inserting key 1
    twice and popping once leaves a queue that says it does not contain key 1, yet shows it on top. *)
Theorem priority_queue_refuted : forall A : heap_alg, exists q1 q2 q3 : mq nat nat,
  mq_insert (fun a b => bool_decide (b < a)%nat) A mq_empty 1 5 = Ok q1 /\
  mq_insert (fun a b => bool_decide (b < a)%nat) A q1 1 7 = Ok q2 /\
  mq_pop (fun a b => bool_decide (b < a)%nat) A q2 = Ok q3 /\
  mq_contains q3 1 = false /\ mq_size q3 = 1 /\ mq_top q3 = Ok (1, 7).
Proof.
  intros A. set (c := fun a b => bool_decide (b < a)%nat).
  assert (Hswo : forall l, swo_on c l).
  { intros l. unfold c. split_and!; intros *; rewrite ?bool_decide_eq_true, ?bool_decide_eq_false; try lia. }
  set (m1 := <[0 := (1, 5)]> (∅ : gmap nat (nat * nat))).
  set (m2 := <[1 := (1, 7)]> m1).
  assert (P1 : push_heap A (ptr_cmp c m1) [0] = [0]).
  { destruct (push_ok A (ptr_cmp c m1) [] 0) as [Hp _].
    - apply ptr_swo; [exact Hswo|]. intros p ->%elem_of_list_singleton. by exists (1, 5).
    - intros j x y _ Hx. by rewrite lookup_nil in Hx.
    - simpl in Hp. by apply Permutation_singleton_r in Hp. }
  assert (S2 : swo_on (ptr_cmp c m2) [0; 1]).
  { apply ptr_swo; [exact Hswo|]. intros p [->| ->%elem_of_list_singleton]%elem_of_cons; vm_compute; eauto. }
  assert (P2 : push_heap A (ptr_cmp c m2) [0; 1] = [0; 1]).
  { destruct (push_ok A (ptr_cmp c m2) [0] 1) as [Hp Hh]; [exact S2| |].
    - intros [|j] x y Hj Hx Hy; [lia|]. by rewrite lookup_cons_ne_0 in Hy by lia.
    - simpl in Hp, Hh. symmetry in Hp. apply Permutation_length_2_inv in Hp as [Hp|Hp]; [exact Hp|].
      exfalso. rewrite Hp in Hh. specialize (Hh 1 1 0 ltac:(lia) eq_refl eq_refl). by vm_compute in Hh. }
  set (m3 := delete 0 m2).
  assert (P3 : pop_heap A (ptr_cmp c m3) [0; 1] = [1; 0]).
  { destruct (pop_ok A (ptr_cmp c m2) (ptr_cmp c m3) 0 [1]) as (l' & -> & Hl & _).
    - exact S2.
    - intros [|[|j]] x y Hj Hx Hy; [lia| |by rewrite !lookup_cons_ne_0 in Hy by lia].
      injection Hx as <-. injection Hy as <-. done.
    - intros y z ->%elem_of_list_singleton ->%elem_of_list_singleton. done.
    - apply Permutation_singleton_r in Hl as ->. done. }
  exists (MQ [0] {[1 := 0]} m1 1), (MQ [0; 1] {[1 := 1]} m2 2), (MQ [1] ∅ m3 2).
  split_and!; try done.
  - unfold mq_insert. cbn [mq_next mq_empty mq_mem mq_heap mq_index app]. fold m1.
    rewrite P1. reflexivity.
  - unfold mq_insert. cbn [mq_next mq_mem mq_heap mq_index app]. fold m2. rewrite P2.
    assert (<[1 := 1]> {[1 := 0]} = ({[1 := 1]} : gmap nat nat)) as -> by apply insert_singleton.
    reflexivity.
  - unfold mq_pop. cbn [mq_next mq_mem mq_heap mq_index app]. fold m3. rewrite P3.
    assert (delete 1 {[1 := 1]} = (∅ : gmap nat nat)) as <- by apply delete_singleton. reflexivity.
Qed.
Print Assumptions priority_queue_refuted.

(** Non-vacuity: a history with every kind of call, with heap functions that meet the contract. *)
Example queue_sample :
  let gt := fun a b => bool_decide (b < a)%nat in
  exists (q : mq nat nat) m, history gt sorted_heaps q m /\ m !! 2 = Some 9 /\ size m = 1 /\
    mq_top q = Ok (2, 9).
Proof.
  intros gt.
  set (l := [HInsert 1 4; HInsert 2 6; HInsert 3 2; HUpdate 2 9; HErase 1; HPop]).
  assert (H : match hexecs gt sorted_heaps l with
              | Some (q, m) => bool_decide (m !! 2 = Some 9) && bool_decide (size m = 1) &&
                  match mq_top q with Ok kv => bool_decide (kv = (2, 9)) | _ => false end
              | None => false end = true) by (vm_compute; reflexivity).
  destruct (hexecs gt sorted_heaps l) as [[q m]|] eqn:E; [|discriminate H].
  apply hexecs_sound in E. exists q, m. split; [exact E|]. clear E.
  apply andb_prop in H as [[H1 H2]%andb_prop H3].
  split; [exact (proj1 (bool_decide_eq_true _) H1)|]. split; [exact (proj1 (bool_decide_eq_true _) H2)|].
  destruct (mq_top q) as [kv| | |]; try discriminate H3.
  by rewrite (proj1 (bool_decide_eq_true _) H3).
Qed.
