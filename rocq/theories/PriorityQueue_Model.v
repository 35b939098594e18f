(** Model of /repo/src/theia/util/mutable_priority_queue.h.

    [heap_] holds pointers; the model gives every allocated pair an address (a number) and keeps the
    memory [mq_mem].  Reading freed memory is [UB].  [vcmp] is ValueComp (std::greater by default).
    The copy constructor (lines 72-73, does not compile: it names a member [value_index]) and operator=
    (which needs it) are not modelled. *)
From stdpp Require Import gmap.
From Verif Require Import Base.

(** A strict weak ordering, on the elements of a list. *)
Definition swo_on {A} (cmp : A -> A -> bool) (l : list A) : Prop :=
  (forall x, x ∈ l -> cmp x x = false) /\
  (forall x y z, x ∈ l -> y ∈ l -> z ∈ l -> cmp x y = true -> cmp y z = true -> cmp x z = true) /\
  (forall x y z, x ∈ l -> y ∈ l -> z ∈ l -> cmp x y = false -> cmp y z = false -> cmp x z = false).

(** The heap property of the C++ standard ([alg.heap.operations]): a[(j-1)/2] is not less than a[j]. *)
Definition is_heap {A} (cmp : A -> A -> bool) (l : list A) : Prop :=
  forall j x y, (0 < j)%nat -> l !! ((j - 1) / 2)%nat = Some x -> l !! j = Some y -> cmp x y = false.

(** std::push_heap, std::pop_heap and std::make_heap: any functions with the effects the C++ standard
    prescribes.  pop_heap is called after the front element was deleted (mutable_priority_queue.h:115-122);
    the contract [pop_ok] says that, as in libstdc++, it does not compare the front element: the result is
    right for every comparison that agrees with the one of the heap on the other elements. *)
Record heap_alg := HeapAlg {
  push_heap : (nat -> nat -> bool) -> list nat -> list nat;
  pop_heap : (nat -> nat -> bool) -> list nat -> list nat;
  make_heap : (nat -> nat -> bool) -> list nat -> list nat;
  push_ok : forall cmp l x, swo_on cmp (l ++ [x]) -> is_heap cmp l ->
    push_heap cmp (l ++ [x]) ≡ₚ l ++ [x] /\ is_heap cmp (push_heap cmp (l ++ [x]));
  pop_ok : forall cmp cmp' x l, swo_on cmp (x :: l) -> is_heap cmp (x :: l) ->
    (forall y z, y ∈ l -> z ∈ l -> cmp' y z = cmp y z) ->
    exists l', pop_heap cmp' (x :: l) = l' ++ [x] /\ l' ≡ₚ l /\ is_heap cmp' l';
  make_ok : forall cmp l, swo_on cmp l -> make_heap cmp l ≡ₚ l /\ is_heap cmp (make_heap cmp l) }.

Section mpq.
Context {K V : Type} `{Countable K} (vcmp : V -> V -> bool) (A : heap_alg).

(** mutable_priority_queue.h:156-157, the data members, and the heap memory. *)
Record mq := MQ {
  mq_heap : list nat;
  mq_index : gmap K nat;
  mq_mem : gmap nat (K * V);
  mq_next : nat }.

(** mutable_priority_queue.h:69. *)
Definition mq_empty : mq := MQ [] ∅ ∅ 0.

(** mutable_priority_queue.h:62-65, KeyValuePtrComp. *)
Definition ptr_cmp (mem : gmap nat (K * V)) (p q : nat) : bool :=
  match mem !! p, mem !! q with
  | Some a, Some b => vcmp a.2 b.2
  | _, _ => false
  end.

(** Comparing any of these pointers reads live memory. *)
Definition all_live (mem : gmap nat (K * V)) (l : list nat) : outcome unit :=
  if decide (Forall (fun p => is_Some (mem !! p)) l) then Ok tt else UB.

(** mutable_priority_queue.h:90-93, clear (STLDeleteElements deletes every element of heap_). *)
Definition mq_clear (q : mq) : outcome mq :=
  _ ← all_live (mq_mem q) (mq_heap q);
  if decide (NoDup (mq_heap q)) then
    Ok (MQ [] ∅ (foldr (fun p m => delete p m) (mq_mem q) (mq_heap q)) (mq_next q))
  else UB (* double free *).

(** mutable_priority_queue.h:96-107, erase. *)
Definition mq_erase (q : mq) (key : K) : outcome mq :=
  match mq_index q !! key with
  | None => Ok q
  | Some kv =>
      if decide (kv ∈ mq_heap q) then
        let heap := filter (fun p => p ≠ kv) (mq_heap q) in
        _ ← all_live (mq_mem q) heap;
        Ok (MQ (make_heap A (ptr_cmp (mq_mem q)) heap) (delete key (mq_index q))
              (delete kv (mq_mem q)) (mq_next q))
      else UB (* heap_.erase(heap_.end()) *)
  end.

(** mutable_priority_queue.h:110, empty. *)
Definition mq_is_empty (q : mq) : bool := bool_decide (length (mq_heap q) = 0).

(** mutable_priority_queue.h:112, top. *)
Definition mq_top (q : mq) : outcome (K * V) :=
  match mq_heap q with
  | [] => UB
  | p :: _ => or_ub (mq_mem q !! p)
  end.

(** mutable_priority_queue.h:115-122, pop. *)
Definition mq_pop (q : mq) : outcome mq :=
  match mq_heap q with
  | [] => UB
  | kv :: rest =>
      x ← or_ub (mq_mem q !! kv);
      let mem := delete kv (mq_mem q) in
      _ ← all_live mem rest;
      Ok (MQ (removelast (pop_heap A (ptr_cmp mem) (mq_heap q))) (delete x.1 (mq_index q)) mem (mq_next q))
  end.

(** mutable_priority_queue.h:125-130, insert. *)
Definition mq_insert (q : mq) (key : K) (v : V) : outcome mq :=
  let kv := mq_next q in
  let mem := <[kv := (key, v)]> (mq_mem q) in
  _ ← all_live mem (mq_heap q ++ [kv]);
  Ok (MQ (push_heap A (ptr_cmp mem) (mq_heap q ++ [kv])) (<[key := kv]> (mq_index q)) mem (1 + kv)).

(** mutable_priority_queue.h:134-138, update. *)
Definition mq_update (q : mq) (key : K) (v : V) : outcome mq :=
  kv ← or_die (mq_index q !! key);
  x ← or_ub (mq_mem q !! kv);
  let mem := <[kv := (x.1, v)]> (mq_mem q) in
  _ ← all_live mem (mq_heap q);
  Ok (MQ (make_heap A (ptr_cmp mem) (mq_heap q)) (mq_index q) mem (mq_next q)).

(** mutable_priority_queue.h:141-144, size (the DCHECK is a debug check). *)
Definition mq_size (q : mq) : nat := length (mq_heap q).

(** mutable_priority_queue.h:146-148, contains. *)
Definition mq_contains (q : mq) (key : K) : bool := bool_decide (is_Some (mq_index q !! key)).

(** mutable_priority_queue.h:151-153, find. *)
Definition mq_find (q : mq) (key : K) : outcome V :=
  kv ← or_die (mq_index q !! key);
  x ← or_ub (mq_mem q !! kv);
  Ok x.2.

End mpq.
Arguments mq K V {_ _}.
