(** Model of /repo/src/theia/util/lru_cache.h.

    [K], [V] are the key and value types; [fetch] is the function given to the constructor, modelled as a
    pure function.  A list node of [cache_entries_] has an identity (a number from [lru_next]); the map
    stores that identity as the C++ stores the list iterator.  The two int counters do not overflow. *)
From stdpp Require Import gmap.
From Verif Require Import Base.

Section lru.
Context {K V : Type} `{Countable K} (fetch : K -> V).

(** lru_cache.h:165-186, the data members ([lru_next] is the model's node allocator). *)
Record lru := LRU {
  lru_max : Z;
  lru_list : list (nat * K);
  lru_map : gmap K (V * nat);
  lru_misses : N; lru_hits : N;
  lru_next : nat }.

(** lru_cache.h:71-79. *)
Definition lru_new (max : Z) : outcome lru :=
  _ ← check (bool_decide (0 < max)%Z);
  Ok (LRU max [] ∅ 0 0 0).

(** lru_cache.h:152-160, EvictOldestEntry. *)
Definition lru_evict (s : lru) : outcome lru :=
  match lru_list s with
  | [] => CheckFail
  | (_, key) :: rest =>
      if decide (lru_map s = ∅) then CheckFail
      else Ok (LRU (lru_max s) rest (delete key (lru_map s)) (lru_misses s) (lru_hits s) (lru_next s))
  end.

(** lru_cache.h:130-146, InsertIntoCache.  The comparison converts the int to size_t. *)
Definition lru_insert_into (s : lru) (key : K) (v : V) : outcome lru :=
  _ ← check (bool_decide (lru_map s !! key = None));
  s1 ← (if decide (Z.of_nat (size (lru_map s)) = lru_max s mod 2 ^ 64)%Z then lru_evict s else Ok s);
  Ok (LRU (lru_max s1) (lru_list s1 ++ [(lru_next s1, key)])
        (<[key := (v, lru_next s1)]> (lru_map s1)) (lru_misses s1) (lru_hits s1) (S (lru_next s1))).

(** std::list::splice of one node to the end. *)
Definition splice_back (l : list (nat * K)) (node : nat) : list (nat * K) :=
  filter (fun x => x.1 ≠ node) l ++ filter (fun x => x.1 = node) l.

(** lru_cache.h:83-106, Fetch. *)
Definition lru_fetch (s : lru) (key : K) : outcome (lru * V) :=
  match lru_map s !! key with
  | None =>
      let v := fetch key in
      s' ← lru_insert_into (LRU (lru_max s) (lru_list s) (lru_map s) (lru_misses s + 1) (lru_hits s)
                              (lru_next s)) key v;
      Ok (s', v)
  | Some (v, node) =>
      Ok (LRU (lru_max s) (splice_back (lru_list s) node) (lru_map s) (lru_misses s) (lru_hits s + 1)
            (lru_next s), v)
  end.

(** lru_cache.h:111-114, Insert. *)
Definition lru_insert (s : lru) (key : K) (v : V) : outcome lru := lru_insert_into s key v.

(** lru_cache.h:117-119, ExistsInCache; lru_cache.h:123, Size. *)
Definition lru_exists (s : lru) (key : K) : bool := bool_decide (is_Some (lru_map s !! key)).
Definition lru_size (s : lru) : nat := size (lru_map s).

(** The operations, as one state machine. *)
Inductive lru_op := Fetch (key : K) | Insert (key : K) (v : V).
Inductive lru_res := RValue (v : V) | RDone.

Definition lru_step (s : lru) (o : lru_op) : outcome (lru * lru_res) :=
  match o with
  | Fetch key => '(s', v) ← lru_fetch s key; Ok (s', RValue v)
  | Insert key v => s' ← lru_insert s key v; Ok (s', RDone)
  end.

End lru.
Arguments lru K V {_ _}.
Arguments lru_op K V : clear implicits.
Arguments lru_res V : clear implicits.
