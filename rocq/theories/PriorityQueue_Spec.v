(** Independent specification of a priority queue with keys: a table of live keys with their values. *)
From stdpp Require Import gmap.
From Verif Require Import Base PriorityQueue_Model.

Section spec.
Context {K V : Type} `{Countable K} (vcmp : V -> V -> bool) (A : heap_alg).

(** [v] is extremal in [m]: not before any other value in the order of ValueComp. *)
Definition extremal (m : gmap K V) (v : V) : Prop := forall k' v', m !! k' = Some v' -> vcmp v v' = false.

(** Everything the accessors report is the table [m]. *)
Definition queue_shows (q : mq K V) (m : gmap K V) : Prop :=
  (forall k, mq_contains q k = true <-> is_Some (m !! k)) /\
  (forall k, mq_find q k = or_die (m !! k)) /\
  mq_size q = size m /\
  (mq_is_empty q = true <-> m = ∅) /\
  (m ≠ ∅ -> exists k v, mq_top q = Ok (k, v) /\ m !! k = Some v /\ extremal m v).

(** Histories of calls in which no live key is inserted a second time, with the table they produce.
    pop removes the key that top reports. *)
Inductive history : mq K V -> gmap K V -> Prop :=
| h_new : history mq_empty ∅
| h_insert q m k v q' :
    history q m -> m !! k = None -> mq_insert vcmp A q k v = Ok q' -> history q' (<[k := v]> m)
| h_update q m k v q' :
    history q m -> mq_update vcmp A q k v = Ok q' -> history q' (<[k := v]> m)
| h_erase q m k q' :
    history q m -> mq_erase vcmp A q k = Ok q' -> history q' (delete k m)
| h_pop q m k v q' :
    history q m -> mq_top q = Ok (k, v) -> mq_pop vcmp A q = Ok q' -> history q' (delete k m)
| h_clear q m q' : history q m -> mq_clear q = Ok q' -> history q' ∅.

(** ValueComp is a strict weak ordering. *)
Definition swo : Prop := forall l, swo_on vcmp l.

End spec.
