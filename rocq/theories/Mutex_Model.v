(** Concurrent use of an object whose methods hold one mutex from entry to exit, as with the
    std::lock_guard of /repo/src/theia/util/lru_cache.h:84, 112.

    Any number of threads call the object; their steps interleave freely.  A call takes the mutex, reads
    the object, computes, and writes the object back when it releases the mutex.  Reading and writing are
    separate steps, so without the mutex updates could be lost.  When the method aborts ([step] is not
    [Ok]) the process ends: there is no further step of that thread. *)
From stdpp Require Import gmap.
From Verif Require Import Base.

Section mutex.
Context {S Op Res : Type} (step : S -> Op -> outcome (S * Res)).

(** What a thread is doing.  Calls are numbered. *)
Inductive tstate :=
| TIdle
| TCalled (id : nat) (o : Op)               (* called, waiting for the mutex *)
| TLocked (id : nat) (o : Op) (s : S)       (* holds the mutex, has read the object *)
| TDone (id : nat) (r : Res).               (* released the mutex, not yet returned *)

(** What an observer sees. *)
Inductive event := EInv (id : nat) (o : Op) | ERet (id : nat) (r : Res).

Record conf := Conf {
  c_shared : S;
  c_lock : option nat;
  c_threads : gmap nat tstate;
  c_next : nat;
  c_hist : list event }.

Definition conf_init (s0 : S) : conf := Conf s0 None ∅ 0 [].
Definition thread (c : conf) (t : nat) : tstate := default TIdle (c_threads c !! t).

Inductive cstep : conf -> conf -> Prop :=
| cstep_call c t o :
    thread c t = TIdle ->
    cstep c (Conf (c_shared c) (c_lock c) (<[t := TCalled (c_next c) o]> (c_threads c))
               (1 + c_next c) (c_hist c ++ [EInv (c_next c) o]))
| cstep_lock c t id o :
    thread c t = TCalled id o -> c_lock c = None ->
    cstep c (Conf (c_shared c) (Some t) (<[t := TLocked id o (c_shared c)]> (c_threads c))
               (c_next c) (c_hist c))
| cstep_unlock c t id o s s' r :
    thread c t = TLocked id o s -> step s o = Ok (s', r) ->
    cstep c (Conf s' None (<[t := TDone id r]> (c_threads c)) (c_next c) (c_hist c))
| cstep_return c t id r :
    thread c t = TDone id r ->
    cstep c (Conf (c_shared c) (c_lock c) (<[t := TIdle]> (c_threads c))
               (c_next c) (c_hist c ++ [ERet id r])).

Definition reachable_conf (s0 : S) (c : conf) : Prop := rtc cstep (conf_init s0) c.

(** Herlihy-Wing linearizability of a history: [L] puts all returned calls (and possibly some pending
    ones) into one sequence, which is a sequential run of the object with the observed results, and in
    which a call that returned before another was made comes first. *)
Definition linearization (s0 : S) (hist : list event) (L : list (nat * Op * Res)) : Prop :=
  NoDup L.*1.*1 /\
  (exists s, run_obs step s0 L.*1.*2 = Ok (s, L.*2)) /\
  (forall id r, ERet id r ∈ hist -> exists o, (id, o, r) ∈ L) /\
  (forall id o r, (id, o, r) ∈ L -> EInv id o ∈ hist) /\
  (forall i j a b r o x, hist !! i = Some (ERet a r) -> hist !! j = Some (EInv b o) -> (i < j)%nat ->
     L.*1.*1 !! x = Some b -> exists y, (y < x)%nat /\ L.*1.*1 !! y = Some a).

(** Every call is made once. *)
Definition distinct_calls (hist : list event) : Prop :=
  forall i j id o o', hist !! i = Some (EInv id o) -> hist !! j = Some (EInv id o') -> i = j.

End mutex.
Arguments conf : clear implicits.
Arguments tstate : clear implicits.
Arguments event : clear implicits.
