(** Properties of the LRU cache. *)
From stdpp Require Import gmap.
From Verif Require Import Base LRUCache_Model LRUCache_Spec LRUCache_Proofs Mutex_Model Mutex_Proofs.

(** C17.  For every sequence of Fetch and Insert calls: the answers are those of the specification (an
    Insert of a cached key aborts), the cached keys are the most recently used ones, never more than the
    capacity, and the counters count. *)
Theorem lru_cache_correct : forall (K V : Type) (EK : EqDecision K) (CK : Countable K) (fetch : K -> V)
    (max : nat), (0 < max)%nat -> (Z.of_nat max < 2 ^ 31)%Z -> forall ops : list (lru_op K V),
  exists s0, lru_new (Z.of_nat max) = Ok s0 /\
    match answers fetch max [] ops with
    | None => run_obs (lru_step fetch) s0 ops = CheckFail
    | Some rs => exists s, run_obs (lru_step fetch) s0 ops = Ok (s, rs) /\
        (forall k, lru_exists s k = true <-> k ∈ cached max (reverse ops)) /\
        lru_size s = length (cached max (reverse ops)) /\ (lru_size s <= max)%nat /\
        lru_hits s = N.of_nat (hits_of max (reverse ops)) /\
        (lru_hits s + lru_misses s)%N = N.of_nat (fetches_of ops)
    end.
Proof. exact @lru_lemma. Qed.
Print Assumptions lru_cache_correct.

(** A capacity that is not positive is refused. *)
Theorem lru_cache_capacity : forall (K V : Type) (EK : EqDecision K) (CK : Countable K) (max : Z),
  (exists s : lru K V, lru_new max = Ok s) <-> (0 < max)%Z.
Proof.
  intros K V EK CK max. unfold lru_new. case_bool_decide as Hm; simpl; split; try done; eauto.
  by intros [? ?].
Qed.
Print Assumptions lru_cache_capacity.

(** Capacity 2; keys 1, 2, then 1 again, then 3: key 2 is evicted, so fetching it is a miss. *)
Definition sample_ops : list (lru_op nat nat) :=
  [Insert 1 10; Fetch 2; Fetch 1; Fetch 3; Fetch 1; Fetch 2].
Example lru_sample :
  cached 2 (reverse sample_ops) = [2; 1] /\
  answers (fun k => 100 + k) 2 [] sample_ops =
    Some [RDone; RValue 102; RValue 10; RValue 103; RValue 10; RValue 102] /\
  hits_of 2 (reverse sample_ops) = 2 /\ fetches_of sample_ops = 5.
Proof. vm_compute. done. Qed.

(** C18.  Any number of threads calling Fetch and Insert: every reachable history is linearizable with
    respect to the sequential specification. *)
Theorem lru_cache_linearizable : forall (K V : Type) (EK : EqDecision K) (CK : Countable K)
    (fetch : K -> V) (max : nat), (0 < max)%nat -> (Z.of_nat max < 2 ^ 31)%Z ->
  forall s0 c, lru_new (Z.of_nat max) = Ok s0 -> reachable_conf (lru_step fetch) s0 c ->
  distinct_calls (c_hist c) /\
  exists L : list (nat * lru_op K V * lru_res V),
    (* one sequence with the answers of the sequential cache *)
    NoDup L.*1.*1 /\ answers fetch max [] L.*1.*2 = Some L.*2 /\
    (* it contains every call that returned, with its answer, and only calls that were made *)
    (forall id r, ERet id r ∈ c_hist c -> exists o, (id, o, r) ∈ L) /\
    (forall id o r, (id, o, r) ∈ L -> EInv id o ∈ c_hist c) /\
    (* it respects the real-time order *)
    (forall i j a b r o x, c_hist c !! i = Some (ERet a r) -> c_hist c !! j = Some (EInv b o) ->
       (i < j)%nat -> L.*1.*1 !! x = Some b -> exists y, (y < x)%nat /\ L.*1.*1 !! y = Some a).
Proof.
  intros K V EK CK fetch max Hmax Hb s0 c Hnew Hr.
  destruct (mutex_linearizable (lru_step fetch) s0 c Hr) as [Hd (L & Hnd & [s Hrun] & H1 & H2 & H3)].
  split; [done|]. exists L. split; [done|]. split; [|done].
  destruct (lru_lemma fetch max Hmax Hb L.*1.*2) as (s0' & Hnew' & Ha).
  assert (s0' = s0) as -> by congruence.
  destruct (answers fetch max [] L.*1.*2) as [rs|].
  - destruct Ha as (s' & Hrun' & _). congruence.
  - congruence.
Qed.
Print Assumptions lru_cache_linearizable.

(** C18.  No deadlock: while a call is in progress some step is possible, unless the call that holds the
    mutex aborts the process. *)
Theorem lru_cache_no_deadlock : forall (K V : Type) (EK : EqDecision K) (CK : Countable K)
    (fetch : K -> V) s0 c t, reachable_conf (lru_step fetch) s0 c -> thread c t ≠ TIdle ->
  (exists c', cstep (lru_step fetch) c c' /\ c_next c' = c_next c) \/
  (exists t' id o s, thread c t' = TLocked id o s /\ forall s' r, lru_step fetch s o ≠ Ok (s', r)).
Proof. intros K V EK CK fetch. exact (@mutex_no_deadlock _ _ _ (lru_step fetch)). Qed.
Print Assumptions lru_cache_no_deadlock.

(** A reachable state with two overlapping calls, both returned. *)
Example lru_two_threads : exists s0 c, lru_new 1 = Ok s0 /\
  reachable_conf (lru_step (fun k : nat => k * k)) s0 c /\
  c_hist c = [EInv 0 (Fetch 3); EInv 1 (Fetch 4); ERet 1 (RValue 16); ERet 0 (RValue 9)].
Proof.
  set (fetch := fun k : nat => k * k).
  set (s0 := LRU 1 [] ∅ 0 0 0 : lru nat nat).
  set (sched := [ACall 0 (Fetch 3); ACall 1 (Fetch 4); ALock 1; AUnlock 1; ALock 0; AReturn 1; AUnlock 0;
                 AReturn 0] : list (action (Op := lru_op nat nat))).
  assert (H : c_hist <$> cexecs (lru_step fetch) (conf_init s0) sched =
    Some [EInv 0 (Fetch 3); EInv 1 (Fetch 4); ERet 1 (RValue 16); ERet 0 (RValue 9)])
    by (vm_compute; reflexivity).
  destruct (cexecs (lru_step fetch) (conf_init s0) sched) as [c|] eqn:E; [|discriminate H].
  injection H as H. exists s0, c. split; [reflexivity|]. split; [|exact H].
  exact (cexecs_sound _ sched _ _ E).
Qed.
