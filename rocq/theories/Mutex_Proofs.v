(** Objects protected by one mutex are linearizable, and calls never get stuck. *)
From stdpp Require Import gmap.
From Verif Require Import Base ConnectedComponents_Proofs Mutex_Model.

Section proofs.
Context {S Op Res : Type} (step : S -> Op -> outcome (S * Res)) (s0 : S).
Implicit Types (c : conf S Op Res) (L : list (nat * Op * Res)).

Lemma thread_insert c t st t' sh lk nx hi :
  thread (Conf sh lk (<[t := st]> (c_threads c)) nx hi) t' =
  if decide (t' = t) then st else thread c t'.
Proof.
  unfold thread. simpl. destruct (decide (t' = t)) as [->|].
  - by rewrite lookup_insert.
  - by rewrite lookup_insert_ne.
Qed.

(** The id of the call a thread is executing. *)
Definition in_flight (st : tstate S Op Res) : option nat :=
  match st with TIdle => None | TCalled id _ | TLocked id _ _ | TDone id _ => Some id end.

Record cinv c L : Prop := {
  ci_legal : run_obs step s0 L.*1.*2 = Ok (c_shared c, L.*2);
  ci_nodup : NoDup L.*1.*1;
  ci_ids : forall i e, c_hist c !! i = Some e -> (match e with EInv id _ | ERet id _ => id end < c_next c)%nat;
  ci_Lids : forall id o r, (id, o, r) ∈ L -> (id < c_next c)%nat /\ EInv id o ∈ c_hist c;
  ci_distinct : distinct_calls (c_hist c);
  ci_ret : forall id r, ERet id r ∈ c_hist c -> exists o, (id, o, r) ∈ L;
  ci_order : forall i j a b r o x, c_hist c !! i = Some (ERet a r) -> c_hist c !! j = Some (EInv b o) ->
     (i < j)%nat -> L.*1.*1 !! x = Some b -> exists y, (y < x)%nat /\ L.*1.*1 !! y = Some a;
  ci_flight : forall t id, in_flight (thread c t) = Some id -> (id < c_next c)%nat;
  ci_unique : forall t t' id, in_flight (thread c t) = Some id -> in_flight (thread c t') = Some id -> t = t';
  ci_called : forall t id o, thread c t = TCalled id o -> id ∉ L.*1.*1 /\ EInv id o ∈ c_hist c;
  ci_locked : forall t id o s, thread c t = TLocked id o s ->
     id ∉ L.*1.*1 /\ EInv id o ∈ c_hist c /\ s = c_shared c /\ c_lock c = Some t;
  ci_done : forall t id r, thread c t = TDone id r -> exists o, (id, o, r) ∈ L;
  ci_lock : forall t, c_lock c = Some t -> exists id o s, thread c t = TLocked id o s }.

Lemma cinv_init : cinv (conf_init s0) [].
Proof.
  constructor; simpl; try done.
  - constructor.
  - intros id o r Hin. by apply elem_of_nil in Hin.
  - intros id r Hin. by apply elem_of_nil in Hin.
Qed.

Lemma L_id L id o r : (id, o, r) ∈ L -> id ∈ L.*1.*1.
Proof.
  intros Hin. apply elem_of_list_fmap. exists (id, o). split; [done|].
  apply elem_of_list_fmap. by exists (id, o, r).
Qed.

Lemma snoc_lookup {A} (l : list A) x i y : (l ++ [x]) !! i = Some y ->
  l !! i = Some y \/ (i = length l /\ y = x).
Proof.
  intros [Hl|[Hl Hx]]%lookup_app_Some; [by left|right].
  apply list_lookup_singleton_Some in Hx as [? ->]. split; [lia|done].
Qed.

Lemma cinv_step c c' L : cinv c L -> cstep step c c' -> exists L', cinv c' L'.
Proof.
  intros I Hs. destruct Hs as [c t o Ht|c t id o Ht Hl|c t id o s s' r Ht Hstep|c t id r Ht].
  - (* call *)
    exists L. constructor; cbn [c_shared c_lock c_next c_hist].
    + apply I.
    + apply I.
    + intros i e [Hi|[-> ->]]%snoc_lookup; [|lia]. apply (ci_ids c L I) in Hi. destruct e; lia.
    + intros id o' r Hin. apply (ci_Lids c L I) in Hin as [? ?]. split; [lia|]. apply elem_of_app. by left.
    + intros i j id o1 o2 Hi%snoc_lookup Hj%snoc_lookup.
      destruct Hi as [Hi|[-> Ei]], Hj as [Hj|[-> Ej]]; [by eapply (ci_distinct c L I)|..|done].
      * apply (ci_ids c L I) in Hi. simplify_eq. lia.
      * apply (ci_ids c L I) in Hj. simplify_eq. lia.
    + intros id r [Hin|Hin%elem_of_list_singleton]%elem_of_app; [by apply I|done].
    + intros i j a b r o' x Hi%snoc_lookup Hj%snoc_lookup Hlt Hx.
      destruct Hi as [Hi|[_ ?]]; [|done]. destruct Hj as [Hj|[-> [= -> ->]]].
      * by eapply (ci_order c L I).
      * exfalso. apply elem_of_list_lookup_2, elem_of_list_fmap in Hx as ([b' o2] & Hb & Hx).
        apply elem_of_list_fmap in Hx as ([[b2 o3] r3] & [= -> ->] & Hx). simpl in Hb. subst.
        apply (ci_Lids c L I) in Hx as [? _]. lia.
    + intros t' id. rewrite thread_insert. case_decide.
      * simpl. intros [= <-]. lia.
      * intros Hf. apply (ci_flight c L I) in Hf. lia.
    + intros t1 t2 id. rewrite !thread_insert. repeat case_decide; subst; simpl; try done.
      * intros [= <-] Hf. apply (ci_flight c L I) in Hf. lia.
      * intros Hf [= <-]. apply (ci_flight c L I) in Hf. lia.
      * by apply I.
    + intros t' id o'. rewrite thread_insert. case_decide.
      * intros [= <- <-]. split; [|apply elem_of_app; right; by left].
        intros Hin. apply elem_of_list_fmap in Hin as ([b' o2] & Hb & Hx).
        apply elem_of_list_fmap in Hx as ([[b2 o3] r3] & [= -> ->] & Hx). simpl in Hb. subst.
        apply (ci_Lids c L I) in Hx as [? _]. lia.
      * intros Hc. apply (ci_called c L I) in Hc as [? ?]. split; [done|]. apply elem_of_app. by left.
    + intros t' id o' s. rewrite thread_insert. case_decide; [done|].
      intros Hc. apply (ci_locked c L I) in Hc as (? & ? & ? & ?). split_and!; try done. apply elem_of_app. by left.
    + intros t' id r. rewrite thread_insert. case_decide; [done|]. by apply I.
    + intros t' Ht'. apply (ci_lock c L I) in Ht' as (id & o' & s & Ht'). exists id, o', s.
      rewrite thread_insert. rewrite decide_False; [done|]. intros ->. congruence.
  - (* lock *)
    exists L. constructor; cbn [c_shared c_lock c_next c_hist]; try by apply I.
    + intros t' id'. rewrite thread_insert. case_decide; [|by apply I].
      simpl. intros [= <-]. apply (ci_flight c L I t). by rewrite Ht.
    + assert (Hf : in_flight (thread c t) = Some id) by (by rewrite Ht).
      intros t1 t2 id'. rewrite !thread_insert. repeat case_decide; subst; simpl; try done.
      * intros [= <-] Hf'. by eapply (ci_unique c L I).
      * intros Hf' [= <-]. by eapply (ci_unique c L I).
      * by apply I.
    + intros t' id' o'. rewrite thread_insert. case_decide; [done|]. by apply I.
    + intros t' id' o' s. rewrite thread_insert. case_decide.
      * intros [= <- <- <-]. subst. apply (ci_called c L I) in Ht as [? ?]. done.
      * intros Hc. apply (ci_locked c L I) in Hc as (? & ? & ? & ?). congruence.
    + intros t' id' r. rewrite thread_insert. case_decide; [done|]. by apply I.
    + intros t' [= <-]. exists id, o, (c_shared c). rewrite thread_insert. by rewrite decide_True.
  - (* unlock *)
    apply (ci_locked c L I) in Ht as Hlk. destruct Hlk as (Hnin & Hinv & -> & Hlk).
    exists (L ++ [(id, o, r)]).
    assert (Hfl : in_flight (thread c t) = Some id) by (by rewrite Ht).
    constructor; cbn [c_shared c_lock c_next c_hist].
    + rewrite !fmap_app, run_obs_app, (ci_legal c L I). simpl. by rewrite Hstep.
    + rewrite !fmap_app. apply NoDup_app. split; [apply I|]. split; [|apply NoDup_singleton].
      intros x Hx Hy. simpl in Hy. apply elem_of_list_singleton in Hy. subst. done.
    + apply I.
    + intros id' o' r' [Hin|Hin%elem_of_list_singleton]%elem_of_app; [by apply I in Hin|].
      injection Hin as -> -> ->. split; [|done]. by eapply (ci_flight c L I).
    + apply I.
    + intros id' r' Hin. apply (ci_ret c L I) in Hin as [o' Hin]. exists o'. apply elem_of_app. by left.
    + intros i j a b r' o' x Hi Hj Hlt. rewrite !fmap_app. simpl. intros [Hx|[-> Hx]]%snoc_lookup.
      * destruct (ci_order c L I i j a b r' o' x) as (y & ? & Hy); [done..|]. exists y. split; [done|].
        by apply lookup_app_l_Some.
      * subst b. apply elem_of_list_lookup_2 in Hi as Hret. apply (ci_ret c L I) in Hret as [o2 Hret].
        apply L_id, elem_of_list_lookup in Hret as [y Hy]. exists y.
        pose proof (lookup_lt_Some _ _ _ Hy). split; [done|]. by apply lookup_app_l_Some.
    + intros t' id'. rewrite thread_insert. case_decide; [|by apply I].
      simpl. intros [= <-]. by eapply (ci_flight c L I).
    + intros t1 t2 id'. rewrite !thread_insert. repeat case_decide; subst; simpl; try done.
      * intros [= <-] Hf'. by eapply (ci_unique c L I).
      * intros Hf' [= <-]. by eapply (ci_unique c L I).
      * by apply I.
    + intros t' id' o'. rewrite thread_insert. case_decide as Hne; [done|]. intros Hc.
      assert (id' ≠ id).
      { intros ->. apply Hne. eapply (ci_unique c L I); [by rewrite Hc|done]. }
      apply (ci_called c L I) in Hc as [? ?]. split; [|done]. rewrite !fmap_app. simpl.
      intros [?|?%elem_of_list_singleton]%elem_of_app; done.
    + intros t' id' o' s2. rewrite thread_insert. case_decide as Hne; [done|]. intros Hc.
      apply (ci_locked c L I) in Hc as (? & ? & ? & ?). congruence.
    + intros t' id' r'. rewrite thread_insert. case_decide.
      * intros [= <- <-]. exists o. apply elem_of_app. right. by left.
      * intros Hd. apply (ci_done c L I) in Hd as [o' Hd]. exists o'. apply elem_of_app. by left.
    + done.
  - (* return *)
    exists L. constructor; cbn [c_shared c_lock c_next c_hist].
    + apply I.
    + apply I.
    + intros i e [Hi|[-> ->]]%snoc_lookup; [by apply (ci_ids c L I) in Hi|].
      apply (ci_flight c L I t). by rewrite Ht.
    + intros id' o' r' Hin. apply (ci_Lids c L I) in Hin as [? ?]. split; [done|]. apply elem_of_app. by left.
    + intros i j id' o1 o2 Hi%snoc_lookup Hj%snoc_lookup.
      destruct Hi as [Hi|[_ ?]], Hj as [Hj|[_ ?]]; try done. by eapply (ci_distinct c L I).
    + intros id' r' [Hin|Hin%elem_of_list_singleton]%elem_of_app; [by apply I|].
      injection Hin as -> ->. by eapply (ci_done c L I).
    + intros i j a b r' o' x Hi%snoc_lookup Hj%snoc_lookup Hlt Hx.
      destruct Hj as [Hj|[_ ?]]; [|done]. destruct Hi as [Hi|[-> _]]; [by eapply (ci_order c L I)|].
      apply lookup_lt_Some in Hj. lia.
    + intros t' id'. rewrite thread_insert. case_decide; [done|]. by apply I.
    + intros t1 t2 id'. rewrite !thread_insert. repeat case_decide; subst; simpl; try done. by apply I.
    + intros t' id' o'. rewrite thread_insert. case_decide; [done|].
      intros Hc. apply (ci_called c L I) in Hc as [? ?]. split; [done|]. apply elem_of_app. by left.
    + intros t' id' o' s. rewrite thread_insert. case_decide; [done|].
      intros Hc. apply (ci_locked c L I) in Hc as (? & ? & ? & ?). split_and!; try done. apply elem_of_app. by left.
    + intros t' id' r'. rewrite thread_insert. case_decide; [done|]. by apply I.
    + intros t' Ht'. apply (ci_lock c L I) in Ht' as (id' & o' & s & Ht'). exists id', o', s.
      rewrite thread_insert. rewrite decide_False; [done|]. intros ->. congruence.
Qed.

Lemma reach_cinv c : reachable_conf step s0 c -> exists L, cinv c L.
Proof.
  unfold reachable_conf. intros Hr.
  assert (Hgen : forall a b, rtc (cstep step) a b -> (exists L, cinv a L) -> exists L, cinv b L).
  { intros a b Hab. induction Hab as [|a a' b Ha Hab IH]; [done|]. intros [L HL]. apply IH.
    by eapply cinv_step. }
  eapply Hgen; [exact Hr|]. exists []. apply cinv_init.
Qed.

Lemma mutex_linearizable c : reachable_conf step s0 c ->
  distinct_calls (c_hist c) /\ exists L, linearization step s0 (c_hist c) L.
Proof.
  intros [L I]%reach_cinv. split; [apply I|]. exists L. split; [apply I|]. split; [eexists; apply I|].
  split; [apply I|]. split; [|apply I].
  intros id o r Hin. by destruct (ci_Lids c L I id o r Hin).
Qed.

(** A call in progress never blocks all threads: somebody can step, or the process aborts in the call
    that holds the mutex. *)
Lemma mutex_no_deadlock c t : reachable_conf step s0 c -> thread c t ≠ TIdle ->
  (exists c', cstep step c c' /\ c_next c' = c_next c) \/
  (exists t' id o s, thread c t' = TLocked id o s /\ forall s' r, step s o ≠ Ok (s', r)).
Proof.
  intros [L I]%reach_cinv Ht.
  assert (Hlk : forall t' id o s, thread c t' = TLocked id o s ->
    (exists c', cstep step c c' /\ c_next c' = c_next c) \/
    (exists t' id o s, thread c t' = TLocked id o s /\ forall s' r, step s o ≠ Ok (s', r))).
  { intros t' id o s Ht'. destruct (step s o) as [[s' r]| | |] eqn:E;
      [left|right; exists t', id, o, s; split; [done|]; intros ? ?; rewrite E; done..].
    eexists. split; [by eapply cstep_unlock|done]. }
  destruct (thread c t) as [|id o|id o s|id r] eqn:E; [done|..].
  - destruct (c_lock c) as [t'|] eqn:El.
    + apply (ci_lock c L I) in El as (id' & o' & s' & Ht'). by eapply Hlk.
    + left. eexists. split; [by eapply cstep_lock|done].
  - by eapply Hlk.
  - left. eexists. split; [by eapply cstep_return|done].
Qed.

(** A scheduler, to exhibit executions. *)
Inductive action := ACall (t : nat) (o : Op) | ALock (t : nat) | AUnlock (t : nat) | AReturn (t : nat).
Definition cexec c (a : action) : option (conf S Op Res) :=
  match a with
  | ACall t o =>
      match thread c t with
      | TIdle => Some (Conf (c_shared c) (c_lock c) (<[t := TCalled (c_next c) o]> (c_threads c))
               (1 + c_next c) (c_hist c ++ [EInv (c_next c) o]))
      | _ => None end
  | ALock t =>
      match thread c t, c_lock c with
      | TCalled id o, None => Some (Conf (c_shared c) (Some t) (<[t := TLocked id o (c_shared c)]> (c_threads c))
               (c_next c) (c_hist c))
      | _, _ => None end
  | AUnlock t =>
      match thread c t with
      | TLocked id o s => match step s o with
                          | Ok (s', r) => Some (Conf s' None (<[t := TDone id r]> (c_threads c)) (c_next c) (c_hist c))
                          | _ => None end
      | _ => None end
  | AReturn t =>
      match thread c t with
      | TDone id r => Some (Conf (c_shared c) (c_lock c) (<[t := TIdle]> (c_threads c))
               (c_next c) (c_hist c ++ [ERet id r]))
      | _ => None end
  end.

Fixpoint cexecs c (l : list action) : option (conf S Op Res) :=
  match l with [] => Some c | a :: l' => c' ← cexec c a; cexecs c' l' end.

Lemma cexec_sound c a c' : cexec c a = Some c' -> cstep step c c'.
Proof.
  destruct a as [t o|t|t|t]; simpl; destruct (thread c t) eqn:E; try done.
  - intros [= <-]. by apply cstep_call.
  - destruct (c_lock c) eqn:El; [done|]. intros [= <-]. by eapply cstep_lock.
  - destruct (step s o) as [[s' r]| | |] eqn:Es; try done. intros [= <-]. by eapply cstep_unlock.
  - intros [= <-]. by eapply cstep_return.
Qed.

Lemma cexecs_sound l : forall c c', cexecs c l = Some c' -> rtc (cstep step) c c'.
Proof.
  induction l as [|a l IH]; intros c c'; simpl.
  - intros [= <-]. apply rtc_refl.
  - destruct (cexec c a) as [c1|] eqn:E; simpl; [|done]. intros Hl.
    eapply rtc_l; [by eapply cexec_sound|by apply IH].
Qed.

End proofs.
