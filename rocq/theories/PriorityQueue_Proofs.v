(** Proofs about the mutable priority queue. *)
From stdpp Require Import gmap.
From Verif Require Import Base PriorityQueue_Model PriorityQueue_Spec.

(** The front of a heap is extremal. *)
Lemma heap_front {A} (cmp : A -> A -> bool) x l : swo_on cmp (x :: l) -> is_heap cmp (x :: l) ->
  forall y, y ∈ x :: l -> cmp x y = false.
Proof.
  intros (Hirr & _ & Hneg) Hheap y [j Hj]%elem_of_list_lookup.
  revert y Hj. induction j as [j IH] using lt_wf_ind. intros y Hj.
  destruct j as [|j].
  { simpl in Hj. injection Hj as <-. apply Hirr. by left. }
  set (i := ((S j - 1) / 2)%nat).
  assert (Hi : (i < S j)%nat) by (unfold i; apply Nat.div_lt_upper_bound; lia).
  assert (is_Some ((x :: l) !! i)) as [z Hz].
  { apply lookup_lt_is_Some. apply lookup_lt_Some in Hj. lia. }
  apply (Hneg x z y); [by left|by eapply elem_of_list_lookup_2|by eapply elem_of_list_lookup_2| |].
  - by eapply IH.
  - eapply (Hheap (S j)); [lia|exact Hz|exact Hj].
Qed.

Section proofs.
Context {K V : Type} `{Countable K} (vcmp : V -> V -> bool) (A : heap_alg) (Hswo : swo vcmp).
Implicit Types (q : mq K V) (m : gmap K V).

Record qrel q m : Prop := {
  q_nodup : NoDup (mq_heap q);
  q_live : forall p, p ∈ mq_heap q -> is_Some (mq_mem q !! p);
  q_index : forall k p, mq_index q !! k = Some p <-> p ∈ mq_heap q /\ exists v, mq_mem q !! p = Some (k, v);
  q_map : forall k v, m !! k = Some v <-> exists p, p ∈ mq_heap q /\ mq_mem q !! p = Some (k, v);
  q_heap : is_heap (ptr_cmp vcmp (mq_mem q)) (mq_heap q);
  q_next : forall p, p ∈ mq_heap q -> (p < mq_next q)%nat;
  q_leak : forall p, is_Some (mq_mem q !! p) -> p ∈ mq_heap q }.

Lemma ptr_swo (mem : gmap nat (K * V)) l : (forall p, p ∈ l -> is_Some (mem !! p)) ->
  swo_on (ptr_cmp vcmp mem) l.
Proof.
  intros Hl. unfold ptr_cmp. split_and!.
  - intros x Hx. destruct (Hl x Hx) as [a ->]. apply (Hswo [a.2]). by left.
  - intros x y z Hx Hy Hz. destruct (Hl x Hx) as [a ->], (Hl y Hy) as [b ->], (Hl z Hz) as [c ->].
    apply (Hswo [a.2; b.2; c.2]); rewrite !elem_of_cons; tauto.
  - intros x y z Hx Hy Hz. destruct (Hl x Hx) as [a ->], (Hl y Hy) as [b ->], (Hl z Hz) as [c ->].
    apply (Hswo [a.2; b.2; c.2]); rewrite !elem_of_cons; tauto.
Qed.

Lemma all_live_ok (mem : gmap nat (K * V)) l : (forall p, p ∈ l -> is_Some (mem !! p)) -> all_live mem l = Ok tt.
Proof. intros Hl. unfold all_live. rewrite decide_True; [done|]. by apply Forall_forall. Qed.

Lemma qrel_empty : qrel mq_empty ∅.
Proof.
  constructor; simpl.
  - constructor.
  - intros p Hp. by apply elem_of_nil in Hp.
  - intros k p. rewrite lookup_empty. split; [done|]. intros [Hp _]. by apply elem_of_nil in Hp.
  - intros k v. rewrite lookup_empty. split; [done|]. intros (p & Hp & _). by apply elem_of_nil in Hp.
  - intros j x y _ Hx. by rewrite lookup_nil in Hx.
  - intros p Hp. by apply elem_of_nil in Hp.
  - intros p. rewrite lookup_empty. by intros [].
Qed.

Lemma key_unique q m p p' k v v' : qrel q m -> p ∈ mq_heap q -> p' ∈ mq_heap q ->
  mq_mem q !! p = Some (k, v) -> mq_mem q !! p' = Some (k, v') -> p = p'.
Proof.
  intros R Hp Hp' E E'.
  assert (mq_index q !! k = Some p) by (apply (q_index q m R); eauto).
  assert (mq_index q !! k = Some p') by (apply (q_index q m R); eauto). congruence.
Qed.

Lemma index_None q m k : qrel q m -> mq_index q !! k = None <-> m !! k = None.
Proof.
  intros R. rewrite !eq_None_not_Some. split; intros Hn [x Hx]; apply Hn.
  - apply (q_map q m R) in Hx as (p & Hp & E). exists p. apply (q_index q m R). eauto.
  - apply (q_index q m R) in Hx as (Hp & v & E). exists v. apply (q_map q m R). eauto.
Qed.

Lemma qrel_shows q m : qrel q m -> queue_shows vcmp q m.
Proof.
  intros R. split_and!.
  - intros k. unfold mq_contains. rewrite bool_decide_eq_true, <-!not_eq_None_Some.
    by rewrite (index_None q m k R).
  - intros k. unfold mq_find. destruct (m !! k) as [v|] eqn:E.
    + apply (q_map q m R) in E as (p & Hp & E).
      assert (mq_index q !! k = Some p) as -> by (apply (q_index q m R); eauto). simpl. by rewrite E.
    + apply (index_None q m k R) in E. by rewrite E.
  - unfold mq_size. rewrite <-(size_dom m).
    set (key p := fst <$> mq_mem q !! p).
    assert (Hperm : (Some <$> elements (dom m)) ≡ₚ (key <$> mq_heap q)).
    { apply NoDup_Permutation.
      - apply NoDup_fmap; [apply _|apply NoDup_elements].
      - apply NoDup_fmap_2_strong; [|apply R]. intros p p' Hp Hp' E. unfold key in E.
        destruct (q_live q m R p Hp) as [[k v] Hm], (q_live q m R p' Hp') as [[k' v'] Hm'].
        rewrite Hm, Hm' in E. simpl in E. injection E as <-. by eapply key_unique.
      - intros ok. rewrite !elem_of_list_fmap. split.
        + intros (k & -> & [v Hk]%elem_of_elements%elem_of_dom).
          apply (q_map q m R) in Hk as (p & Hp & E). exists p. unfold key. by rewrite E.
        + intros (p & -> & Hp). destruct (q_live q m R p Hp) as [[k v] Hm]. exists k.
          unfold key. rewrite Hm. split; [done|]. apply elem_of_elements, elem_of_dom. exists v.
          apply (q_map q m R). eauto. }
    apply Permutation_length in Hperm. rewrite !fmap_length in Hperm. symmetry. exact Hperm.
  - unfold mq_is_empty. rewrite bool_decide_eq_true. split.
    + intros Hl%nil_length_inv. apply map_empty. intros k. apply eq_None_not_Some. intros [v Hv].
      apply (q_map q m R) in Hv as (p & Hp & _). rewrite Hl in Hp. by apply elem_of_nil in Hp.
    + intros ->. destruct (mq_heap q) as [|p l] eqn:E; [done|]. exfalso.
      destruct (q_live q ∅ R p) as [[k v] Hm]; [rewrite E; by left|].
      assert ((∅ : gmap K V) !! k = Some v); [|by rewrite lookup_empty in *].
      apply (q_map q ∅ R). exists p. rewrite E. split; [by left|done].
  - intros Hne. destruct (mq_heap q) as [|p l] eqn:E.
    { exfalso. apply Hne. apply map_empty. intros k. apply eq_None_not_Some. intros [v Hv].
      apply (q_map q m R) in Hv as (p & Hp & _). rewrite E in Hp. by apply elem_of_nil in Hp. }
    destruct (q_live q m R p) as [[k v] Hm]; [rewrite E; by left|].
    exists k, v. unfold mq_top. rewrite E, Hm. split; [done|]. split.
    + apply (q_map q m R). exists p. rewrite E. split; [by left|done].
    + intros k' v' Hk'. apply (q_map q m R) in Hk' as (p' & Hp' & Hm').
      pose proof (q_heap q m R) as Hh. rewrite E in Hh, Hp'.
      pose proof (heap_front _ p l (ptr_swo (mq_mem q) (p :: l)
        ltac:(intros x Hx; apply (q_live q m R); by rewrite E)) Hh p' Hp') as Hf.
      unfold ptr_cmp in Hf. by rewrite Hm, Hm' in Hf.
Qed.

Lemma insert_rel q m k v : qrel q m -> m !! k = None ->
  exists q', mq_insert vcmp A q k v = Ok q' /\ qrel q' (<[k := v]> m).
Proof.
  intros R Hk. unfold mq_insert. set (mem := <[mq_next q := (k, v)]> (mq_mem q)).
  assert (Hfresh : mq_next q ∉ mq_heap q).
  { intros Hin. apply (q_next q m R) in Hin. lia. }
  assert (Hold : forall p, p ∈ mq_heap q -> mem !! p = mq_mem q !! p).
  { intros p Hp. unfold mem. rewrite lookup_insert_ne; [done|]. intros <-. done. }
  assert (Hnew : mem !! mq_next q = Some (k, v)) by apply lookup_insert.
  assert (Hlive : forall p, p ∈ mq_heap q ++ [mq_next q] -> is_Some (mem !! p)).
  { intros p [Hp| ->%elem_of_list_singleton]%elem_of_app; [|eauto].
    rewrite Hold by done. by apply (q_live q m R). }
  rewrite all_live_ok by done. simpl. eexists. split; [done|].
  destruct (push_ok A (ptr_cmp vcmp mem) (mq_heap q) (mq_next q)) as [Hp Hh].
  { by apply ptr_swo. }
  { intros j x y Hj Hx Hy. unfold ptr_cmp.
    rewrite !Hold by (by eapply elem_of_list_lookup_2). by apply (q_heap q m R j x y). }
  constructor; cbn [mq_heap mq_index mq_mem mq_next].
  - rewrite Hp. apply NoDup_app. split; [apply R|]. split; [|apply NoDup_singleton].
    intros p Hin ->%elem_of_list_singleton. done.
  - intros p. rewrite Hp. apply Hlive.
  - intros k' p. rewrite Hp. destruct (decide (k' = k)) as [->|Hne].
    + rewrite lookup_insert. split.
      * intros [= <-]. split; [apply elem_of_app; right; by left|]. eauto.
      * intros [[Hin| ->%elem_of_list_singleton]%elem_of_app [v' Hv']]; [|done]. exfalso.
        rewrite Hold in Hv' by done.
        assert (m !! k = Some v') by (apply (q_map q m R); eauto). congruence.
    + rewrite lookup_insert_ne by done. rewrite (q_index q m R). split.
      * intros [Hin [v' Hv']]. split; [apply elem_of_app; by left|]. exists v'. by rewrite Hold.
      * intros [[Hin| ->%elem_of_list_singleton]%elem_of_app [v' Hv']]; [|congruence].
        rewrite Hold in Hv' by done. eauto.
  - intros k' v'. setoid_rewrite Hp. destruct (decide (k' = k)) as [->|Hne].
    + rewrite lookup_insert. split.
      * intros [= <-]. exists (mq_next q). split; [apply elem_of_app; right; by left|done].
      * intros (p & [Hin| ->%elem_of_list_singleton]%elem_of_app & Hv'); [|congruence]. exfalso.
        rewrite Hold in Hv' by done.
        assert (m !! k = Some v') by (apply (q_map q m R); eauto). congruence.
    + rewrite lookup_insert_ne by done. rewrite (q_map q m R). split.
      * intros (p & Hin & Hv'). exists p. split; [apply elem_of_app; by left|]. by rewrite Hold.
      * intros (p & [Hin| ->%elem_of_list_singleton]%elem_of_app & Hv'); [|congruence].
        exists p. by rewrite Hold in Hv'.
  - done.
  - intros p. rewrite Hp. intros [Hin| ->%elem_of_list_singleton]%elem_of_app; [|lia].
    apply (q_next q m R) in Hin. lia.
  - intros p. rewrite Hp, elem_of_app. destruct (decide (p = mq_next q)) as [->|Hne]; [intros; right; by left|].
    unfold mem. rewrite lookup_insert_ne by done. intros Hs. left. by apply (q_leak q m R).
Qed.

Lemma update_rel q m k v : qrel q m ->
  match m !! k with
  | Some _ => exists q', mq_update vcmp A q k v = Ok q' /\ qrel q' (<[k := v]> m)
  | None => mq_update vcmp A q k v = CheckFail
  end.
Proof.
  intros R. unfold mq_update. destruct (m !! k) as [v0|] eqn:E.
  2:{ apply (index_None q m k R) in E. by rewrite E. }
  apply (q_map q m R) in E as (p & Hp & Em).
  assert (mq_index q !! k = Some p) as Hi by (apply (q_index q m R); eauto).
  rewrite Hi. simpl. rewrite Em. simpl.
  set (mem := <[p := (k, v)]> (mq_mem q)).
  assert (Hold : forall p', p' ≠ p -> mem !! p' = mq_mem q !! p').
  { intros p' Hne. unfold mem. by rewrite lookup_insert_ne. }
  assert (Hnew : mem !! p = Some (k, v)) by apply lookup_insert.
  assert (Hlive : forall p', p' ∈ mq_heap q -> is_Some (mem !! p')).
  { intros p' Hp'. destruct (decide (p' = p)) as [->|]; [eauto|]. rewrite Hold by done.
    by apply (q_live q m R). }
  rewrite all_live_ok by done. simpl. eexists. split; [done|].
  destruct (make_ok A (ptr_cmp vcmp mem) (mq_heap q)) as [Hpm Hh]; [by apply ptr_swo|].
  constructor; cbn [mq_heap mq_index mq_mem mq_next].
  - rewrite Hpm. apply R.
  - intros p'. rewrite Hpm. apply Hlive.
  - intros k' p'. rewrite Hpm, (q_index q m R). split; intros [Hin [v' Hv']]; (split; [done|]).
    + destruct (decide (p' = p)) as [->|]; [|exists v'; by rewrite Hold].
      exists v. rewrite Hnew. congruence.
    + destruct (decide (p' = p)) as [->|]; [|exists v'; by rewrite Hold in Hv'].
      exists v0. rewrite Hnew in Hv'. congruence.
  - intros k' v'. setoid_rewrite Hpm. destruct (decide (k' = k)) as [->|Hne].
    + rewrite lookup_insert. split.
      * intros [= <-]. exists p. done.
      * intros (p' & Hin & Hv'). destruct (decide (p' = p)) as [->|]; [congruence|].
        rewrite Hold in Hv' by done. exfalso. by pose proof (key_unique q m p' p k v' v0 R Hin Hp Hv' Em).
    + rewrite lookup_insert_ne by done. rewrite (q_map q m R).
      split; intros (p' & Hin & Hv'); exists p'; (split; [done|]).
      * rewrite Hold; [done|]. intros ->. congruence.
      * destruct (decide (p' = p)) as [->|]; [congruence|]. by rewrite Hold in Hv'.
  - done.
  - intros p'. rewrite Hpm. apply R.
  - intros p'. rewrite Hpm. destruct (decide (p' = p)) as [->|Hne]; [done|].
    rewrite Hold by done. apply (q_leak q m R).
Qed.

Lemma erase_rel q m k : qrel q m ->
  exists q', mq_erase vcmp A q k = Ok q' /\ qrel q' (delete k m).
Proof.
  intros R. unfold mq_erase. destruct (mq_index q !! k) as [p|] eqn:E.
  2:{ exists q. split; [done|]. apply (index_None q m k R) in E. by rewrite delete_notin. }
  apply (q_index q m R) in E as (Hp & v0 & Em). rewrite decide_True by done.
  set (l := filter (fun p' => p' ≠ p) (mq_heap q)).
  assert (Hl : forall p', p' ∈ l <-> p' ≠ p /\ p' ∈ mq_heap q).
  { intros p'. unfold l. by rewrite elem_of_list_filter. }
  rewrite all_live_ok by (intros p' [_ ?]%Hl; by apply (q_live q m R)). simpl. eexists. split; [done|].
  destruct (make_ok A (ptr_cmp vcmp (mq_mem q)) l) as [Hpm Hh].
  { apply ptr_swo. intros p' [_ ?]%Hl. by apply (q_live q m R). }
  assert (Hold : forall p', p' ∈ l -> delete p (mq_mem q) !! p' = mq_mem q !! p').
  { intros p' [? _]%Hl. by rewrite lookup_delete_ne. }
  constructor; cbn [mq_heap mq_index mq_mem mq_next].
  - rewrite Hpm. apply NoDup_filter, R.
  - intros p'. rewrite Hpm. intros Hp'. rewrite Hold by done. apply Hl in Hp' as [_ ?]. by apply (q_live q m R).
  - intros k' p'. rewrite Hpm. destruct (decide (k' = k)) as [->|Hne].
    + rewrite lookup_delete. split; [done|]. intros [Hin [v' Hv']]. exfalso. rewrite Hold in Hv' by done.
      apply Hl in Hin as [Hne Hin]. apply Hne. by eapply key_unique.
    + rewrite lookup_delete_ne by done. rewrite (q_index q m R). split.
      * intros [Hin [v' Hv']]. assert (p' ∈ l) by (apply Hl; split; [congruence|done]).
        split; [done|]. exists v'. by rewrite Hold.
      * intros [Hin [v' Hv']]. rewrite Hold in Hv' by done. apply Hl in Hin as [_ Hin]. eauto.
  - intros k' v'. setoid_rewrite Hpm. destruct (decide (k' = k)) as [->|Hne].
    + rewrite lookup_delete. split; [done|]. intros (p' & Hin & Hv'). exfalso. rewrite Hold in Hv' by done.
      apply Hl in Hin as [Hne Hin]. apply Hne. by eapply key_unique.
    + rewrite lookup_delete_ne by done. rewrite (q_map q m R). split.
      * intros (p' & Hin & Hv'). assert (p' ∈ l) by (apply Hl; split; [congruence|done]).
        exists p'. split; [done|]. by rewrite Hold.
      * intros (p' & Hin & Hv'). rewrite Hold in Hv' by done. apply Hl in Hin as [_ Hin]. eauto.
  - intros j x y Hj Hx Hy. unfold ptr_cmp.
    assert (x ∈ l) by (rewrite <-Hpm; by eapply elem_of_list_lookup_2).
    assert (y ∈ l) by (rewrite <-Hpm; by eapply elem_of_list_lookup_2).
    rewrite !Hold by done. by apply (Hh j x y).
  - intros p'. rewrite Hpm. intros [_ ?]%Hl. by apply (q_next q m R).
  - intros p'. rewrite Hpm, Hl. destruct (decide (p' = p)) as [->|Hne']; [by rewrite lookup_delete; intros []|].
    rewrite lookup_delete_ne by done. intros Hs. split; [done|]. by apply (q_leak q m R).
Qed.

Lemma removelast_snoc {B} (l : list B) x : removelast (l ++ [x]) = l.
Proof. rewrite removelast_app by done. simpl. by rewrite app_nil_r. Qed.

Lemma pop_rel q m : qrel q m ->
  match mq_top q with
  | Ok (k, v) => exists q', mq_pop vcmp A q = Ok q' /\ qrel q' (delete k m)
  | _ => m = ∅ /\ mq_top q = UB /\ mq_pop vcmp A q = UB
  end.
Proof.
  intros R. destruct (decide (m = ∅)) as [->|Hne].
  { destruct (qrel_shows q ∅ R) as (_ & _ & _ & He & _).
    assert (mq_heap q = []) as E.
    { apply nil_length_inv. apply (bool_decide_eq_true _). by apply He. }
    unfold mq_top, mq_pop. by rewrite E. }
  destruct (qrel_shows q m R) as (_ & _ & _ & _ & Ht). destruct (Ht Hne) as (k & v & Htop & Hk & _). rewrite Htop.
  unfold mq_top in Htop. unfold mq_pop.
  destruct (mq_heap q) as [|p l] eqn:E; [done|]. apply or_ub_Ok in Htop as Em.
  rewrite Htop. cbn [mbind outcome_bind fst].
  pose proof (q_nodup q m R) as Hnd. rewrite E in Hnd. apply NoDup_cons in Hnd as [Hpl Hnd].
  assert (Hp : p ∈ mq_heap q) by (rewrite E; by left).
  assert (Hl : forall p', p' ∈ l <-> p' ≠ p /\ p' ∈ mq_heap q).
  { intros p'. rewrite E, elem_of_cons. split; [|tauto]. intros Hin. split; [by intros ->|by right]. }
  assert (Hold : forall p', p' ∈ l -> delete p (mq_mem q) !! p' = mq_mem q !! p').
  { intros p' [? _]%Hl. by rewrite lookup_delete_ne. }
  rewrite all_live_ok.
  2:{ intros p' Hp'. rewrite Hold by done. apply Hl in Hp' as [_ ?]. by apply (q_live q m R). }
  cbn [mbind outcome_bind].
  destruct (pop_ok A (ptr_cmp vcmp (mq_mem q)) (ptr_cmp vcmp (delete p (mq_mem q))) p l) as (l' & Hpop & Hpm & Hh).
  { apply ptr_swo. intros x Hx. apply (q_live q m R). by rewrite E. }
  { pose proof (q_heap q m R) as Hh. by rewrite E in Hh. }
  { intros y z Hy Hz. unfold ptr_cmp. by rewrite !Hold. }
  eexists. split; [done|]. rewrite Hpop, removelast_snoc.
  constructor; cbn [mq_heap mq_index mq_mem mq_next].
  - by rewrite Hpm.
  - intros p'. rewrite Hpm. intros Hp'. rewrite Hold by done. apply Hl in Hp' as [_ ?]. by apply (q_live q m R).
  - intros k' p'. rewrite Hpm. destruct (decide (k' = k)) as [->|Hne'].
    + rewrite lookup_delete. split; [done|]. intros [Hin [v' Hv']]. exfalso. rewrite Hold in Hv' by done.
      apply Hl in Hin as [Hne' Hin]. apply Hne'. by eapply key_unique.
    + rewrite lookup_delete_ne by done. rewrite (q_index q m R). split.
      * intros [Hin [v' Hv']]. assert (p' ∈ l) by (apply Hl; split; [congruence|done]).
        split; [done|]. exists v'. by rewrite Hold.
      * intros [Hin [v' Hv']]. rewrite Hold in Hv' by done. apply Hl in Hin as [_ Hin]. eauto.
  - intros k' v'. setoid_rewrite Hpm. destruct (decide (k' = k)) as [->|Hne'].
    + rewrite lookup_delete. split; [done|]. intros (p' & Hin & Hv'). exfalso. rewrite Hold in Hv' by done.
      apply Hl in Hin as [Hne' Hin]. apply Hne'. by eapply key_unique.
    + rewrite lookup_delete_ne by done. rewrite (q_map q m R). split.
      * intros (p' & Hin & Hv'). assert (p' ∈ l) by (apply Hl; split; [congruence|done]).
        exists p'. split; [done|]. by rewrite Hold.
      * intros (p' & Hin & Hv'). rewrite Hold in Hv' by done. apply Hl in Hin as [_ Hin]. eauto.
  - done.
  - intros p'. rewrite Hpm. intros [_ ?]%Hl. by apply (q_next q m R).
  - intros p'. rewrite Hpm, Hl. destruct (decide (p' = p)) as [->|Hne']; [by rewrite lookup_delete; intros []|].
    rewrite lookup_delete_ne by done. intros Hs. split; [done|]. by apply (q_leak q m R).
Qed.

Lemma clear_rel q m : qrel q m -> exists q', mq_clear q = Ok q' /\ mq_mem q' = ∅ /\ qrel q' ∅.
Proof.
  intros R. unfold mq_clear. rewrite all_live_ok by apply R. simpl. rewrite decide_True by apply R.
  eexists. split; [done|]. simpl.
  match goal with |- ?mm = ∅ /\ _ => assert (Hemp : mm = ∅); [|split; [exact Hemp|]] end.
  { apply map_empty. intros p. destruct (decide (p ∈ mq_heap q)) as [Hp|Hp].
    - induction (mq_heap q) as [|p' l IH]; simpl; [by apply elem_of_nil in Hp|].
      destruct (decide (p' = p)) as [->|]; [apply lookup_delete|]. rewrite lookup_delete_ne by done.
      apply IH. apply elem_of_cons in Hp as [->|]; done.
    - assert (Hn : mq_mem q !! p = None).
      { apply eq_None_not_Some. intros Hs. by apply Hp, (q_leak q m R). }
      clear -Hn. induction (mq_heap q) as [|p' l IH]; simpl; [done|]. by apply lookup_delete_None; right. }
  constructor; simpl.
  - constructor.
  - intros p Hp. by apply elem_of_nil in Hp.
  - intros k p. rewrite lookup_empty. split; [done|]. intros [Hp _]. by apply elem_of_nil in Hp.
  - intros k v. rewrite lookup_empty. split; [done|]. intros (p & Hp & _). by apply elem_of_nil in Hp.
  - intros j x y _ Hx. by rewrite lookup_nil in Hx.
  - intros p Hp. by apply elem_of_nil in Hp.
  - intros p Hs. exfalso. revert Hs. match goal with |- is_Some (?mm !! _) -> _ => assert (E : mm = ∅) by exact Hemp end.
    rewrite E, lookup_empty. by intros [].
Qed.

Lemma history_rel q m : history vcmp A q m -> qrel q m.
Proof.
  induction 1 as [|q m k v q' Hh IH Hk E|q m k v q' Hh IH E|q m k q' Hh IH E|q m k v q' Hh IH Ht E|q m q' Hh IH E].
  - apply qrel_empty.
  - destruct (insert_rel q m k v IH Hk) as (q2 & E2 & ?). congruence.
  - pose proof (update_rel q m k v IH) as Hu. destruct (m !! k); [|congruence].
    destruct Hu as (q2 & E2 & ?). congruence.
  - destruct (erase_rel q m k IH) as (q2 & E2 & ?). congruence.
  - pose proof (pop_rel q m IH) as Hp. rewrite Ht in Hp. destruct Hp as (q2 & E2 & ?). congruence.
  - destruct (clear_rel q m IH) as (q2 & E2 & _ & ?). congruence.
Qed.

Lemma mpq_lemma q m : history vcmp A q m ->
  queue_shows vcmp q m /\
  (forall k v, m !! k = None -> exists q', mq_insert vcmp A q k v = Ok q') /\
  (forall k v, is_Some (m !! k) -> exists q', mq_update vcmp A q k v = Ok q') /\
  (forall k v, m !! k = None -> mq_update vcmp A q k v = CheckFail) /\
  (forall k, exists q', mq_erase vcmp A q k = Ok q') /\
  (m ≠ ∅ -> exists q', mq_pop vcmp A q = Ok q') /\
  size (mq_mem q) = size m /\
  (exists q', mq_clear q = Ok q' /\ mq_mem q' = ∅).
Proof.
  intros R%history_rel. split; [by apply qrel_shows|]. split_and!.
  - intros k v Hk. destruct (insert_rel q m k v R Hk) as (q' & ? & _). eauto.
  - intros k v [v0 Hk]. pose proof (update_rel q m k v R) as Hu. rewrite Hk in Hu.
    destruct Hu as (q' & ? & _). eauto.
  - intros k v Hk. pose proof (update_rel q m k v R) as Hu. by rewrite Hk in Hu.
  - intros k. destruct (erase_rel q m k R) as (q' & ? & _). eauto.
  - intros Hne. pose proof (pop_rel q m R) as Hp.
    destruct (qrel_shows q m R) as (_ & _ & _ & _ & Ht). destruct (Ht Hne) as (k & v & Htop & _).
    rewrite Htop in Hp. destruct Hp as (q' & ? & _). eauto.
  - destruct (qrel_shows q m R) as (_ & _ & <- & _ & _). unfold mq_size.
    rewrite <-(size_dom (mq_mem q)), <-(size_list_to_set (C := gset nat)) by apply R. f_equal. apply set_eq. intros p.
    rewrite elem_of_dom, elem_of_list_to_set. split; [apply (q_leak q m R)|apply (q_live q m R)].
  - destruct (clear_rel q m R) as (q' & ? & ? & _). eauto.
Qed.

End proofs.

(** ** An implementation of the heap functions, for examples: sorted lists are heaps *)

Lemma swo_on_sub {A} (cmp : A -> A -> bool) l l' : (forall x, x ∈ l' -> x ∈ l) -> swo_on cmp l -> swo_on cmp l'.
Proof. intros Hs (H1 & H2 & H3). split_and!; eauto. Qed.

Section sorting.
Context (cmp : nat -> nat -> bool).
Fixpoint ins (x : nat) (l : list nat) : list nat :=
  match l with [] => [x] | y :: l' => if cmp x y then y :: ins x l' else x :: l end.
Definition isort (l : list nat) : list nat := foldr ins [] l.

Lemma ins_perm x l : ins x l ≡ₚ x :: l.
Proof.
  induction l as [|y l IH]; simpl; [done|]. destruct (cmp x y); [|done].
  rewrite IH. by rewrite Permutation_swap.
Qed.
Lemma isort_perm l : isort l ≡ₚ l.
Proof. induction l as [|x l IH]; simpl; [done|]. by rewrite ins_perm, IH. Qed.

(** Earlier elements are not less than later ones. *)
Definition desc (l : list nat) : Prop :=
  forall i j x y, (i < j)%nat -> l !! i = Some x -> l !! j = Some y -> cmp x y = false.

Lemma desc_cons x l : desc (x :: l) <-> (forall y, y ∈ l -> cmp x y = false) /\ desc l.
Proof.
  split.
  - intros Hd. split.
    + intros y [j Hj]%elem_of_list_lookup. by apply (Hd 0 (S j)); [lia|..].
    + intros i j a b Hij Ha Hb. apply (Hd (S i) (S j)); [lia|done..].
  - intros [H1 H2] [|i] [|j] a b Hij Ha Hb; try lia.
    + injection Ha as <-. apply H1. simpl in Hb. by eapply elem_of_list_lookup_2.
    + apply (H2 i j); [lia|done..].
Qed.

Lemma desc_ins x l : swo_on cmp (x :: l) -> desc l -> desc (ins x l).
Proof.
  induction l as [|y l IH]; intros Hs Hd; simpl.
  { apply desc_cons. split; [|done]. intros y Hy. by apply elem_of_nil in Hy. }
  assert (Hs' : swo_on cmp (x :: l)).
  { eapply swo_on_sub; [|exact Hs]. intros z. rewrite !elem_of_cons. tauto. }
  apply desc_cons in Hd as [Hy Hd]. destruct (cmp x y) eqn:E.
  - apply desc_cons. split; [|by apply IH]. intros z Hz. rewrite ins_perm in Hz.
    apply elem_of_cons in Hz as [->|Hz]; [|by apply Hy].
    destruct Hs as (H1 & H2 & _). apply not_true_is_false. intros E'.
    assert (cmp x x = true) by (eapply (H2 x y x); set_solver).
    assert (cmp x x = false) by (apply H1; set_solver). congruence.
  - apply desc_cons. split; [|by apply desc_cons]. intros z [->|Hz]%elem_of_cons; [done|].
    destruct Hs as (_ & _ & H3). apply (H3 x y z); [set_solver..|done|by apply Hy].
Qed.

Lemma desc_isort l : swo_on cmp l -> desc (isort l).
Proof.
  induction l as [|x l IH]; intros Hs; simpl.
  { intros i j x y _ Hx. by rewrite lookup_nil in Hx. }
  apply desc_ins.
  - destruct Hs as (H1 & H2 & H3). split_and!; intros *; rewrite isort_perm;
      [apply H1|apply H2|apply H3].
  - apply IH. eapply swo_on_sub; [|exact Hs]. by right.
Qed.

Lemma desc_heap l : desc l -> is_heap cmp l.
Proof.
  intros Hd j x y Hj. apply Hd. apply Nat.div_lt_upper_bound; lia.
Qed.
End sorting.

Lemma swo_on_ext {A} (cmp cmp' : A -> A -> bool) l :
  (forall y z, y ∈ l -> z ∈ l -> cmp' y z = cmp y z) -> swo_on cmp l -> swo_on cmp' l.
Proof.
  intros E (H1 & H2 & H3). split_and!.
  - intros x Hx. rewrite E by done. auto.
  - intros x y z Hx Hy Hz. rewrite !E by done. by apply H2.
  - intros x y z Hx Hy Hz. rewrite !E by done. by apply H3.
Qed.

Definition sorted_heaps : heap_alg.
Proof.
  refine (HeapAlg isort
    (fun cmp l => match l with [] => [] | x :: l' => isort cmp l' ++ [x] end) isort _ _ _).
  - intros cmp l x Hs _. split; [apply isort_perm|]. by apply desc_heap, desc_isort.
  - intros cmp cmp' x l Hs _ E. exists (isort cmp' l). split; [done|]. split; [apply isort_perm|].
    apply desc_heap, desc_isort. eapply swo_on_ext; [exact E|].
    eapply swo_on_sub; [|exact Hs]. by right.
  - intros cmp l Hs. split; [apply isort_perm|]. by apply desc_heap, desc_isort.
Defined.

(** ** Executable histories, for examples *)

Inductive hop (K V : Type) := HInsert (k : K) (v : V) | HUpdate (k : K) (v : V) | HErase (k : K) | HPop.
Arguments HInsert {_ _}. Arguments HUpdate {_ _}. Arguments HErase {_ _}. Arguments HPop {_ _}.

Section exec.
Context {K V : Type} `{Countable K} (vcmp : V -> V -> bool) (A : heap_alg).

Definition hexec (s : mq K V * gmap K V) (o : hop K V) : option (mq K V * gmap K V) :=
  let (q, m) := s in
  match o with
  | HInsert k v => if decide (m !! k = None) then
      match mq_insert vcmp A q k v with Ok q' => Some (q', <[k := v]> m) | _ => None end else None
  | HUpdate k v => match mq_update vcmp A q k v with Ok q' => Some (q', <[k := v]> m) | _ => None end
  | HErase k => match mq_erase vcmp A q k with Ok q' => Some (q', delete k m) | _ => None end
  | HPop => match mq_top q, mq_pop vcmp A q with Ok (k, _), Ok q' => Some (q', delete k m) | _, _ => None end
  end.

Definition hexecs (l : list (hop K V)) : option (mq K V * gmap K V) :=
  foldl (fun s o => s ← s; hexec s o) (Some (mq_empty, ∅)) l.

Lemma hexecs_sound l q m : hexecs l = Some (q, m) -> history vcmp A q m.
Proof.
  unfold hexecs. revert q m. induction l as [|o l IH] using rev_ind; intros q m.
  { simpl. intros [= <- <-]. constructor. }
  rewrite foldl_app. simpl.
  destruct (foldl _ _ l) as [[q0 m0]|] eqn:E; simpl; [|done]. specialize (IH q0 m0 eq_refl).
  destruct o as [k v|k v|k|]; simpl.
  - destruct (decide _); [|done]. destruct (mq_insert _ _ _ _ _) eqn:E1; try done. intros [= <- <-]. by eapply h_insert.
  - destruct (mq_update _ _ _ _ _) eqn:E1; try done. intros [= <- <-]. by eapply h_update.
  - destruct (mq_erase _ _ _ _) eqn:E1; try done. intros [= <- <-]. by eapply h_erase.
  - destruct (mq_top q0) as [[k v]| | |] eqn:E0; try done.
    destruct (mq_pop _ _ _) eqn:E1; try done. intros [= <- <-]. by eapply h_pop.
Qed.
End exec.
