(** Proofs about the LRU cache. *)
From stdpp Require Import gmap.
From Verif Require Import Base LRUCache_Model LRUCache_Spec.

Section proofs.
Context {K V : Type} `{Countable K} (fetch : K -> V).
Implicit Types (h : list (lru_op K V)) (s : lru K V).

Lemma filter_id {A} (P : A -> Prop) `{!forall x, Decision (P x)} (l : list A) :
  (forall x, x ∈ l -> P x) -> filter P l = l.
Proof.
  induction l as [|x l IH]; intros Hl; [done|]. rewrite filter_cons_True; [|apply Hl; by left].
  f_equal. apply IH. intros y Hy. apply Hl. by right.
Qed.

Lemma NoDup_recent h : NoDup (recent h).
Proof.
  induction h as [|o h IH]; simpl; [constructor|]. apply NoDup_cons. split.
  - intros [? _]%elem_of_list_filter. done.
  - by apply NoDup_filter.
Qed.

(** One more use of a key, seen on the capped list. *)
Lemma take_filter_in (n : nat) (k : K) (l : list K) : NoDup l -> k ∈ take n l ->
  take n (k :: filter (fun x => x ≠ k) l) = k :: filter (fun x => x ≠ k) (take n l).
Proof.
  revert n. induction l as [|x l IH]; intros n Hnd Hin.
  { destruct n; simpl in *; by apply elem_of_nil in Hin. }
  destruct n as [|n]; [by apply elem_of_nil in Hin|]. apply NoDup_cons in Hnd as [Hx Hnd].
  cbn [take]. f_equal. cbn [take] in Hin. apply elem_of_cons in Hin as [->|Hin].
  - rewrite !filter_cons_False by tauto.
    rewrite !filter_id; [done| |].
    + intros y Hy ->. apply Hx.
      by apply elem_of_take in Hy as (i & Hi & _); eapply elem_of_list_lookup_2.
    + by intros y Hy ->.
  - assert (Hne : x ≠ k).
    { intros ->. apply Hx. apply elem_of_take in Hin as (i & Hi & _). by eapply elem_of_list_lookup_2. }
    rewrite !filter_cons_True by done. destruct n as [|n]; [by apply elem_of_nil in Hin|].
    specialize (IH (S n) Hnd Hin). cbn [take] in IH. injection IH as IH. cbn [take]. by rewrite IH.
Qed.

Lemma take_filter_notin (n : nat) (k : K) (l : list K) : k ∉ take (S n) l ->
  take n (filter (fun x => x ≠ k) l) = take n l.
Proof.
  revert n. induction l as [|x l IH]; intros n Hin; [done|]. cbn [take] in Hin.
  apply not_elem_of_cons in Hin as [Hne Hin]. rewrite filter_cons_True by congruence.
  destruct n as [|n]; [done|]. cbn [take]. f_equal. by apply IH.
Qed.

Section cap.
Context (max : nat) (Hmax : (0 < max)%nat).

Lemma NoDup_cached h : NoDup (cached max h).
Proof.
  pose proof (NoDup_recent h) as Hnd. rewrite <-(take_drop max (recent h)) in Hnd.
  by apply NoDup_app in Hnd as [? _].
Qed.

Lemma cached_hit h o : op_key o ∈ cached max h ->
  cached max (o :: h) = op_key o :: filter (fun x => x ≠ op_key o) (cached max h).
Proof. intros Hin. unfold cached. simpl recent. apply take_filter_in; [apply NoDup_recent|done]. Qed.

Lemma cached_miss h o : op_key o ∉ cached max h ->
  cached max (o :: h) = op_key o :: take (max - 1) (cached max h).
Proof.
  intros Hin. unfold cached in *. simpl recent. destruct max as [|n]; [lia|].
  cbn [take]. f_equal. rewrite take_filter_notin by done. rewrite take_take.
  by replace ((S n - 1) `min` S n)%nat with n by lia.
Qed.

Lemma held_cached h k : is_Some (held fetch max h k) <-> k ∈ cached max h.
Proof.
  induction h as [|o h IH] in k |- *; simpl.
  { unfold cached. simpl. rewrite take_nil. rewrite elem_of_nil. split; [by intros [? ?]|done]. }
  case_decide as E.
  - subst k. split; intros _; [|by destruct o; eauto].
    destruct (decide (op_key o ∈ cached max h)); [rewrite cached_hit by done|rewrite cached_miss by done]; by left.
  - case_decide as E2; [|split; [by intros [? ?]|done]]. split; [done|]. intros _. apply IH.
    destruct (decide (op_key o ∈ cached max h)) as [Hin|Hin].
    + rewrite cached_hit in E2 by done. apply elem_of_cons in E2 as [?|[_ ?]%elem_of_list_filter]; done.
    + rewrite cached_miss in E2 by done. apply elem_of_cons in E2 as [?|E2]; [done|].
      apply elem_of_take in E2 as (i & Hi & _). by eapply elem_of_list_lookup_2.
Qed.

(** The concrete cache after the history [h]. *)
Record lrel s h : Prop := {
  lrel_max : lru_max s = Z.of_nat max;
  lrel_list : (lru_list s).*2 = reverse (cached max h);
  lrel_nodes : NoDup (lru_list s).*1;
  lrel_next : forall n k, (n, k) ∈ lru_list s -> (n < lru_next s)%nat;
  lrel_map : forall k v n, lru_map s !! k = Some (v, n) <->
    held fetch max h k = Some v /\ (n, k) ∈ lru_list s;
  lrel_hits : lru_hits s = N.of_nat (hits_of max h);
  lrel_misses : (lru_hits s + lru_misses s)%N = N.of_nat (fetches_of h) }.

Lemma lrel_key s h k : lrel s h -> (exists n, (n, k) ∈ lru_list s) <-> k ∈ cached max h.
Proof.
  intros R. rewrite <-elem_of_reverse, <-(lrel_list s h R), elem_of_list_fmap. split.
  - intros [n Hn]. by exists (n, k).
  - intros ([n k'] & -> & ?). eauto.
Qed.

Lemma lrel_is_Some s h k : lrel s h -> is_Some (lru_map s !! k) <-> k ∈ cached max h.
Proof.
  intros R. split.
  - intros [[v n] Hk]. apply (lrel_map s h R) in Hk as [Hh _]. apply held_cached. eauto.
  - intros Hk. apply held_cached in Hk as Hh. destruct Hh as [v Hv].
    apply (lrel_key s h k R) in Hk as [n Hn]. exists (v, n). by apply (lrel_map s h R).
Qed.

Lemma lrel_size s h : lrel s h -> size (lru_map s) = length (cached max h).
Proof.
  intros R. rewrite <-size_dom.
  assert (dom (lru_map s) = list_to_set (cached max h)) as ->.
  { apply set_eq. intros k. rewrite elem_of_dom, elem_of_list_to_set. by apply lrel_is_Some. }
  rewrite size_list_to_set by apply NoDup_cached. done.
Qed.

Lemma keys_NoDup s h : lrel s h -> NoDup (lru_list s).*2.
Proof. intros R. rewrite (lrel_list s h R), reverse_Permutation. apply NoDup_cached. Qed.

Lemma pair_unique_l (l : list (nat * K)) n k k' : NoDup l.*1 -> (n, k) ∈ l -> (n, k') ∈ l -> k = k'.
Proof.
  intros Hnd [i Hi]%elem_of_list_lookup [j Hj]%elem_of_list_lookup.
  assert (i = j) as <-; [|congruence].
  eapply NoDup_lookup; [exact Hnd|rewrite list_lookup_fmap, Hi; done|rewrite list_lookup_fmap, Hj; done].
Qed.
Lemma pair_unique_r (l : list (nat * K)) n n' k : NoDup l.*2 -> (n, k) ∈ l -> (n', k) ∈ l -> n = n'.
Proof.
  intros Hnd [i Hi]%elem_of_list_lookup [j Hj]%elem_of_list_lookup.
  assert (i = j) as <-; [|congruence].
  eapply NoDup_lookup; [exact Hnd|rewrite list_lookup_fmap, Hi; done|rewrite list_lookup_fmap, Hj; done].
Qed.

Lemma splice_snd (l : list (nat * K)) n k : NoDup l.*1 -> NoDup l.*2 -> (n, k) ∈ l ->
  (splice_back l n).*2 = filter (fun x => x ≠ k) l.*2 ++ [k] /\ splice_back l n ≡ₚ l.
Proof.
  intros Hn Hk Hin. unfold splice_back. split.
  - rewrite fmap_app. f_equal.
    + assert (Hiff : forall x, x ∈ l -> x.1 ≠ n <-> x.2 ≠ k).
      { intros [n' k'] Hx. simpl. split; intros Hne ->; apply Hne;
          [by eapply pair_unique_r|by eapply pair_unique_l]. }
      clear Hn Hk Hin. induction l as [|x l IH]; [done|].
      rewrite fmap_cons, !filter_cons. destruct (Hiff x (elem_of_list_here _ _)) as [H1 H2].
      rewrite <-IH by (intros y Hy; apply Hiff; by right).
      repeat case_decide; tauto || done.
    + assert (filter (fun x => x.1 = n) l = [(n, k)]) as ->; [|done].
      clear Hk. induction l as [|[n' k'] l IH]; [by apply elem_of_nil in Hin|].
      rewrite fmap_cons in Hn. apply NoDup_cons in Hn as [Hx Hn]. simpl in Hx.
      rewrite filter_cons. simpl. apply elem_of_cons in Hin as [[= <- <-]|Hin].
      * rewrite decide_True by done. f_equal.
        assert (Hempty : forall q, q ⊆ l -> filter (fun x => x.1 = n) q = []).
        { induction q as [|[a b] q IHq]; intros Hsub; [done|]. rewrite filter_cons_False.
          - apply IHq. intros y Hy. apply Hsub. by right.
          - simpl. intros ->. apply Hx. apply elem_of_list_fmap. exists (n, b). split; [done|]. apply Hsub. by left. }
        by apply Hempty.
      * rewrite decide_False; [by apply IH|]. intros ->. apply Hx. apply elem_of_list_fmap. by exists (n, k).
  - clear. induction l as [|x l IH]; [done|]. rewrite !filter_cons.
    destruct (decide (x.1 = n)).
    + rewrite decide_False by tauto. rewrite <-Permutation_middle. by constructor.
    + rewrite decide_True by done. simpl. by constructor.
Qed.

Lemma fetches_cons o h : fetches_of (o :: h) = ((if decide (is_fetch o) then 1 else 0) + fetches_of h)%nat.
Proof. unfold fetches_of. rewrite filter_cons. by case_decide. Qed.

Context (Hbound : (Z.of_nat max < 2 ^ 31)%Z).

(** A hit. *)
Lemma hit_ok s h k v n : lrel s h -> lru_map s !! k = Some (v, n) ->
  lrel (LRU (lru_max s) (splice_back (lru_list s) n) (lru_map s) (lru_misses s) (lru_hits s + 1)
    (lru_next s)) (Fetch k :: h).
Proof.
  intros R E. apply (lrel_map s h R) in E as E'. destruct E' as [Hh Hin].
  assert (Hc : k ∈ cached max h) by (apply held_cached; eauto).
  destruct (splice_snd (lru_list s) n k (lrel_nodes s h R) (keys_NoDup s h R) Hin) as [Hs Hp].
  assert (Hch : cached max (Fetch k :: h) = k :: filter (fun x => x ≠ k) (cached max h))
    by (by apply (cached_hit h (Fetch k))).
  constructor; cbn [lru_max lru_list lru_map lru_misses lru_hits lru_next].
  - apply R.
  - rewrite Hs, (lrel_list s h R), Hch, reverse_cons. f_equal.
    clear. induction (cached max h) as [|x l IH]; [done|].
    rewrite reverse_cons, filter_app, IH, !filter_cons, filter_nil.
    case_decide; [by rewrite reverse_cons|by rewrite app_nil_r].
  - rewrite (fmap_Permutation _ _ _ Hp). apply R.
  - intros n' k'. rewrite Hp. apply R.
  - intros k' v' n'. rewrite Hp, (lrel_map s h R). cbn [held op_key].
    destruct (decide (k' = k)) as [->|Hne].
    + rewrite Hh. simpl. naive_solver.
    + rewrite Hch. split; intros [H1 H2]; (split; [|done]).
      * rewrite decide_True; [done|]. right. apply elem_of_list_filter. split; [done|].
        apply held_cached. eauto.
      * by case_decide.
  - cbn [hits_of op_key]. rewrite decide_True by (split; [exact I|done]). rewrite (lrel_hits s h R). lia.
  - rewrite fetches_cons. rewrite decide_True by exact I. pose proof (lrel_misses s h R). lia.
Qed.

(** Insertion of a new key by the call [o], which provides the value [v]. *)
Lemma insert_ok s h o v : lrel s h -> op_key o ∉ cached max h ->
  held fetch max (o :: h) (op_key o) = Some v ->
  exists s', lru_insert_into s (op_key o) v = Ok s' /\
    (lru_misses s' = lru_misses s /\ lru_hits s' = lru_hits s) /\
    lrel (LRU (lru_max s') (lru_list s') (lru_map s')
      (if decide (is_fetch o) then lru_misses s + 1 else lru_misses s) (lru_hits s) (lru_next s')) (o :: h).
Proof.
  intros R Hnin Hheld. unfold lru_insert_into.
  assert (Hnone : lru_map s !! op_key o = None).
  { apply eq_None_not_Some. rewrite (lrel_is_Some s h _ R). done. }
  rewrite bool_decide_true by done. cbn [mbind outcome_bind check].
  rewrite (lrel_max s h R), Z.mod_small by lia. rewrite (lrel_size s h R).
  pose proof (cached_miss h o Hnin) as Hcm.
  assert (Hev : exists s1, (if decide (Z.of_nat (length (cached max h)) = Z.of_nat max) then lru_evict s else Ok s) = Ok s1
    /\ lru_max s1 = lru_max s /\ lru_misses s1 = lru_misses s /\ lru_hits s1 = lru_hits s /\
    lru_next s1 = lru_next s /\
    (lru_list s1).*2 = reverse (take (max - 1) (cached max h)) /\
    (exists l0, lru_list s = l0 ++ lru_list s1) /\
    (forall k, lru_map s1 !! k = if decide (k ∈ take (max - 1) (cached max h)) then lru_map s !! k else None)).
  { assert (Hlen : (length (cached max h) <= max)%nat) by (unfold cached; rewrite take_length; lia).
    destruct (decide (Z.of_nat (length (cached max h)) = Z.of_nat max)) as [Hfull|Hfull].
    - unfold lru_evict. destruct (lru_list s) as [|[n0 k0] rest] eqn:El.
      { exfalso. pose proof (lrel_list s h R) as Hl. rewrite El in Hl. simpl in Hl.
        apply (f_equal length) in Hl. rewrite reverse_length in Hl. simpl in Hl. lia. }
      assert (Hmne : lru_map s ≠ ∅).
      { intros E0. pose proof (lrel_size s h R) as Hsz. rewrite E0, map_size_empty in Hsz. lia. }
      rewrite decide_False by done. eexists. split; [done|]. simpl. split_and!; try done.
      + pose proof (lrel_list s h R) as Hl. rewrite El in Hl. simpl in Hl.
        rewrite <-(take_drop (max - 1) (cached max h)) in Hl. rewrite reverse_app in Hl.
        assert (exists y, drop (max - 1) (cached max h) = [y]) as [y Hy].
        { assert (Hdl : length (drop (max - 1) (cached max h)) = 1%nat) by (rewrite drop_length; lia).
          destruct (drop (max - 1) (cached max h)) as [|y [|? ?]]; simpl in Hdl; try lia. eauto. }
        rewrite Hy in Hl. simpl in Hl. by injection Hl.
      + by exists [(n0, k0)].
      + intros k. pose proof (lrel_list s h R) as Hl. rewrite El in Hl. simpl in Hl.
        rewrite <-(take_drop (max - 1) (cached max h)) in Hl. rewrite reverse_app in Hl.
        assert (exists y, drop (max - 1) (cached max h) = [y]) as [y Hy].
        { assert (Hdl : length (drop (max - 1) (cached max h)) = 1%nat) by (rewrite drop_length; lia).
          destruct (drop (max - 1) (cached max h)) as [|y [|? ?]]; simpl in Hdl; try lia. eauto. }
        rewrite Hy in Hl. simpl in Hl. injection Hl as -> Hl.
        pose proof (NoDup_cached h) as Hnd. rewrite <-(take_drop (max - 1) (cached max h)), Hy in Hnd.
        apply NoDup_app in Hnd as (_ & Hdis & _).
        case_decide as Hk.
        * rewrite lookup_delete_ne; [done|]. intros ->. apply (Hdis k Hk). by left.
        * destruct (decide (k = y)) as [->|Hne]; [by rewrite lookup_delete|].
          rewrite lookup_delete_ne by done. apply eq_None_not_Some.
          rewrite (lrel_is_Some s h k R). rewrite <-(take_drop (max - 1) (cached max h)), Hy.
          rewrite elem_of_app, elem_of_list_singleton. tauto.
    - assert (Htk : take (max - 1) (cached max h) = cached max h) by (apply take_ge; lia).
      exists s. split; [done|]. split_and!; try done.
      + rewrite Htk. apply R.
      + by exists [].
      + intros k. rewrite Htk. case_decide as Hk; [done|]. apply eq_None_not_Some.
        by rewrite (lrel_is_Some s h k R). }
  destruct Hev as (s1 & -> & E1 & E2 & E3 & E4 & Hl & [l0 Hl0] & Hm). cbn [mbind outcome_bind].
  eexists. split; [done|]. cbn [lru_max lru_list lru_map lru_misses lru_hits lru_next].
  split; [done|].
  assert (Hsub : forall x, x ∈ lru_list s1 -> x ∈ lru_list s).
  { intros x Hx. rewrite Hl0. apply elem_of_app. by right. }
  constructor; cbn [lru_max lru_list lru_map lru_misses lru_hits lru_next].
  - rewrite E1. apply R.
  - rewrite fmap_app, Hl, Hcm, reverse_cons. done.
  - rewrite fmap_app. apply NoDup_app. split; [|split].
    + pose proof (lrel_nodes s h R) as Hnd. rewrite Hl0, fmap_app in Hnd. by apply NoDup_app in Hnd as (_ & _ & ?).
    + intros n Hn Hin. apply elem_of_list_singleton in Hin. simpl in Hin. subst n.
      apply elem_of_list_fmap in Hn as ([n k] & En & Hn). apply Hsub in Hn.
      apply (lrel_next s h R) in Hn. simpl in En. lia.
    + apply NoDup_singleton.
  - intros n k [Hn|Hn]%elem_of_app.
    + apply Hsub, (lrel_next s h R) in Hn. rewrite E4. lia.
    + apply elem_of_list_singleton in Hn as [= -> ->]. lia.
  - intros k v' n. destruct (decide (k = op_key o)) as [->|Hne].
    + rewrite lookup_insert, Hheld. split.
      * intros [= <- <-]. split; [done|]. apply elem_of_app. right. by left.
      * intros [[= <-] [Hn|Hn]%elem_of_app].
        -- exfalso. apply Hnin, (lrel_key s h _ R). eauto.
        -- by apply elem_of_list_singleton in Hn as [= ->].
    + rewrite lookup_insert_ne by done. rewrite Hm. cbn [held]. rewrite (decide_False (P := k = op_key o)) by done.
      rewrite Hcm.
      assert (Hin' : k ∈ take (max - 1) (cached max h) -> forall n', (n', k) ∈ lru_list s -> (n', k) ∈ lru_list s1).
      { intros Hk n' Hn'. apply elem_of_reverse in Hk. rewrite <-Hl in Hk.
        apply elem_of_list_fmap in Hk as ([n2 k2] & Hk2 & Hn2). simpl in Hk2. subst k2.
        by rewrite (pair_unique_r _ n' n2 k (keys_NoDup s h R) Hn' (Hsub _ Hn2)). }
      destruct (decide (k ∈ take (max - 1) (cached max h))) as [Hk|Hk].
      * rewrite (decide_True (P := k ∈ _)) by (by right). rewrite (lrel_map s h R).
        rewrite elem_of_app, elem_of_list_singleton. split.
        -- intros [? Hn]. split; [done|]. left. by apply Hin'.
        -- intros [? [Hn|[= _ Hn]]]; [|done]. split; [done|]. by apply Hsub.
      * rewrite (decide_False (P := k ∈ _)); [split; [done|by intros [? _]]|].
        by intros [?|?]%elem_of_cons.
  - cbn [hits_of]. rewrite decide_False by tauto. apply R.
  - rewrite fetches_cons. pose proof (lrel_misses s h R). case_decide; lia.
Qed.

Lemma step_ok s h o : lrel s h ->
  match answer fetch max h o with
  | Some r => exists s', lru_step fetch s o = Ok (s', r) /\ lrel s' (o :: h)
  | None => lru_step fetch s o = CheckFail
  end.
Proof.
  intros R. destruct o as [k|k v]; cbn [answer lru_step].
  - unfold lru_fetch. destruct (lru_map s !! k) as [[v n]|] eqn:E.
    + pose proof (hit_ok s h k v n R E) as R'. apply (lrel_map s h R) in E as [Hh _]. rewrite Hh.
      eexists. split; [done|]. done.
    + assert (Hnin : k ∉ cached max h).
      { rewrite <-(lrel_is_Some s h k R), E. by intros [? ?]. }
      assert (Hh : held fetch max h k = None) by (apply eq_None_not_Some; by rewrite held_cached).
      rewrite Hh. simpl default.
      destruct (insert_ok s h (Fetch k) (fetch k) R Hnin) as (s' & Hins & [Em Eh] & R').
      { cbn [held op_key]. rewrite decide_True by done. by rewrite Hh. }
      cbn [op_key is_fetch] in *. rewrite decide_True in R' by exact I.
      assert (Hins' : lru_insert_into (LRU (lru_max s) (lru_list s) (lru_map s) (lru_misses s + 1) (lru_hits s)
                              (lru_next s)) k (fetch k) =
        Ok (LRU (lru_max s') (lru_list s') (lru_map s') (lru_misses s + 1) (lru_hits s) (lru_next s'))).
      { clear -Hins. unfold lru_insert_into in *. cbn [lru_max lru_list lru_map lru_misses lru_hits lru_next] in *.
        destruct (check _); try discriminate. cbn [mbind outcome_bind] in *.
        destruct (decide _).
        - unfold lru_evict in *. cbn [lru_max lru_list lru_map lru_misses lru_hits lru_next] in *.
          destruct (lru_list s) as [|[? ?] ?]; try discriminate.
          destruct (decide _); try discriminate. cbn [mbind outcome_bind] in *.
          injection Hins as <-. done.
        - cbn [mbind outcome_bind] in *. injection Hins as <-. done. }
      rewrite Hins'. cbn [mbind outcome_bind]. eauto.
  - case_decide as Hin.
    + unfold lru_insert, lru_insert_into. apply (lrel_is_Some s h k R) in Hin.
      rewrite bool_decide_false; [done|]. intros E. rewrite E in Hin. by destruct Hin.
    + destruct (insert_ok s h (Insert k v) v R Hin) as (s' & Hins & [Em Eh] & R').
      { cbn [held op_key]. by rewrite decide_True by done. }
      cbn [op_key is_fetch] in *. unfold lru_insert. rewrite Hins. cbn [mbind outcome_bind].
      eexists. split; [done|]. rewrite decide_False in R' by (intros []).
      rewrite <-Em, <-Eh in R'. by destruct s'.
Qed.

Lemma run_ok ops : forall s h, lrel s h ->
  match answers fetch max h ops with
  | Some rs => exists s', run_obs (lru_step fetch) s ops = Ok (s', rs) /\ lrel s' (reverse ops ++ h)
  | None => run_obs (lru_step fetch) s ops = CheckFail
  end.
Proof.
  induction ops as [|o ops IH]; intros s h R; cbn [answers run_obs].
  { exists s. done. }
  pose proof (step_ok s h o R) as Hs. destruct (answer fetch max h o) as [r|].
  - destruct Hs as (s1 & -> & R1). cbn [mbind option_bind outcome_bind].
    specialize (IH s1 (o :: h) R1). destruct (answers fetch max (o :: h) ops) as [rs|].
    + destruct IH as (s2 & -> & R2). cbn [mbind outcome_bind]. exists s2. split; [done|].
      by rewrite reverse_cons, <-app_assoc.
    + by rewrite IH.
  - by rewrite Hs.
Qed.

Lemma new_ok : exists s, lru_new (Z.of_nat max) = Ok s /\ lrel s [].
Proof.
  unfold lru_new. rewrite bool_decide_true by lia. eexists. split; [done|].
  constructor; simpl; try done.
  - unfold cached. simpl. by rewrite take_nil.
  - constructor.
  - intros n k Hn. by apply elem_of_nil in Hn.
  - intros k v n. rewrite lookup_empty. split; [done|]. by intros [? _].
Qed.

Lemma lru_lemma (ops : list (lru_op K V)) :
  exists s0, lru_new (Z.of_nat max) = Ok s0 /\
    match answers fetch max [] ops with
    | None => run_obs (lru_step fetch) s0 ops = CheckFail
    | Some rs => exists s, run_obs (lru_step fetch) s0 ops = Ok (s, rs) /\
        (forall k, lru_exists s k = true <-> k ∈ cached max (reverse ops)) /\
        lru_size s = length (cached max (reverse ops)) /\ (lru_size s <= max)%nat /\
        lru_hits s = N.of_nat (hits_of max (reverse ops)) /\
        (lru_hits s + lru_misses s)%N = N.of_nat (fetches_of ops)
    end.
Proof.
  destruct new_ok as (s0 & Hnew & R0). exists s0. split; [done|].
  pose proof (run_ok ops s0 [] R0) as Hr. destruct (answers fetch max [] ops) as [rs|]; [|done].
  destruct Hr as (s & Hrun & R). rewrite app_nil_r in R. exists s. split; [done|]. split_and!.
  - intros k. unfold lru_exists. rewrite bool_decide_eq_true. by apply lrel_is_Some.
  - by apply lrel_size.
  - unfold lru_size. rewrite (lrel_size _ _ R). unfold cached. rewrite take_length. lia.
  - apply R.
  - rewrite (lrel_misses _ _ R). unfold fetches_of. f_equal.
    by rewrite (reverse_Permutation ops).
Qed.

End cap.
End proofs.
