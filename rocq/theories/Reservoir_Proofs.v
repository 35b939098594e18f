(** Proofs about reservoir sampling. *)
From stdpp Require Import prelude.
From Verif Require Import Base Sampling_Model Sampling_Spec Reservoir_Model Reservoir_Spec.
Open Scope Z_scope.

(** Every stream. *)
Section Any.
  Context {E : Type}.

  Lemma insert_submseteq (l xs : list E) p e : l ⊆+ xs -> <[p := e]> l ⊆+ xs ++ [e].
  Proof.
    intros H. destruct (decide (p < length l)%nat) as [Hp|Hp].
    - destruct (lookup_lt_is_Some_2 _ _ Hp) as [x Hx].
      rewrite insert_take_drop by done.
      trans (e :: (take p l ++ drop (S p) l)).
      { by rewrite Permutation_middle. }
      rewrite (Permutation_app_comm xs [e]). simpl. apply submseteq_skip.
      trans l; [|done]. rewrite <- (take_drop_middle l p x Hx) at 3.
      rewrite <- Permutation_middle. by apply submseteq_cons.
    - rewrite list_insert_ge by lia. by apply submseteq_inserts_r.
  Qed.

  Lemma rv_invariant (k : Z) (xs : list E) : forall r, 0 <= k ->
    exists s0 s, rv_new k r = Ok s0 /\ run_steps rv_add s0 xs = Ok s /\
      rv_k s = k /\ rv_added s = Z.of_nat (length xs) /\
      Z.of_nat (length (rv_samples s)) = Z.min (Z.of_nat (length xs)) k /\
      rv_samples s ⊆+ xs /\ (Z.of_nat (length xs) <= k -> rv_samples s = xs /\ rv_rng s = r).
  Proof.
    intros r Hk. unfold rv_new. rewrite decide_True by done. exists (Reservoir k 0 r []).
    induction xs as [|x xs IH] using rev_ind.
    - exists (Reservoir k 0 r []). split_and!; try done. cbn [rv_samples length]. lia.
    - destruct IH as (s & Hnew & Hrun & H1 & H2 & H3 & H4 & H5).
      assert (Hsnoc : run_steps rv_add (Reservoir k 0 r []) (xs ++ [x]) = rv_add s x).
      { clear -Hrun. revert Hrun. generalize (Reservoir k 0 r (@nil E)). induction xs as [|y xs IH]; intros s0.
        - cbn [run_steps app]. intros [= ->]. by destruct (rv_add s x).
        - cbn [run_steps app]. destruct (rv_add s0 y); cbn [mbind outcome_bind]; try done. apply IH. }
      rewrite Hsnoc. unfold rv_add. rewrite H1, H2, app_length. simpl length.
      destruct (decide (Z.of_nat (length xs) < k)) as [Hlt|Hge].
      + eexists. split_and!; [done..| | | |]; cbn [rv_added rv_samples rv_rng].
        * lia.
        * rewrite app_length. simpl. lia.
        * by apply submseteq_skips_r.
        * intros _. destruct H5 as [-> ->]; [lia|]. done.
      + unfold rand_int. rewrite decide_True by lia. cbn [mbind outcome_bind].
        set (p := 0 + shead (rv_rng s) mod (Z.of_nat (length xs) - 0 + 1)).
        assert (Hp : 0 <= p < Z.of_nat (length xs) + 1).
        { unfold p. pose proof (Z.mod_pos_bound (shead (rv_rng s)) (Z.of_nat (length xs) - 0 + 1)). lia. }
        destruct (decide (p < k)) as [Hpk|Hpk].
        * destruct (lookup_lt_is_Some_2 (rv_samples s) (Z.to_nat p)) as [y Hy]; [lia|].
          rewrite Hy. cbn [or_ub mbind outcome_bind].
          eexists. split_and!; [done..| | | |]; cbn [rv_added rv_samples rv_rng].
          -- lia.
          -- rewrite insert_length. lia.
          -- by apply insert_submseteq.
          -- lia.
        * eexists. split_and!; [done..| | | |]; cbn [rv_added rv_samples rv_rng].
          -- lia.
          -- lia.
          -- by apply submseteq_inserts_r.
          -- lia.
  Qed.
End Any.

(** All sequences of draws. *)
Fixpoint draw_lists (k m : nat) : list (list Z) :=
  match m with
  | O => [[]]
  | S m => draw_lists k m ≫= fun ds => (fun d => ds ++ [d]) <$> seqZ 0 (Z.of_nat k + Z.of_nat m + 1)
  end.

Lemma elem_of_draw_lists k m ds : ds ∈ draw_lists k m <-> is_draws (Z.of_nat k) (Z.of_nat m) ds.
Proof.
  revert ds. induction m as [|m IH]; intros ds; cbn [draw_lists].
  - rewrite elem_of_list_singleton. unfold is_draws. split.
    + intros ->. split; [done|]. intros i d. by rewrite lookup_nil.
    + intros [H _]. destruct ds; [done|simpl in H; lia].
  - rewrite elem_of_list_bind. unfold is_draws. split.
    + intros (ds' & H & Hds'). apply elem_of_list_fmap in H as (d & -> & Hd). apply elem_of_seqZ in Hd.
      apply IH in Hds' as [Hl Hr]. rewrite app_length. simpl. split; [lia|].
      intros i d' Hi. apply lookup_app_Some in Hi as [Hi|[Hge Hi]]; [by apply Hr|].
      apply list_lookup_singleton_Some in Hi as [Hi <-]. lia.
    + intros [Hl Hr]. destruct (@exists_last _ ds) as (ds' & d & ->); [by intros ->|].
      rewrite app_length in Hl. simpl in Hl. exists ds'. split.
      * apply elem_of_list_fmap. exists d. split; [done|]. apply elem_of_seqZ.
        assert (0 <= d <= Z.of_nat k + Z.of_nat (length ds')) by (apply Hr, list_lookup_middle; done). lia.
      * apply IH. split; [lia|]. intros i d' Hi. apply Hr. by apply lookup_app_l_Some.
Qed.

Lemma NoDup_draw_lists k m : NoDup (draw_lists k m).
Proof.
  induction m as [|m IH]; cbn [draw_lists]; [apply NoDup_singleton|].
  induction IH as [|ds l Hni Hl IHl]; [constructor|]. rewrite bind_cons. apply NoDup_app. split_and!; [| |done].
  - apply NoDup_fmap; [|apply NoDup_seqZ]. intros d d' Heq. apply app_inv_head in Heq. by simplify_eq.
  - intros x Hx Hx'. apply elem_of_list_fmap in Hx as (d & -> & _).
    apply elem_of_list_bind in Hx' as (ds' & Hx & Hds'). apply elem_of_list_fmap in Hx as (d' & Heq & _).
    apply app_inj_tail in Heq as [-> ->]. done.
Qed.

(** Counting. *)
Lemma number_bind {A B} (P : B -> Prop) (Q : A -> Prop) `{!forall b, Decision (P b)} `{!forall a, Decision (Q a)}
    (l : list A) (f : A -> list B) (c d : Z) :
  (forall a, a ∈ l -> number P (f a) = if decide (Q a) then c else d) ->
  number P (l ≫= f) = c * number Q l + d * (Z.of_nat (length l) - number Q l).
Proof.
  unfold number. induction l as [|a l IH]; intros Hc; [simpl; lia|].
  rewrite bind_cons, filter_app, app_length, filter_cons. rewrite Nat2Z.inj_add, (Hc a) by apply elem_of_list_here.
  rewrite IH by (intros; apply Hc; by apply elem_of_list_further).
  destruct (decide (Q a)); cbn [length]; lia.
Qed.

(** The reservoir after the draws [ds]. *)
Section Uniform.
  Context {E : Type} `{!EqDecision E}.

  Definition place (k : nat) (l : list E) (ed : E * Z) : list E :=
    if decide (ed.2 < Z.of_nat k) then <[Z.to_nat ed.2 := ed.1]> l else l.
  Definition result (k : nat) (xs : list E) (ds : list Z) : list E :=
    foldl (place k) (take k xs) (zip (drop k xs) ds).

  Lemma run_take k r (xs : list E) : forall l n, (n + length xs <= k)%nat ->
    run_steps rv_add (Reservoir (Z.of_nat k) (Z.of_nat n) r l) xs =
      Ok (Reservoir (Z.of_nat k) (Z.of_nat (n + length xs)) r (l ++ xs)).
  Proof.
    induction xs as [|x xs IH]; intros l n Hn; cbn [run_steps].
    - by rewrite app_nil_r, Nat.add_0_r.
    - simpl in Hn.
      assert (Hadd : rv_add (Reservoir (Z.of_nat k) (Z.of_nat n) r l) x =
        Ok (Reservoir (Z.of_nat k) (Z.of_nat n + 1) r (l ++ [x]))).
      { unfold rv_add. cbn [rv_added rv_k rv_rng rv_samples]. by rewrite decide_True by lia. }
      rewrite Hadd. cbn [mbind outcome_bind]. replace (Z.of_nat n + 1) with (Z.of_nat (S n)) by lia.
      rewrite IH by lia. rewrite <- app_assoc. simpl. repeat f_equal. lia.
  Qed.

  Lemma run_rest k (xs : list E) : forall ds r l n, (k <= n)%nat -> length l = k -> length ds = length xs ->
    (forall i d, ds !! i = Some d -> 0 <= d <= Z.of_nat (n + i)) -> starts_with r ds ->
    exists r', run_steps rv_add (Reservoir (Z.of_nat k) (Z.of_nat n) r l) xs =
      Ok (Reservoir (Z.of_nat k) (Z.of_nat (n + length xs)) r' (foldl (place k) l (zip xs ds))).
  Proof.
    induction xs as [|x xs IH]; intros [|d ds] r l n Hkn Hl Hlen Hd Hr; simpl in Hlen; try done; cbn [run_steps].
    - exists r. by rewrite Nat.add_0_r.
    - assert (Hr0 : shead r = d) by (by apply (Hr 0%nat)).
      assert (Hd0 : 0 <= d <= Z.of_nat n) by (rewrite <- (Nat.add_0_r n); by apply (Hd 0%nat)).
      assert (Hadd : rv_add (Reservoir (Z.of_nat k) (Z.of_nat n) r l) x =
        Ok (Reservoir (Z.of_nat k) (Z.of_nat n + 1) (stail r) (place k l (x, d)))).
      { unfold rv_add. cbn [rv_added rv_k rv_rng rv_samples]. rewrite decide_False by lia.
        unfold rand_int. rewrite decide_True by lia. cbn [mbind outcome_bind]. rewrite Hr0.
        replace (0 + d mod (Z.of_nat n - 0 + 1)) with d by (rewrite Z.mod_small; lia).
        unfold place. cbn [fst snd]. destruct (decide (d < Z.of_nat k)) as [Hdk|Hdk]; [|done].
        destruct (lookup_lt_is_Some_2 l (Z.to_nat d)) as [y Hy]; [lia|]. by rewrite Hy. }
      rewrite Hadd. cbn [mbind outcome_bind].
      destruct (IH ds (stail r) (place k l (x, d)) (S n)) as [r' Hr'].
      + lia.
      + unfold place. destruct (decide _); [by rewrite insert_length|done].
      + lia.
      + intros i d' Hi. replace (S n + i)%nat with (n + S i)%nat by lia. by apply (Hd (S i)).
      + intros i d' Hi. by apply (Hr (S i)).
      + exists r'. replace (Z.of_nat n + 1) with (Z.of_nat (S n)) by lia. rewrite Hr'. simpl. repeat f_equal. lia.
  Qed.

  Lemma run_result k (xs : list E) ds r : (k <= length xs)%nat ->
    is_draws (Z.of_nat k) (Z.of_nat (length xs - k)) ds -> starts_with r ds ->
    exists s0 s, rv_new (Z.of_nat k) r = Ok s0 /\ run_steps rv_add s0 xs = Ok s /\ rv_samples s = result k xs ds.
  Proof.
    intros Hk [Hl Hd] Hr. unfold rv_new. rewrite decide_True by lia.
    assert (Hsplit : forall (s0 s1 : reservoir E) l1 l2, run_steps rv_add s0 l1 = Ok s1 ->
      run_steps rv_add s0 (l1 ++ l2) = run_steps rv_add s1 l2).
    { clear. intros s0 s1 l1 l2. revert s0. induction l1 as [|y l1 IH]; intros s0.
      - cbn [run_steps app]. by intros [= ->].
      - cbn [run_steps app]. destruct (rv_add s0 y); cbn [mbind outcome_bind]; try done. apply IH. }
    pose proof (run_take k r (take k xs) [] 0) as H1. rewrite take_length in H1.
    specialize (H1 ltac:(lia)).
    destruct (run_rest k (drop k xs) ds r (take k xs) k) as [r' H2].
    - done.
    - rewrite take_length. lia.
    - rewrite drop_length. lia.
    - intros i d Hi. rewrite Nat2Z.inj_add. by apply Hd.
    - done.
    - eexists _, _. split; [done|]. split; [|shelve].
      replace xs with (take k xs ++ drop k xs) at 1 by apply take_drop.
      change 0 with (Z.of_nat 0). erewrite Hsplit; [|exact H1].
      replace (0 + k `min` length xs)%nat with k by lia. simpl app. exact H2.
      Unshelve. done.
  Qed.

  (** One more element. *)
  Lemma result_snoc k xs e ds d : (k <= length xs)%nat -> length ds = (length xs - k)%nat ->
    result k (xs ++ [e]) (ds ++ [d]) = place k (result k xs ds) (e, d).
  Proof.
    intros Hk Hl. unfold result. rewrite take_app_le, drop_app_le by done.
    rewrite zip_with_app by (rewrite drop_length; lia). by rewrite foldl_app.
  Qed.

  Lemma result_inv k xs : (k <= length xs)%nat -> NoDup xs -> forall ds, length ds = (length xs - k)%nat ->
    Forall (fun d => 0 <= d) ds ->
    length (result k xs ds) = k /\ result k xs ds ⊆+ xs.
  Proof.
    induction xs as [|e xs IH] using rev_ind; intros Hk Hnd ds Hl Hpos.
    { simpl in Hk. replace k with 0%nat by lia. destruct ds; [|done]. unfold result. simpl. done. }
    rewrite app_length in Hk, Hl. simpl in Hk, Hl.
    destruct (decide (k = length xs + 1)%nat) as [->|Hne].
    { replace (length xs + 1 - (length xs + 1))%nat with 0%nat in Hl by lia. destruct ds; [|done].
      unfold result. rewrite take_ge, drop_ge by (rewrite app_length; simpl; lia). simpl.
      split; [rewrite app_length; simpl; lia|done]. }
    destruct (@exists_last _ ds) as (ds' & d & ->); [intros ->; simpl in Hl; lia|].
    rewrite app_length in Hl. simpl in Hl. apply Forall_app in Hpos as [Hpos Hd].
    apply NoDup_app in Hnd as (Hnd & _ & _).
    rewrite result_snoc by lia. destruct (IH ltac:(lia) Hnd ds' ltac:(lia) Hpos) as [H1 H2].
    unfold place. cbn [fst snd]. destruct (decide (d < Z.of_nat k)).
    - split; [by rewrite insert_length|]. by apply insert_submseteq.
    - split; [done|]. by apply submseteq_inserts_r.
  Qed.

  (** The number of last draws that keep x: all but one if it is there. *)
  Lemma count_keep k (l : list E) (e x : E) n : length l = k -> (k <= n)%nat -> NoDup l -> x <> e ->
    number (fun d => x ∈ place k l (e, d)) (seqZ 0 (Z.of_nat n + 1)) = if decide (x ∈ l) then Z.of_nat n else 0.
  Proof.
    intros Hl Hn Hnd Hne. unfold number.
    destruct (decide (x ∈ l)) as [Hx|Hx].
    - apply elem_of_list_lookup_1 in Hx as [p Hp]. pose proof (lookup_lt_Some _ _ _ Hp) as Hpl.
      assert (Hiff : forall d, 0 <= d -> x ∈ place k l (e, d) <-> d <> Z.of_nat p).
      { intros d Hd. unfold place. cbn [fst snd]. destruct (decide (d < Z.of_nat k)) as [Hdk|Hdk].
        - rewrite elem_of_list_lookup. split.
          + intros [q Hq] ->. rewrite Nat2Z.id in Hq. destruct (decide (q = p)) as [->|Hqp].
            * rewrite list_lookup_insert in Hq by lia. by simplify_eq.
            * rewrite list_lookup_insert_ne in Hq by done. apply Hqp. by eapply NoDup_lookup.
          + intros Hdp. exists p. rewrite list_lookup_insert_ne by lia. done.
        - split; [lia|]. intros _. by eapply elem_of_list_lookup_2. }
      assert (Hf : filter (fun d => x ∈ place k l (e, d)) (seqZ 0 (Z.of_nat n + 1)) ≡ₚ
        filter (fun d => d <> Z.of_nat p) (seqZ 0 (Z.of_nat n + 1))).
      { apply NoDup_Permutation; [apply NoDup_filter, NoDup_seqZ..|]. intros d. rewrite !elem_of_list_filter.
        rewrite elem_of_seqZ. split; intros [H1 H2]; (split; [|done]); apply Hiff; [lia|done|lia|done]. }
      rewrite Hf.
      assert (Hsplit : seqZ 0 (Z.of_nat n + 1) ≡ₚ Z.of_nat p :: filter (fun d => d <> Z.of_nat p) (seqZ 0 (Z.of_nat n + 1))).
      { apply NoDup_Permutation; [apply NoDup_seqZ| |].
        - constructor; [|apply NoDup_filter, NoDup_seqZ]. rewrite elem_of_list_filter. tauto.
        - intros d. rewrite elem_of_cons, elem_of_list_filter, !elem_of_seqZ.
          destruct (decide (d = Z.of_nat p)) as [->|]; split; try tauto; lia. }
      apply Permutation_length in Hsplit. rewrite seqZ_length in Hsplit. simpl in Hsplit. lia.
    - assert (Hf : filter (fun d => x ∈ place k l (e, d)) (seqZ 0 (Z.of_nat n + 1)) = []).
      { apply elem_of_nil_inv. intros d. rewrite elem_of_list_filter. intros [Hin _]. revert Hin.
        unfold place. cbn [fst snd]. destruct (decide (d < Z.of_nat k)); [|done]. intros Hin. apply elem_of_list_lookup in Hin as [q Hq].
        apply list_lookup_insert_Some in Hq as [(_ & ? & _)|[_ Hq]]; [done|]. apply Hx. by eapply elem_of_list_lookup_2. }
      by rewrite Hf.
  Qed.
  Lemma count_new k (l : list E) (e : E) n : length l = k -> (k <= n)%nat -> e ∉ l ->
    number (fun d => e ∈ place k l (e, d)) (seqZ 0 (Z.of_nat n + 1)) = Z.of_nat k.
  Proof.
    intros Hl Hn Hni. unfold number.
    assert (Hf : filter (fun d => e ∈ place k l (e, d)) (seqZ 0 (Z.of_nat n + 1)) ≡ₚ seqZ 0 (Z.of_nat k)).
    { apply NoDup_Permutation; [apply NoDup_filter, NoDup_seqZ|apply NoDup_seqZ|]. intros d.
      rewrite elem_of_list_filter, !elem_of_seqZ. unfold place. cbn [fst snd].
      destruct (decide (d < Z.of_nat k)) as [Hdk|Hdk].
      - split; [lia|]. intros Hd. split; [|lia]. apply elem_of_list_lookup. exists (Z.to_nat d).
        apply list_lookup_insert. lia.
      - split; [by intros [? _]|lia]. }
    rewrite Hf, seqZ_length. lia.
  Qed.

  Lemma draw_lists_pos k m ds : ds ∈ draw_lists k m -> length ds = m /\ Forall (fun d => 0 <= d) ds.
  Proof.
    rewrite elem_of_draw_lists. intros [Hl Hd]. split; [lia|]. apply list.Forall_forall. intros d Hin.
    apply elem_of_list_lookup in Hin as [i Hi]. apply Hd in Hi. lia.
  Qed.
  Lemma length_draw_lists k m :
    Z.of_nat (length (draw_lists k (S m))) = (Z.of_nat k + Z.of_nat m + 1) * Z.of_nat (length (draw_lists k m)).
  Proof.
    cbn [draw_lists]. induction (draw_lists k m) as [|ds l IH]; [simpl; lia|].
    rewrite bind_cons, app_length, fmap_length, seqZ_length, Nat2Z.inj_add, IH. cbn [length]. lia.
  Qed.

  Lemma number_fmap {A B} (P : B -> Prop) `{!forall b, Decision (P b)} (f : A -> B) (l : list A) :
    number P (f <$> l) = number (fun a => P (f a)) l.
  Proof.
    unfold number. induction l as [|a l IH]; [done|]. rewrite fmap_cons, !filter_cons.
    destruct (decide (P (f a))); cbn [length]; lia.
  Qed.
  Lemma number_ext {A} (P Q : A -> Prop) `{!forall a, Decision (P a)} `{!forall a, Decision (Q a)} (l : list A) :
    (forall a, a ∈ l -> P a <-> Q a) -> number P l = number Q l.
  Proof.
    unfold number. intros Hc. f_equal. induction l as [|a l IH]; [done|]. rewrite !filter_cons.
    assert (Hl : forall a, a ∈ l -> P a <-> Q a) by (intros; apply Hc; by apply elem_of_list_further).
    pose proof (Hc a (elem_of_list_here a l)).
    destruct (decide (P a)), (decide (Q a)); try tauto; cbn [length]; rewrite (IH Hl); done.
  Qed.

  Lemma uniform_count k m : forall xs : list E, length xs = (k + m)%nat -> NoDup xs -> forall x, x ∈ xs ->
    Z.of_nat (length xs) * number (fun ds => x ∈ result k xs ds) (draw_lists k m) =
    Z.of_nat k * Z.of_nat (length (draw_lists k m)).
  Proof.
    induction m as [|m IH]; intros xs Hlen Hnd x Hx.
    { cbn [draw_lists]. unfold number. rewrite filter_cons_True; [simpl; lia|].
      unfold result. rewrite take_ge, drop_ge by lia. done. }
    destruct (@exists_last _ xs) as (xs' & e & ->); [intros ->; simpl in Hlen; lia|].
    rewrite app_length in *. simpl in Hlen.
    assert (Hlen' : length xs' = (k + m)%nat) by lia.
    apply NoDup_app in Hnd as (Hnd & Hdis & _).
    rewrite length_draw_lists. cbn [draw_lists].
    assert (Hin : forall ds, ds ∈ draw_lists k m ->
      number (fun ds => x ∈ result k (xs' ++ [e]) ds) ((fun d => ds ++ [d]) <$> seqZ 0 (Z.of_nat k + Z.of_nat m + 1)) =
      number (fun d => x ∈ place k (result k xs' ds) (e, d)) (seqZ 0 (Z.of_nat (k + m) + 1))).
    { intros ds Hds. destruct (draw_lists_pos _ _ _ Hds) as [Hl _]. rewrite number_fmap.
      replace (Z.of_nat k + Z.of_nat m) with (Z.of_nat (k + m)) by lia.
      apply number_ext. intros d _. rewrite result_snoc by lia. done. }
    assert (Hres : forall ds, ds ∈ draw_lists k m ->
      length (result k xs' ds) = k /\ NoDup (result k xs' ds) /\ e ∉ result k xs' ds).
    { intros ds Hds. destruct (draw_lists_pos _ _ _ Hds) as [Hl Hpos].
      destruct (result_inv k xs' ltac:(lia) Hnd ds ltac:(lia) Hpos) as [H1 H2]. split; [done|].
      split; [apply submseteq_Permutation in H2 as [rest H2]; rewrite H2 in Hnd; by apply NoDup_app in Hnd as [? _]|]. intros He. apply (Hdis e); [|by apply elem_of_list_singleton].
      by eapply elem_of_submseteq. }
    simpl length.
    destruct (decide (x = e)) as [->|Hne].
    - rewrite (number_bind _ (fun _ => True) _ _ (Z.of_nat k) 0).
      + assert (Hall : number (fun _ => True) (draw_lists k m) = Z.of_nat (length (draw_lists k m))).
        { unfold number. f_equal. clear. induction (draw_lists k m) as [|a l IHl]; [done|].
          rewrite filter_cons_True by done. cbn [length]. by rewrite IHl. }
        rewrite Hall. lia.
      + intros ds Hds. rewrite (Hin ds Hds). destruct (Hres ds Hds) as (H1 & H2 & H3).
        rewrite count_new by (done || lia). by rewrite decide_True by done.
    - assert (Hx' : x ∈ xs').
      { apply elem_of_app in Hx as [?|Hx]; [done|]. by apply elem_of_list_singleton in Hx. }
      rewrite (number_bind _ (fun ds => x ∈ result k xs' ds) _ _ (Z.of_nat (k + m)) 0).
      + specialize (IH xs' Hlen' Hnd x Hx'). rewrite Hlen' in IH.
        rewrite Nat2Z.inj_add, Hlen', Z.mul_0_l, Z.add_0_r.
        rewrite IH. change (Z.of_nat 1) with 1. rewrite (Nat2Z.inj_add k m). ring.
      + intros ds Hds. rewrite (Hin ds Hds). destruct (Hres ds Hds) as (H1 & H2 & H3).
        apply count_keep; done || lia.
  Qed.
End Uniform.
