(** Proofs about the histogram model. *)
From stdpp Require Import prelude sorting.
From Coq Require Import QArith_base Qcanon.
From Verif Require Import Base Histogram_Model Histogram_Spec.

Lemma run_steps_app {S O} (step : S -> O -> outcome S) l1 l2 s s1 :
  run_steps step s l1 = Ok s1 -> run_steps step s (l1 ++ l2) = run_steps step s1 l2.
Proof.
  revert s. induction l1 as [|o l1 IH]; intros s; cbn [run_steps app]; [by intros [= ->]|].
  destruct (step s o); cbn [mbind outcome_bind]; try done. apply IH.
Qed.

Section Proofs.
  Context {T : Type} (lt : T -> T -> bool) (Hord : total_order lt).

  Lemma cut_exists (l : list T) v : StronglySorted (le lt) l ->
    exists n, (n <= length l)%nat /\ forall i x, l !! i = Some x -> lt v x = true <-> (n <= i)%nat.
  Proof.
    destruct Hord as (Hirr & Htr & Htot).
    induction 1 as [|a l Hs IH Ha].
    - exists O. split; [simpl; lia|]. intros i x H. by rewrite lookup_nil in H.
    - destruct (lt v a) eqn:Hv.
      + exists O. split; [simpl; lia|]. intros i x Hi. split; [lia|]. intros _.
        destruct i as [|i]; simpl in Hi; [by simplify_eq|].
        assert (Hx : le lt a x) by exact (proj1 (list.Forall_forall _ _) Ha x (elem_of_list_lookup_2 _ _ _ Hi)).
        unfold le in Hx. destruct (Htot a x) as [H|[->|H]]; [|done|congruence]. by apply Htr with a.
      + destruct IH as (n & Hn & IH). exists (S n). split; [simpl; lia|].
        intros [|i] x Hi; simpl in Hi.
        * simplify_eq. rewrite Hv. split; [done|lia].
        * rewrite (IH i x Hi). lia.
  Qed.

  Context (lo mx : T) (ub : upper_bound lt) (bs : list T).
  Let B := lo :: bs ++ [mx].
  Context (Hsorted : StronglySorted (le lt) B).

  Definition in_bin (i : nat) (v : T) : Prop :=
    match B !! i with Some a => lt v a = false | None => False end /\
    match B !! S i with Some b => lt v b = true | None => True end.
  Instance in_bin_dec i v : Decision (in_bin i v).
  Proof. unfold in_bin. destruct (B !! i), (B !! S i); apply _. Defined.

  Definition bins (vs : list T) : list Z :=
    (fun i => Z.of_nat (length (filter (in_bin i) vs))) <$> seq 0 (length B).

  Lemma add_bins vs v : le lt lo v ->
    h_add lt ub (Histogram B (bins vs)) v = Ok (Histogram B (bins (vs ++ [v]))).
  Proof.
    intros Hlo. destruct (cut_exists B v Hsorted) as (n & Hn & Hcut).
    unfold h_add. cbn [h_boundaries h_count]. rewrite (ub_spec ub B v n Hn Hcut).
    destruct n as [|n].
    { exfalso. assert (lt v lo = true) by (apply (Hcut 0%nat); [done|lia]). unfold le in Hlo. congruence. }
    assert (Hlk : bins vs !! n = Some (Z.of_nat (length (filter (in_bin n) vs)))).
    { unfold bins. rewrite list_lookup_fmap, lookup_seq_lt by lia. done. }
    rewrite Hlk. cbn [or_ub mbind outcome_bind]. do 2 f_equal.
    assert (Hin : forall i, (i < length B)%nat -> in_bin i v <-> i = n).
    { intros i Hi. destruct (lookup_lt_is_Some_2 B i Hi) as [a Ha].
      unfold in_bin. rewrite Ha.
      assert (H1 : lt v a = false <-> (i < S n)%nat).
      { rewrite <- not_true_iff_false, (Hcut i a Ha). lia. }
      destruct (B !! S i) as [b|] eqn:Hb.
      - rewrite H1, (Hcut _ _ Hb). lia.
      - apply lookup_ge_None in Hb. rewrite H1. split; [|lia]. intros [? _]. lia. }
    apply list_eq. intros i. destruct (decide (i < length B)%nat) as [Hi|Hi].
    - destruct (decide (i = n)) as [->|Hne].
      + rewrite list_lookup_insert by (unfold bins; rewrite fmap_length, seq_length; lia).
        unfold bins. rewrite list_lookup_fmap, lookup_seq_lt by lia. cbn [fmap option_fmap option_map Nat.add].
        f_equal. rewrite filter_app, app_length, filter_cons_True by (by apply Hin).
        rewrite filter_nil. cbn [length]. lia.
      + rewrite list_lookup_insert_ne by done.
        unfold bins. rewrite !list_lookup_fmap, lookup_seq_lt by lia. cbn [fmap option_fmap option_map Nat.add].
        f_equal. rewrite filter_app, app_length, filter_cons_False by (by rewrite Hin).
        rewrite filter_nil. cbn [length]. lia.
    - rewrite !lookup_ge_None_2; [done| |]; unfold bins; rewrite ?insert_length, fmap_length, seq_length; lia.
  Qed.

  Lemma adds_bins vs : Forall (le lt lo) vs ->
    run_steps (h_add lt ub) (h_new lo mx bs) vs = Ok (Histogram B (bins vs)).
  Proof.
    induction vs as [|v vs IH] using rev_ind; intros Hvs.
    - cbn [run_steps]. unfold h_new. fold B. do 2 f_equal. unfold bins.
      apply list_eq. intros i. rewrite list_lookup_fmap.
      destruct (decide (i < length B)%nat) as [Hi|Hi].
      + rewrite lookup_seq_lt, lookup_replicate_2 by lia. done.
      + rewrite (lookup_seq_ge 0 (length B) i) by lia. simpl. apply lookup_ge_None_2.
        pose proof (replicate_length (length B) 0%Z) as Hr. unfold B in Hr, Hi. simpl in *. lia.
    - apply Forall_app in Hvs as [H1 H2]. rewrite (run_steps_app _ _ _ _ _ (IH H1)).
      cbn [run_steps]. rewrite add_bins by (by inversion H2). done.
  Qed.

  Lemma bins_between vs i a b : B !! i = Some a -> B !! S i = Some b ->
    bins vs !! i = Some (count_between lt a b vs).
  Proof.
    intros Ha Hb. unfold bins. rewrite list_lookup_fmap, lookup_seq_lt by (by eapply lookup_lt_Some).
    cbn [fmap option_fmap option_map Nat.add]. unfold count_between. do 3 f_equal.
    apply list_filter_iff. intros v. unfold in_bin. by rewrite Ha, Hb.
  Qed.
  Lemma bins_last vs : bins vs !! S (length bs) = Some (count_from lt mx vs).
  Proof.
    assert (HB : B !! S (length bs) = Some mx).
    { unfold B. rewrite lookup_cons_ne_0 by lia. simpl. rewrite lookup_app_r by lia. by rewrite Nat.sub_diag. }
    assert (HL : length B = S (S (length bs))) by (unfold B; simpl; rewrite app_length; simpl; lia).
    unfold bins. rewrite list_lookup_fmap, lookup_seq_lt by lia.
    cbn [fmap option_fmap option_map Nat.add]. unfold count_from. do 3 f_equal.
    apply list_filter_iff. intros v. unfold in_bin. rewrite HB.
    rewrite (lookup_ge_None_2 B) by lia. tauto.
  Qed.

  Lemma adds_exact vs : Forall (le lt lo) vs ->
    exists h, run_steps (h_add lt ub) (h_new lo mx bs) vs = Ok h /\
      h_boundaries h = B /\ length (h_count h) = length B /\
      (forall i a b, B !! i = Some a -> B !! S i = Some b -> h_count h !! i = Some (count_between lt a b vs)) /\
      h_count h !! S (length bs) = Some (count_from lt mx vs).
  Proof.
    intros Hvs. eexists. split; [by apply adds_bins|]. cbn [h_boundaries h_count].
    split_and!; [done| unfold bins; by rewrite fmap_length, seq_length | |apply bins_last].
    intros. by apply bins_between.
  Qed.

  (** Every value is counted once. *)
  Lemma sum_insert (l : list Z) i c : l !! i = Some c -> sum (<[i := (c + 1)%Z]> l) = (sum l + 1)%Z.
  Proof.
    revert i. induction l as [|a l IH]; intros [|i] H; simpl in H; try done.
    - simplify_eq. simpl. unfold sum. simpl. lia.
    - simpl. unfold sum in *. simpl. rewrite (IH _ H). lia.
  Qed.

  Lemma adds_total vs h : run_steps (h_add lt ub) (h_new lo mx bs) vs = Ok h -> sum (h_count h) = Z.of_nat (length vs).
  Proof.
    revert h. induction vs as [|v vs IH] using rev_ind; intros h.
    - cbn [run_steps]. intros [= <-]. unfold h_new. cbn [h_count length].
      match goal with |- context [replicate ?k _] => generalize k end. intros n.
      induction n; [done|]. unfold sum in *. simpl in *. lia.
    - intros H. destruct (run_steps (h_add lt ub) (h_new lo mx bs) vs) as [h1| | |] eqn:E.
      2-4: exfalso; clear IH Hsorted; revert E H; generalize (h_new lo mx bs); induction vs as [|w vs IH];
        intros h0; cbn [run_steps app]; [done|]; destruct (h_add lt ub h0 w); cbn [mbind outcome_bind]; try done;
        apply IH.
      rewrite (run_steps_app _ _ _ _ _ E) in H. cbn [run_steps] in H. unfold h_add in H.
      destruct (ub_run ub (h_boundaries h1) v) as [|n]; [done|].
      destruct (h_count h1 !! n) as [c|] eqn:Ec; [|done]. cbn [or_ub mbind outcome_bind] in H.
      injection H as <-. cbn [h_count]. rewrite (sum_insert _ _ _ Ec), (IH _ eq_refl), app_length. simpl. lia.
  Qed.

  (** The printed message. *)
  Lemma print_loop_ok (h : @histogram T) todo : forall i,
    (i + todo < length (h_boundaries h))%nat -> length (h_count h) = length (h_boundaries h) ->
    exists ls, print_loop h todo i = Ok ls /\ length ls = todo /\
      forall j, (j < todo)%nat -> exists a b n, ls !! j = Some (Between a b n) /\
        h_boundaries h !! (i + j)%nat = Some a /\ h_boundaries h !! S (i + j) = Some b /\
        h_count h !! (i + j)%nat = Some n.
  Proof.
    induction todo as [|todo IH]; intros i Hi Hlen; cbn [print_loop].
    { exists []. split_and!; [done..|]. lia. }
    destruct (lookup_lt_is_Some_2 (h_boundaries h) i) as [a Ha]; [lia|].
    destruct (lookup_lt_is_Some_2 (h_boundaries h) (S i)) as [b Hb]; [lia|].
    destruct (lookup_lt_is_Some_2 (h_count h) i) as [n Hn]; [lia|].
    rewrite Ha, Hb, Hn. cbn [or_ub mbind outcome_bind].
    destruct (IH (S i)) as (ls & -> & Hl & Hls); [lia..|]. cbn [mbind outcome_bind].
    eexists. split; [done|]. split; [simpl; lia|].
    intros [|j] Hj.
    - exists a, b, n. rewrite Nat.add_0_r. done.
    - destruct (Hls j) as (a' & b' & n' & H1 & H2 & H3 & H4); [lia|].
      exists a', b', n'. rewrite Nat.add_succ_r. done.
  Qed.

  Definition below (v : T) (vs : list T) : Z := Z.of_nat (length (filter (fun w => lt w v = true) vs)).

  Lemma filter_all_between vs v : Forall (le lt lo) vs -> count_between lt lo v vs = below v vs.
  Proof.
    intros H. unfold count_between, below. do 2 f_equal.
    induction H as [|w vs Hw H IH]; [done|]. rewrite !filter_cons. unfold le in Hw.
    destruct (decide (lt w lo = false /\ lt w v = true)) as [[? ?]|Hn]; destruct (decide (lt w v = true)) as [|Hn2]; rewrite ?IH; try done.
    exfalso. by apply Hn.
  Qed.

  Lemma print_exact vs b0 b1 : bs !! 0%nat = Some b0 -> last bs = Some b1 -> Forall (le lt lo) vs ->
    exists h, run_steps (h_add lt ub) (h_new lo mx bs) vs = Ok h /\
      h_print h = Ok ((if decide (0 < below b0 vs)%Z then [Below b0 (below b0 vs)] else []) ++
        zip_with (fun a b => Between a b (count_between lt a b vs)) bs (tail bs) ++
        (if decide (0 < count_between lt b1 mx vs)%Z then [Above b1 (count_between lt b1 mx vs)] else [])).
  Proof.
    intros H0 H1 Hvs. exists (Histogram B (bins vs)). split; [by apply adds_bins|].
    assert (HL : length B = S (S (length bs))) by (unfold B; simpl; rewrite app_length; simpl; lia).
    assert (Hpos : (0 < length bs)%nat) by (by eapply lookup_lt_Some).
    assert (HB0 : B !! 0%nat = Some lo) by done.
    assert (HB : forall i b, bs !! i = Some b -> B !! S i = Some b).
    { intros i b Hi. unfold B. simpl. by apply lookup_app_l_Some. }
    assert (HBl : B !! S (length bs) = Some mx).
    { unfold B. simpl. rewrite lookup_app_r by lia. by rewrite Nat.sub_diag. }
    assert (H1' : bs !! (length bs - 1)%nat = Some b1) by (rewrite <- H1, last_lookup; f_equal; lia).
    assert (HB1 : B !! length bs = Some b1).
    { replace (length bs) with (S (length bs - 1)) at 1 by lia. by apply HB. }
    unfold h_print. cbn [h_boundaries h_count]. rewrite HL.
    replace (S (S (length bs)) - 3)%nat with (length bs - 1)%nat by lia.
    replace (S (S (length bs)) - 2)%nat with (length bs) by lia.
    rewrite (bins_between vs 0 lo b0 HB0 (HB _ _ H0)), (filter_all_between vs b0 Hvs).
    cbn [or_ub mbind outcome_bind].
    rewrite (HB _ _ H0), HB1, (bins_between vs (length bs) b1 mx HB1 HBl).
    destruct (print_loop_ok (Histogram B (bins vs)) (length bs - 1) 1) as (ls & -> & Hl & Hls).
    { cbn [h_boundaries]. lia. }
    { cbn [h_boundaries h_count]. unfold bins. by rewrite fmap_length, seq_length. }
    assert (Hls' : ls = zip_with (fun a b => Between a b (count_between lt a b vs)) bs (tail bs)).
    { apply list_eq. intros j. destruct (decide (j < length bs - 1)%nat) as [Hj|Hj].
      - destruct (Hls j Hj) as (a & b & n & -> & Ha & Hb & Hn). cbn [h_boundaries h_count] in *.
        rewrite lookup_zip_with. rewrite lookup_tail.
        destruct (lookup_lt_is_Some_2 bs j) as [a' Ha']; [lia|].
        destruct (lookup_lt_is_Some_2 bs (S j)) as [b' Hb']; [lia|].
        rewrite Ha', Hb'. simpl. change (1 + j)%nat with (S j) in *.
        rewrite (bins_between vs (S j) a' b' (HB _ _ Ha') (HB _ _ Hb')) in Hn.
        pose proof (HB _ _ Ha'). pose proof (HB _ _ Hb'). by simplify_eq.
      - rewrite !lookup_ge_None_2; [done| |lia]. rewrite zip_with_length.
        assert (Ht : forall l : list T, length (tail l) = (length l - 1)%nat) by (intros []; simpl; lia).
        rewrite Ht. lia. }
    rewrite <- Hls'. cbn [mbind outcome_bind or_ub].
    destruct (decide (0 < below b0 vs)%Z), (decide (0 < count_between lt b1 mx vs)%Z); done.
  Qed.
End Proofs.

(** std::upper_bound as a linear scan. *)
Fixpoint scan {T} (lt : T -> T -> bool) (l : list T) (v : T) : nat :=
  match l with
  | [] => O
  | x :: l => if lt v x then O else S (scan lt l v)
  end.
Lemma scan_spec {T} (lt : T -> T -> bool) l v n : (n <= length l)%nat ->
  (forall i x, l !! i = Some x -> lt v x = true <-> (n <= i)%nat) -> scan lt l v = n.
Proof.
  revert n. induction l as [|x l IH]; intros n Hn H; simpl in *; [lia|].
  pose proof (H 0%nat x eq_refl) as H0. destruct (lt v x) eqn:E.
  - assert (n <= 0)%nat by (by apply H0). lia.
  - destruct n as [|n]; [assert (false = true) by (apply H0; lia); done|].
    f_equal. apply IH; [lia|]. intros i y Hi. rewrite (H (S i) y Hi). lia.
Qed.
Definition scan_upper_bound {T} (lt : T -> T -> bool) : upper_bound lt := UpperBound (scan lt) (scan_spec lt).

(** The two instances are total orders. *)
Lemma int_total : total_order int_lt.
Proof.
  unfold int_lt. split_and!.
  - intros x. apply bool_decide_eq_false. lia.
  - intros x y z H1 H2. apply bool_decide_eq_true in H1, H2. apply bool_decide_eq_true. lia.
  - intros x y. rewrite !bool_decide_eq_true. lia.
Qed.
Lemma dbl_total : total_order dbl_lt.
Proof.
  split_and!.
  - intros [|x|]; simpl; try done. apply bool_decide_eq_false. intros H. by apply Qclt_not_eq in H.
  - intros [|x|] [|y|] [|z|]; simpl; try done. intros H1 H2. apply bool_decide_eq_true in H1, H2.
    apply bool_decide_eq_true. by apply Qclt_trans with y.
  - intros [|x|] [|y|]; simpl; auto. rewrite !bool_decide_eq_true.
    destruct (Qclt_le_dec x y) as [?|H]; [auto|]. apply Qcle_lt_or_eq in H as [?| ->]; auto.
Qed.
