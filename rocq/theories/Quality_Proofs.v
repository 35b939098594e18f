(** Proofs about the quality measurements. *)
From Coq Require Import QArith_base Qcanon.
From stdpp Require Import gmap sorting numbers.
From Verif Require Import Base Quality_Model Quality_Spec.
Open Scope Qc_scope.

Lemma collect_app p rs : forall i inl, collect p i rs inl = inl ++ collect p i rs [].
Proof.
  induction rs as [|r rs IH]; intros i inl; simpl; [by rewrite app_nil_r|].
  destruct (p r); [|apply IH]. rewrite IH. rewrite (IH _ [Z.of_nat i]). by rewrite app_assoc.
Qed.

Lemma collect_cons p r rs i : collect p i (r :: rs) [] = (if p r then [Z.of_nat i] else []) ++ collect p (S i) rs [].
Proof. simpl. destruct (p r); [by rewrite collect_app|done]. Qed.

Lemma collect_elem p rs : forall i j, j ∈ collect p i rs [] <->
  exists r, (Z.of_nat i <= j)%Z /\ rs !! (Z.to_nat j - i)%nat = Some r /\ p r = true.
Proof.
  induction rs as [|r rs IH]; intros i j.
  { simpl. split; [by intros ?%elem_of_nil|]. intros (r & _ & E & _). by rewrite lookup_nil in E. }
  rewrite collect_cons, elem_of_app, IH. split.
  - intros [Hj|(x & Hle & Hx & Hp)].
    + destruct (p r) eqn:E; [|by apply elem_of_nil in Hj]. apply elem_of_list_singleton in Hj as ->.
      exists r. split_and!; [lia| |done]. by replace (Z.to_nat (Z.of_nat i) - i)%nat with 0%nat by lia.
    + exists x. split_and!; [lia| |done]. by replace (Z.to_nat j - i)%nat with (S (Z.to_nat j - S i))%nat by lia.
  - intros (x & Hle & Hx & Hp). destruct (decide (j = Z.of_nat i)) as [->|Hne].
    + left. replace (Z.to_nat (Z.of_nat i) - i)%nat with 0%nat in Hx by lia. injection Hx as ->. rewrite Hp. by left.
    + right. exists x. split_and!; [lia| |done].
      by replace (Z.to_nat j - i)%nat with (S (Z.to_nat j - S i))%nat in Hx by lia.
Qed.

Lemma collect_sorted p rs : forall i, StronglySorted Z.lt (collect p i rs []).
Proof.
  induction rs as [|r rs IH]; intros i; [constructor|]. rewrite collect_cons.
  destruct (p r); [|apply IH]. simpl. constructor; [apply IH|]. apply list.Forall_forall. intros j Hj.
  apply collect_elem in Hj as (x & Hle & _). lia.
Qed.

Lemma collect_length p rs : forall i, length (collect p i rs []) = length (filter (fun r => p r = true) rs).
Proof.
  induction rs as [|r rs IH]; intros i; [done|]. rewrite collect_cons, app_length, IH, filter_cons.
  destruct (p r); [by rewrite decide_True|by rewrite decide_False].
Qed.

Lemma collect_inliers thresh rs : is_inliers thresh rs (collect (fun r => bool_decide (r < thresh)) 0 rs []).
Proof.
  split; [apply collect_sorted|]. intros i. rewrite collect_elem. split.
  - intros (r & Hi & Hr & Hp). exists r. rewrite Nat.sub_0_r in Hr. apply bool_decide_eq_true in Hp. done.
  - intros (r & Hi & Hr & Hp). exists r. rewrite Nat.sub_0_r, bool_decide_eq_true. done.
Qed.

Lemma filter_compl thresh (rs : list Qc) :
  (length (filter (fun r => bool_decide (r < thresh)%Qc = true) rs) +
   length (filter (fun r => ~ (r < thresh)%Qc) rs) = length rs)%nat.
Proof.
  induction rs as [|r rs IH]; [done|]. rewrite !filter_cons. destruct (decide (r < thresh)) as [H|H].
  - rewrite decide_True by (by apply bool_decide_eq_true). rewrite decide_False by naive_solver. cbn [length]. lia.
  - rewrite decide_False by (by rewrite bool_decide_eq_true). rewrite decide_True by done. cbn [length]. lia.
Qed.

Lemma inlier_support_lemma thresh rs : (Z.of_nat (length rs) < 2 ^ 64)%Z ->
  exists inl, inlier_support_cost thresh rs [] = (outliers thresh rs, inl) /\ is_inliers thresh rs inl.
Proof.
  intros Hlen. unfold inlier_support_cost. eexists. split; [|apply collect_inliers].
  f_equal. rewrite collect_length. unfold outliers.
  pose proof (filter_compl thresh rs) as Hc. rewrite Z.mod_small by lia. lia.
Qed.

Lemma mle_sum thresh rs : forall s,
  foldl (fun s r => if decide (r < thresh) then s + r else s + thresh) s rs = s + truncated_sum thresh rs.
Proof.
  induction rs as [|r rs IH]; intros s; simpl.
  - unfold truncated_sum. simpl. ring.
  - rewrite IH. unfold truncated_sum. simpl. destruct (decide (r < thresh)); ring.
Qed.

Lemma mle_lemma thresh rs :
  exists inl, mle_cost thresh rs [] = (truncated_sum thresh rs, inl) /\ is_inliers thresh rs inl.
Proof.
  unfold mle_cost. eexists. split; [|apply collect_inliers]. f_equal. rewrite mle_sum. ring.
Qed.

(** Permutations and monotonicity, on the specification. *)
Lemma outliers_perm thresh rs rs' : rs ≡ₚ rs' -> outliers thresh rs = outliers thresh rs'.
Proof. intros Hp. unfold outliers. by rewrite Hp. Qed.

Lemma truncated_sum_perm thresh rs rs' : rs ≡ₚ rs' -> truncated_sum thresh rs = truncated_sum thresh rs'.
Proof.
  unfold truncated_sum. induction 1; simpl; [done|by rewrite IHPermutation| |congruence]. ring.
Qed.

Lemma outliers_mono thresh rs rs' : Forall2 Qcle rs rs' -> (outliers thresh rs <= outliers thresh rs')%Z.
Proof.
  unfold outliers. induction 1 as [|r r' rs rs' Hr _ IH]; [done|]. rewrite !filter_cons.
  destruct (decide (~ r < thresh)) as [H|H], (decide (~ r' < thresh)) as [H'|H']; cbn [length]; try lia.
  exfalso. apply H'. intros Hlt. apply H. by eapply Qcle_lt_trans.
Qed.

Lemma truncated_sum_mono thresh rs rs' : Forall2 Qcle rs rs' -> truncated_sum thresh rs <= truncated_sum thresh rs'.
Proof.
  unfold truncated_sum. induction 1 as [|r r' rs rs' Hr _ IH]; [apply Qcle_refl|]. simpl.
  apply Qcplus_le_compat; [|done].
  destruct (decide (r < thresh)) as [H|H], (decide (r' < thresh)) as [H'|H'].
  - done.
  - by apply Qclt_le_weak.
  - exfalso. apply H. by eapply Qcle_lt_trans.
  - apply Qcle_refl.
Qed.

(** ** Medians *)

Lemma ss_app (l1 l2 : list Qc) x : StronglySorted Qcle l1 -> StronglySorted Qcle l2 ->
  (forall y, y ∈ l1 -> y <= x) -> (forall y, y ∈ l2 -> x <= y) -> StronglySorted Qcle (l1 ++ x :: l2).
Proof.
  intros H1 H2 Ha Hb. induction H1 as [|a l1 H1 IH Hall]; simpl.
  - constructor; [done|]. apply list.Forall_forall. done.
  - constructor.
    + apply IH. intros y Hy. apply Ha. by right.
    + apply Forall_app. split; [done|]. constructor; [apply Ha; by left|].
      apply list.Forall_forall. intros y Hy. eapply Qcle_trans; [apply Ha; by left|by apply Hb].
Qed.

(** The order statistic found by nth_element is the element of the sorted list. *)
Lemma nth_sorted ne n l s x : s ≡ₚ l -> StronglySorted Qcle s -> ne_run ne n l !! n = Some x -> s !! n = Some x.
Proof.
  intros Hp Hs Hx. destruct (ne_nth ne n l x Hx) as [Hbefore Hafter].
  set (l' := ne_run ne n l) in *.
  set (s' := merge_sort Qcle (take n l') ++ x :: merge_sort Qcle (drop (S n) l')).
  assert (Hs' : StronglySorted Qcle s').
  { apply ss_app.
    - apply (StronglySorted_merge_sort Qcle).
    - apply (StronglySorted_merge_sort Qcle).
    - intros y. rewrite merge_sort_Permutation. intros [i Hi]%elem_of_list_lookup.
      apply lookup_take_Some in Hi as [Hi Hlt]. by eapply Hbefore.
    - intros y. rewrite merge_sort_Permutation. intros [i Hi]%elem_of_list_lookup.
      rewrite lookup_drop in Hi. eapply Hafter; [|exact Hi]. lia. }
  assert (s = s') as ->.
  { apply (StronglySorted_unique Qcle); [done|done|]. rewrite Hp, <-(ne_perm ne n l). fold l'.
    unfold s'. rewrite !merge_sort_Permutation. by rewrite take_drop_middle. }
  unfold s'. apply lookup_lt_Some in Hx. rewrite list_lookup_middle; [done|].
  rewrite merge_sort_Permutation, take_length. lia.
Qed.

Lemma ne_lookup ne n l : (n < length l)%nat -> exists x, ne_run ne n l !! n = Some x.
Proof. intros Hn. apply lookup_lt_is_Some_2. by rewrite (ne_perm ne n l). Qed.

(** What is computed, in terms of the sorted squares. *)
Lemma lmed_value ne rs s : sorted_squares rs s -> (2 <= length rs)%nat ->
  exists x y, s !! (length rs / 2 - 1)%nat = Some x /\ s !! (length rs / 2)%nat = Some y /\ x <= y /\
    lmed_median ne rs = Ok (if decide (length rs mod 2 = 0)%nat then y else Q2Qc (Qmake 1 2) * (x + y)).
Proof.
  intros [Hp Hs] Hlen. unfold lmed_median.
  set (sq := (fun r => r * r) <$> rs) in *. assert (Hl : length sq = length rs) by apply fmap_length.
  rewrite Hl. set (n := length rs) in *. set (h := (n / 2)%nat).
  assert (Hh : (1 <= h /\ h < n)%nat).
  { unfold h. split; [apply Nat.div_le_lower_bound; lia|apply Nat.div_lt; lia]. }
  destruct (ne_lookup ne h sq) as [y Hy]; [lia|]. rewrite Hy. cbn [or_ub mbind outcome_bind].
  assert (Hsy : s !! h = Some y) by (by eapply nth_sorted).
  destruct (lookup_lt_is_Some_2 s (h - 1)) as [x Hx]; [rewrite Hp; lia|].
  exists x, y. split; [done|]. split; [done|]. split.
  { clear -Hs Hx Hsy Hh. rewrite <-(take_drop_middle s h y Hsy) in Hs, Hx.
    rewrite lookup_app_l in Hx by (rewrite take_length; apply lookup_lt_Some in Hsy; lia).
    apply elem_of_list_lookup_2 in Hx. clear -Hs Hx.
    induction (take h s) as [|a l IH]; [by apply elem_of_nil in Hx|]. simpl in Hs.
    apply StronglySorted_inv in Hs as [Hs Hall]. apply elem_of_cons in Hx as [->|Hx]; [|by apply IH].
    apply Forall_app in Hall as [_ Hall]. by apply Forall_inv in Hall. }
  destruct (decide (n mod 2 ≠ 0)%nat) as [Hodd|Heven].
  - rewrite decide_False by done. destruct h as [|k] eqn:Eh; [lia|].
    destruct (ne_lookup ne k (ne_run ne (S k) sq)) as [z Hz]; [rewrite (ne_perm ne (S k) sq); lia|].
    rewrite Hz. cbn [or_ub mbind outcome_bind]. do 3 f_equal.
    assert (Hsz : s !! k = Some z).
    { eapply (nth_sorted ne k (ne_run ne (S k) sq)); [|done|done]. by rewrite (ne_perm ne (S k) sq). }
    replace (S k - 1)%nat with k in Hx by lia. congruence.
  - rewrite decide_True by (destruct (decide (n mod 2 = 0)%nat); [done|lia]). done.
Qed.

Lemma lmed_short ne rs : (length rs < 2)%nat -> lmed_median ne rs = UB.
Proof.
  destruct rs as [|r [|r' rs]]; simpl; [|  |lia]; intros _; unfold lmed_median; simpl.
  - destruct (ne_run ne 0 []) eqn:E; [done|]. pose proof (ne_perm ne 0 []) as Hp. rewrite E in Hp.
    by apply Permutation_length in Hp.
  - destruct (ne_run ne 0 [r * r] !! 0%nat); done.
Qed.

(** The inliers of the least-median measurement. *)
Lemma lmed_inliers_spec median min_num rs : (0 <= min_num < Z.of_nat (length rs))%Z -> (Z.of_nat (length rs) < 2 ^ 64)%Z ->
  let c := Q2Qc (Qmake 25 10) * Q2Qc (Qmake 14826 10000) *
    (1 + Q2Qc (Qmake 5 (Z.to_pos (Z.of_nat (length rs) - min_num)))) in
  StronglySorted Z.lt (lmed_inliers median min_num rs []) /\
  forall i, i ∈ lmed_inliers median min_num rs [] <->
    exists r, (0 <= i)%Z /\ rs !! Z.to_nat i = Some r /\ r * r < c * c * median.
Proof.
  intros Hm Hl c. unfold lmed_inliers. rewrite (Z.mod_small (Z.of_nat (length rs) - min_num)) by lia.
  rewrite decide_False by lia. fold c. split; [apply collect_sorted|].
  intros i. rewrite collect_elem. split.
  - intros (r & Hi & Hr & Hp). exists r. rewrite Nat.sub_0_r in Hr. apply bool_decide_eq_true in Hp. done.
  - intros (r & Hi & Hr & Hp). exists r. rewrite Nat.sub_0_r, bool_decide_eq_true. done.
Qed.

Lemma lmed_partial_lemma ne min_num rs s : sorted_squares rs s -> (2 <= length rs)%nat ->
  exists x y m inl, s !! (length rs / 2 - 1)%nat = Some x /\ s !! (length rs / 2)%nat = Some y /\
    lmed_cost ne min_num rs [] = Ok (m, inl) /\
    m = (if decide (length rs mod 2 = 0)%nat then y else Q2Qc (Qmake 1 2) * (x + y)) /\
    x <= m /\ m <= y.
Proof.
  intros Hs Hlen. destruct (lmed_value ne rs s Hs Hlen) as (x & y & Hx & Hy & Hxy & Hm).
  exists x, y. unfold lmed_cost. rewrite Hm. cbn [mbind outcome_bind].
  eexists _, _. split; [done|]. split; [done|]. split; [reflexivity|]. split; [done|].
  destruct (decide _); [split; [done|apply Qcle_refl]|].
  assert (Hhalf : forall z, z = Q2Qc (Qmake 1 2) * (z + z)).
  { intros z. replace z with (Q2Qc (Qmake 1 2) * (1 + 1) * z) at 1; [ring|].
    replace (Q2Qc (Qmake 1 2) * (1 + 1)) with 1 by (apply Qc_is_canon; reflexivity). ring. }
  assert (Hpos : 0 <= Q2Qc (Qmake 1 2)) by (by vm_compute).
  split; [rewrite (Hhalf x) at 1|rewrite (Hhalf y) at 2].
  - rewrite !(Qcmult_comm (Q2Qc (Qmake 1 2))). apply Qcmult_le_compat_r; [|done].
    apply Qcplus_le_compat; [apply Qcle_refl|done].
  - rewrite !(Qcmult_comm (Q2Qc (Qmake 1 2))). apply Qcmult_le_compat_r; [|done].
    apply Qcplus_le_compat; [done|apply Qcle_refl].
Qed.

(** An implementation of nth_element: sort everything. *)
Program Definition sorting_nth_element : nth_element := {| ne_run := fun _ l => merge_sort Qcle l |}.
Next Obligation. intros ? l. apply merge_sort_Permutation. Qed.
Next Obligation.
  intros n l x Hx. cbn beta in *. pose proof (StronglySorted_merge_sort Qcle l) as Hs.
  rewrite <-(take_drop_middle _ _ _ Hx) in Hs. set (s := merge_sort Qcle l) in *.
  assert (Hln : length (take n s) = n) by (apply lookup_lt_Some in Hx; rewrite take_length; lia).
  split.
  - intros i y Hi Hy. rewrite <-(take_drop_middle _ _ _ Hx), lookup_app_l in Hy by lia.
    apply elem_of_list_lookup_2 in Hy. clear -Hs Hy. induction (take n s) as [|a t IH]; [by apply elem_of_nil in Hy|].
    simpl in Hs. apply StronglySorted_inv in Hs as [Hs Hall].
    apply elem_of_cons in Hy as [->|Hy]; [|by apply IH].
    apply Forall_app in Hall as [_ Hall]. by apply Forall_inv in Hall.
  - intros i y Hi Hy. rewrite <-(take_drop_middle _ _ _ Hx), lookup_app_r, Hln in Hy by lia.
    destruct (i - n)%nat as [|j] eqn:E; [lia|]. cbn in Hy. apply elem_of_list_lookup_2 in Hy. clear -Hs Hy.
    induction (take n s) as [|a t IH].
    + apply StronglySorted_inv in Hs as [_ Hall]. rewrite list.Forall_forall in Hall. by apply Hall.
    + simpl in Hs. apply StronglySorted_inv in Hs as [Hs _]. by apply IH.
Qed.
