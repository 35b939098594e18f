(** Properties C31 and C32: the costs of RANSAC hypotheses. *)
From stdpp Require Import gmap sorting numbers.
From Coq Require Import QArith_base Qcanon.
From Verif Require Import Base Quality_Model Quality_Spec Quality_Proofs.
Open Scope Qc_scope.

(** C32.  The inlier-support cost is the number of data outside the threshold, the MLE cost is the truncated sum,
    and both report exactly the inliers. *)
Theorem costs_exact thresh residuals : (Z.of_nat (length residuals) < 2 ^ 64)%Z ->
  (exists inl, inlier_support_cost thresh residuals [] = (outliers thresh residuals, inl) /\
     is_inliers thresh residuals inl) /\
  (exists inl, mle_cost thresh residuals [] = (truncated_sum thresh residuals, inl) /\
     is_inliers thresh residuals inl).
Proof. intros H. split; [exact (inlier_support_lemma thresh residuals H)|exact (mle_lemma thresh residuals)]. Qed.

(** Neither cost depends on the order of the data. *)
Theorem costs_permutation thresh rs rs' : (Z.of_nat (length rs) < 2 ^ 64)%Z -> rs ≡ₚ rs' ->
  (inlier_support_cost thresh rs []).1 = (inlier_support_cost thresh rs' []).1 /\
  (mle_cost thresh rs []).1 = (mle_cost thresh rs' []).1 /\
  length (inlier_support_cost thresh rs []).2 = length (inlier_support_cost thresh rs' []).2.
Proof.
  intros Hl Hp. assert (Hl' : (Z.of_nat (length rs') < 2 ^ 64)%Z) by (rewrite <-Hp; done).
  destruct (inlier_support_lemma thresh rs Hl) as (i1 & E1 & _).
  destruct (inlier_support_lemma thresh rs' Hl') as (i2 & E2 & _).
  destruct (mle_lemma thresh rs) as (i3 & E3 & _). destruct (mle_lemma thresh rs') as (i4 & E4 & _).
  rewrite E1, E2, E3, E4. split; [exact (outliers_perm _ _ _ Hp)|]. split; [exact (truncated_sum_perm _ _ _ Hp)|].
  rewrite <-E1 at 1. rewrite <-E2. cbn [snd]. unfold inlier_support_cost in *. simplify_eq. cbn [snd].
  rewrite !collect_length. by rewrite Hp.
Qed.

(** Lowering residuals never increases a cost. *)
Theorem costs_monotone thresh rs rs' : (Z.of_nat (length rs) < 2 ^ 64)%Z -> Forall2 Qcle rs rs' ->
  ((inlier_support_cost thresh rs []).1 <= (inlier_support_cost thresh rs' []).1)%Z /\
  (mle_cost thresh rs []).1 <= (mle_cost thresh rs' []).1.
Proof.
  intros Hl Hf. assert (Hl' : (Z.of_nat (length rs') < 2 ^ 64)%Z) by (rewrite <-(Forall2_length _ _ _ Hf); done).
  destruct (inlier_support_lemma thresh rs Hl) as (i1 & E1 & _).
  destruct (inlier_support_lemma thresh rs' Hl') as (i2 & E2 & _).
  destruct (mle_lemma thresh rs) as (i3 & E3 & _). destruct (mle_lemma thresh rs') as (i4 & E4 & _).
  rewrite E1, E2, E3, E4. split; [exact (outliers_mono _ _ _ Hf)|exact (truncated_sum_mono _ _ _ Hf)].
Qed.

Example costs_sample :
  inlier_support_cost (Q2Qc 2) [Q2Qc 1; Q2Qc 2; Q2Qc 0; Q2Qc 5] [] = (2%Z, [0%Z; 2%Z]) /\
  mle_cost (Q2Qc 2) [Q2Qc 1; Q2Qc 2; Q2Qc 0; Q2Qc 5] [] = (Q2Qc 5, [0%Z; 2%Z]) /\
  Forall2 Qcle [Q2Qc 1; Q2Qc 2] [Q2Qc 1; Q2Qc 3] /\ is_inliers (Q2Qc 2) [Q2Qc 1; Q2Qc 2] [0%Z].
Proof.
  split_and!; [vm_compute; reflexivity|vm_compute; reflexivity| |].
  - repeat constructor; by vm_compute.
  - exact (collect_inliers (Q2Qc 2) [Q2Qc 1; Q2Qc 2]).
Qed.

(** C31.  The least-median cost is not the median of the squared residuals: for an odd number of residuals two
    order statistics are averaged, for an even number none are, and one residual is undefined behaviour. *)
Theorem lmed_cost_partial ne min_sample_size residuals s :
  sorted_squares residuals s -> (2 <= length residuals)%nat ->
  exists x y m inl, s !! (length residuals / 2 - 1)%nat = Some x /\ s !! (length residuals / 2)%nat = Some y /\
    lmed_cost ne min_sample_size residuals [] = Ok (m, inl) /\
    m = (if decide (length residuals mod 2 = 0)%nat then y else Q2Qc (Qmake 1 2) * (x + y)) /\
    x <= m /\ m <= y.
Proof. exact (lmed_partial_lemma ne min_sample_size residuals s). Qed.

Theorem lmed_inliers_exact median min_sample_size residuals :
  (0 <= min_sample_size < Z.of_nat (length residuals))%Z -> (Z.of_nat (length residuals) < 2 ^ 64)%Z ->
  let c := Q2Qc (Qmake 25 10) * Q2Qc (Qmake 14826 10000) *
    (1 + Q2Qc (Qmake 5 (Z.to_pos (Z.of_nat (length residuals) - min_sample_size)))) in
  StronglySorted Z.lt (lmed_inliers median min_sample_size residuals []) /\
  forall i, i ∈ lmed_inliers median min_sample_size residuals [] <->
    exists r, (0 <= i)%Z /\ residuals !! Z.to_nat i = Some r /\ r * r < c * c * median.
Proof. exact (lmed_inliers_spec median min_sample_size residuals). Qed.

(** Whatever nth_element does, one residual is undefined behaviour, the cost of [1;2;3] is 5/2 rather than 4, and
    the cost of [1;2] is 4 rather than 5/2. *)
Theorem lmed_cost_refuted ne min_sample_size :
  (forall r, lmed_cost ne min_sample_size [r] [] = UB) /\
  (exists m inl, lmed_cost ne min_sample_size [Q2Qc 1; Q2Qc 2; Q2Qc 3] [] = Ok (m, inl) /\
     exists s, sorted_squares [Q2Qc 1; Q2Qc 2; Q2Qc 3] s /\ ~ is_median s m) /\
  (exists m inl, lmed_cost ne min_sample_size [Q2Qc 1; Q2Qc 2] [] = Ok (m, inl) /\
     exists s, sorted_squares [Q2Qc 1; Q2Qc 2] s /\ ~ is_median s m).
Proof.
  split_and!.
  - intros r. unfold lmed_cost. rewrite lmed_short; [done|simpl; lia].
  - assert (Hs : sorted_squares [Q2Qc 1; Q2Qc 2; Q2Qc 3] [Q2Qc 1; Q2Qc 4; Q2Qc 9]).
    { split.
      - vm_compute. reflexivity.
      - repeat constructor; by vm_compute. }
    destruct (lmed_partial_lemma ne min_sample_size _ _ Hs) as (x & y & m & inl & Hx & Hy & E & Hm & _); [simpl; lia|].
    exists m, inl. split; [done|]. eexists. split; [exact Hs|]. cbn in Hx, Hy. simplify_eq.
    intros [(k & Hk & Hl)|(k & ? & ? & Hk & _)]; [|simpl in Hk; lia].
    assert (k = 1%nat) as -> by (simpl in Hk; lia). cbn in Hl. injection Hl as Hl. vm_compute in Hl. congruence.
  - assert (Hs : sorted_squares [Q2Qc 1; Q2Qc 2] [Q2Qc 1; Q2Qc 4]).
    { split.
      - vm_compute. reflexivity.
      - repeat constructor; by vm_compute. }
    destruct (lmed_partial_lemma ne min_sample_size _ _ Hs) as (x & y & m & inl & Hx & Hy & E & Hm & _); [simpl; lia|].
    exists m, inl. split; [done|]. eexists. split; [exact Hs|]. cbn in Hx, Hy. simplify_eq.
    intros [(k & Hk & Hl)|(k & a & b & Hk & Ha & Hb & Hl)]; [simpl in Hk; lia|].
    assert (k = 0%nat) as -> by (simpl in Hk; lia). cbn in Ha, Hb. simplify_eq.
Qed.

Example lmed_sample :
  ('(m, il) ← lmed_cost sorting_nth_element 1 [Q2Qc 3; Q2Qc 1; Q2Qc 2; Q2Qc 100] []; Ok il) = Ok [0%Z; 1%Z; 2%Z] /\
  lmed_median sorting_nth_element [Q2Qc 3; Q2Qc 1; Q2Qc 2; Q2Qc 100] = Ok (Q2Qc 9).
Proof. split; vm_compute; reflexivity. Qed.

Print Assumptions costs_exact.
Print Assumptions costs_permutation.
Print Assumptions costs_monotone.
Print Assumptions lmed_cost_partial.
Print Assumptions lmed_inliers_exact.
Print Assumptions lmed_cost_refuted.
