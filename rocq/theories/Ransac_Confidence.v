(** Property C51: the number of iterations and the failure probability. *)
From stdpp Require Import gmap sorting numbers.
From Coq Require Import QArith_base Qreduction Qcanon Qreals Reals Lra.
From Verif Require Import Base Sampling_Model Quality_Model Quality_Spec Quality_Proofs Ransac_Model Ransac_Spec
  Ransac_Proofs.
Open Scope R_scope.

Notation QR x := (Q2R (this x)).

(** The computed quotient of logarithms (sample_consensus_estimator.h:231-238) is off by at most [delta]; [eps] is
    std::numeric_limits<double>::epsilon(). *)
Definition accurate (eps delta : R) (log_ratio : Qc -> nat -> Qc -> Qc) : Prop :=
  forall f s r, 0 < QR f < 1 -> 0 < QR r < 1 -> (1 <= s)%nat ->
    Rabs (QR (log_ratio f s r) - ln (QR f) / (ln (1 - QR r ^ s) - eps)) <= delta.

(** ** Rational to real *)
Lemma QR_le a b : (a <= b)%Qc <-> QR a <= QR b.
Proof. unfold Qcle. split; [apply Qle_Rle|apply Rle_Qle]. Qed.
Lemma QR_lt a b : (a < b)%Qc <-> QR a < QR b.
Proof. unfold Qclt. split; [apply Qlt_Rlt|apply Rlt_Qlt]. Qed.
Lemma QR_Q2Qc q : QR (Q2Qc q) = Q2R q.
Proof. unfold Q2Qc. cbn [this]. apply Qeq_eqR, Qred_correct. Qed.
Lemma QR_of_Z z : QR (of_Z z) = IZR z.
Proof. rewrite this_of_Z. unfold inject_Z, Q2R. cbn. lra. Qed.
Lemma QR_0 : QR 0 = 0. Proof. rewrite QR_Q2Qc. unfold Q2R. cbn. lra. Qed.
Lemma QR_1 : QR 1 = 1. Proof. rewrite QR_Q2Qc. unfold Q2R. cbn. lra. Qed.
Lemma QR_minus a b : QR (a - b) = QR a - QR b.
Proof.
  unfold Qcminus, Qcplus, Qcopp. rewrite !QR_Q2Qc. rewrite Q2R_plus, QR_Q2Qc, Q2R_opp. lra.
Qed.
Lemma QR_mult a b : QR (a * b) = QR a * QR b.
Proof. unfold Qcmult. rewrite QR_Q2Qc. apply Q2R_mult. Qed.
Lemma QR_pow a n : QR (a ^ n) = QR a ^ n.
Proof. induction n as [|n IH]; cbn [Qcpower pow]; [apply QR_1|]. by rewrite QR_mult, IH. Qed.

Lemma Rabs_bounds x d : Rabs x <= d -> - d <= x <= d.
Proof. unfold Rabs. destruct (Rcase_abs x); lra. Qed.

Lemma to_int_gt x : QR x < IZR (to_int x) + 1.
Proof.
  unfold to_int, Q2R. destruct (this x) as [num den]. cbn [Qnum Qden].
  assert (Hd : 0 < IZR (Z.pos den)) by (apply IZR_lt; lia).
  apply (Rmult_lt_reg_r (IZR (Z.pos den))); [done|]. rewrite Rmult_assoc, Rinv_l, Rmult_1_r by lra.
  rewrite <-plus_IZR, <-mult_IZR. apply IZR_lt.
  pose proof (Z.quot_rem' num (Z.pos den)). pose proof (Z.rem_bound_abs num (Z.pos den)). nia.
Qed.

(** Monotonicity of the probability of drawing only samples with outliers. *)
Lemma miss_mono r r' s n : 0 <= r <= r' -> r' <= 1 -> (1 - r' ^ s) ^ n <= (1 - r ^ s) ^ n.
Proof.
  intros H H1. assert (Hs : r ^ s <= r' ^ s) by (apply pow_incr; lra).
  assert (r' ^ s <= 1) by (rewrite <-(pow1 s); apply pow_incr; lra).
  apply pow_incr. lra.
Qed.

Lemma pow_lt_1 r s : 0 < r < 1 -> (1 <= s)%nat -> 0 < r ^ s < 1.
Proof.
  intros Hr Hs. split; [apply pow_lt; lra|]. destruct s as [|s]; [lia|]. simpl.
  assert (r ^ s <= 1) by (rewrite <-(pow1 s); apply pow_incr; lra). nra.
Qed.

Lemma enough eps f r s n : 0 <= eps -> 0 < f < 1 -> 0 < r < 1 -> (1 <= s)%nat ->
  ln f / (ln (1 - r ^ s) - eps) <= INR n -> (1 - r ^ s) ^ n <= f * exp (eps * INR n).
Proof.
  intros He Hf Hr Hs H. pose proof (pow_lt_1 r s Hr Hs) as Hp.
  set (x := 1 - r ^ s) in *. assert (Hx : 0 < x < 1) by (unfold x; lra).
  assert (Hln : ln x < 0) by (rewrite <-ln_1; apply ln_increasing; lra).
  assert (Hd : ln x - eps < 0) by lra.
  assert (Hm : INR n * (ln x - eps) <= ln f).
  { apply Ropp_le_cancel. rewrite <-Ropp_mult_distr_r_reverse.
    apply (Rmult_le_compat_r (- (ln x - eps))) in H; [|lra].
    replace (ln f / (ln x - eps) * - (ln x - eps)) with (- ln f) in H by (field; lra). lra. }
  rewrite <-(exp_ln x) by lra. rewrite <-(exp_ln f) at 1 by lra. rewrite <-exp_plus.
  assert (E : exp (ln x) ^ n = exp (INR n * ln x)).
  { clear. induction n as [|n IH]; [simpl; by rewrite Rmult_0_l, exp_0|]. rewrite S_INR. simpl pow. rewrite IH, <-exp_plus.
    f_equal. lra. }
  rewrite E. destruct (Rle_lt_or_eq_dec (INR n * ln x) (ln f + eps * INR n)) as [Hlt|Heq]; [lra| |].
  - left. by apply exp_increasing.
  - right. by rewrite Heq.
Qed.

Section Stop.
  Context {Datum Model : Type} (log_ratio : Qc -> nat -> Qc -> Qc) (p : params) (est : estimator Datum Model).

  (** Stopping after [n] iterations because of the inlier ratio [r]. *)
  Lemma stop_enough eps r k n : 0 <= eps -> accurate eps 1 log_ratio -> use_Tdd_test p = false ->
    0 < QR (failure_probability p) < 1 -> (1 <= sample_size est)%nat -> QR r <= 1 ->
    compute_max_iterations log_ratio p est r = Ok k -> (k <= Z.of_nat n)%Z -> (Z.of_nat n < max_iterations p)%Z ->
    0 < QR r /\
    (1 - QR r ^ sample_size est) ^ (n + 2) <= QR (failure_probability p) * exp (eps * INR (n + 2)).
  Proof.
    intros He Hacc Htdd Hf Hs Hr1 Hk Hkn Hn. unfold compute_max_iterations in Hk.
    destruct (bool_decide (0 < r)%Qc) eqn:Hr0; [|done]. apply bool_decide_eq_true in Hr0.
    apply QR_lt in Hr0. rewrite QR_0 in Hr0. split; [done|]. cbn [check mbind outcome_bind] in Hk.
    destruct (decide (r = 1%Qc)) as [->|Hne].
    { rewrite QR_1, pow1, Rminus_eq_0. rewrite pow_i by lia. apply Rmult_le_pos; [lra|]. left. apply exp_pos. }
    assert (Hr : 0 < QR r < 1).
    { split; [done|]. destruct Hr1 as [?|E]; [done|]. exfalso. apply Hne. rewrite <-QR_1 in E.
      apply Qc_is_canon. by apply eqR_Qeq. }
    rewrite Htdd in Hk. set (L := log_ratio (failure_probability p) (sample_size est) r) in *.
    apply enough; [done..|]. pose proof (Hacc (failure_probability p) (sample_size est) r Hf Hr Hs) as Ha. fold L in Ha.
    apply Rabs_bounds in Ha.
    injection Hk as Hk. rewrite plus_INR. change (INR 2) with (1 + 1).
    enough (QR L < INR n + 1) by lra.
    assert (Hcase : (L <= Qcmax (of_Z (min_iterations p)) (Qcmin L (of_Z (max_iterations p))) \/
      of_Z (max_iterations p) <= Qcmax (of_Z (min_iterations p)) (Qcmin L (of_Z (max_iterations p))))%Qc).
    { unfold Qcmax, Qcmin. destruct (decide (of_Z (max_iterations p) < L)%Qc) as [H1|H1].
      - right. destruct (decide _) as [H2|H2]; [apply Qcle_refl|by apply Qcnot_lt].
      - left. destruct (decide _) as [H2|H2]; [apply Qcle_refl|by apply Qcnot_lt]. }
    set (v := Qcmax _ _) in *. pose proof (to_int_gt v) as Hv. rewrite Hk in Hv.
    pose proof (IZR_le _ _ Hkn) as Hkn'. rewrite <-INR_IZR_INZ in Hkn'.
    destruct Hcase as [Hc|Hc]; apply QR_le in Hc; [lra|].
    rewrite QR_of_Z in Hc. exfalso.
    assert (Hlt : (k + 1 <= max_iterations p)%Z) by lia. apply IZR_le in Hlt. rewrite plus_IZR in Hlt. lra.
  Qed.
End Stop.

(** Less outliers means a larger inlier ratio. *)
Lemma inliers_outliers thresh rs ins : is_inliers thresh rs ins -> (Z.of_nat (length rs) < 2 ^ 64)%Z ->
  (outliers thresh rs + Z.of_nat (length ins) = Z.of_nat (length rs))%Z.
Proof.
  intros Hi Hl. rewrite (is_inliers_unique _ _ _ _ Hi (collect_inliers thresh rs)), collect_length.
  pose proof (filter_compl thresh rs). unfold outliers. lia.
Qed.

(** C51.  With the inlier-support cost, a run that stops before the maximal number of iterations has failed to draw an
    outlier-free sample with a probability of (almost) at most the failure probability, if the inliers of the returned
    model are the true ones and their ratio is not below the assumed ratio.  Almost, because the number of iterations is
    rounded down (it may be off by two) and because of [eps]. *)
Theorem ransac_failure_probability_partial : forall {Datum Model St} eps log_ratio dbl_max p
    (est : estimator Datum Model) (smp : sampler St) s data init sum m sum' s',
  0 <= eps -> accurate eps 1 log_ratio -> use_mle p = false -> use_Tdd_test p = false -> (1 <= sample_size est)%nat ->
  (forall h, length (get_residuals est data h) = length data) -> (Z.of_nat (length data) < 2 ^ 64)%Z ->
  QR (of_Z (Z.of_nat (length data))) < QR dbl_max ->
  ransac log_ratio dbl_max p est smp s data init sum = Ok (true, m, sum', s') ->
  (num_iterations sum' < max_iterations p)%Z ->
  let ratio := (of_nat (length (inliers sum')) / of_nat (length data))%Qc in
  (min_inlier_ratio p <= ratio)%Qc ->
  (1 - QR ratio ^ sample_size est) ^ (Z.to_nat (num_iterations sum') + 2) <=
    QR (failure_probability p) * exp (eps * INR (Z.to_nat (num_iterations sum') + 2)).
Proof.
  intros Datum Model St eps log_ratio dbl_max p est smp s data init sum m sum' s'
    He Hacc Hmle Htdd Hs Hlen Hl64 Hmax Hrun Hn ratio Hmin.
  assert (Hp : check_params p = Ok tt).
  { unfold ransac in Hrun. destruct (check_params p) as [[]| | |]; done. }
  assert (Hd : (0 < length data)%nat).
  { unfold ransac, ransac_estimate in Hrun. rewrite Hp in Hrun. cbn [mbind outcome_bind] in Hrun.
    destruct (bool_decide (0 < length data)%nat) eqn:E; [|done]. by apply bool_decide_eq_true in E. }
  apply check_params_ok in Hp as (_ & _ & [Hf0 Hf1] & _).
  apply QR_lt in Hf0, Hf1. rewrite QR_0 in Hf0. rewrite QR_1 in Hf1.
  apply ransac_lemma in Hrun; [|intros h; by rewrite Hlen].
  destruct Hrun as [[? _]|(_ & s0 & n & ms & _ & _ & Hit & Hb & Hi & _ & _ & Hstop & _)]; [done|].
  rewrite Hit in *. rewrite Nat2Z.id. destruct (Hstop Hn) as (r & k & Hk & Hkn & Hr).
  assert (Hc : forall h ins, is_inliers (error_thresh p) (get_residuals est data h) ins ->
    model_cost p (get_residuals est data h) = of_Z (Z.of_nat (length data) - Z.of_nat (length ins))).
  { intros h ins Hins. unfold model_cost. rewrite Hmle. f_equal.
    pose proof (inliers_outliers _ _ _ Hins) as H. rewrite Hlen in H. specialize (H Hl64). lia. }
  assert (Hcount : forall h ins, is_inliers (error_thresh p) (get_residuals est data h) ins -> (length ins <= length data)%nat).
  { intros h ins Hins. pose proof (inliers_outliers _ _ _ Hins) as H. rewrite Hlen in H. specialize (H Hl64).
    unfold outliers in H. lia. }
  destruct (ratio_unit (length (inliers sum')) (length data) Hd (Hcount _ _ Hi)) as [Hrat0 Hrat1]. fold ratio in Hrat0, Hrat1.
  assert (Hle : (r <= ratio)%Qc).
  { destruct Hr as [->|(h & ins & Hh & Hins & Hsz & ->)]; [done|].
    unfold ratio. apply Qcnot_lt. rewrite ratio_lt by done.
    destruct Hb as [[-> Hall]|(_ & before & after & -> & H1 & H2)].
    - specialize (Hall h Hh). rewrite (Hc h ins Hins) in Hall. exfalso. apply QR_le in Hall.
      rewrite !QR_of_Z in *. assert (Hz : (Z.of_nat (length data) - Z.of_nat (length ins) <= Z.of_nat (length data))%Z) by lia.
      apply IZR_le in Hz. lra.
    - assert (Hcm : (model_cost p (get_residuals est data m) <= model_cost p (get_residuals est data h))%Qc).
      { apply elem_of_app in Hh as [Hh|Hh]; [by apply Qclt_le_weak, H1|].
        apply elem_of_cons in Hh as [->|Hh]; [apply Qcle_refl|by apply H2]. }
      rewrite (Hc _ _ Hi), (Hc _ _ Hins) in Hcm. rewrite of_Z_le in Hcm. lia. }
  apply QR_le in Hle, Hrat0, Hrat1. rewrite QR_0 in Hrat0. rewrite QR_1 in Hrat1.
  destruct (stop_enough log_ratio p est eps r k n) as [Hr0 Hmiss]; [done..|lra|done|done|done|].
  eapply Rle_trans; [|exact Hmiss]. apply miss_mono; lra.
Qed.

(** Such functions exist for every accuracy. *)
Definition floor_ratio (eps : R) (f : Qc) (s : nat) (r : Qc) : Qc :=
  Q2Qc (Qmake (Int_part (10 * (ln (QR f) / (ln (1 - QR r ^ s) - eps)))) 10).

Lemma floor_ratio_accurate eps : accurate eps (1 / 10) (floor_ratio eps).
Proof.
  intros f s r _ _ _. unfold floor_ratio. rewrite QR_Q2Qc. set (x := ln (QR f) / _).
  unfold Q2R. cbn [Qnum Qden]. pose proof (base_Int_part (10 * x)) as [H1 H2]. apply Rabs_le. lra.
Qed.

Lemma accurate_weaken eps d d' log_ratio : d <= d' -> accurate eps d log_ratio -> accurate eps d' log_ratio.
Proof. intros Hd Ha f s r Hf Hr Hs. specialize (Ha f s r Hf Hr Hs). lra. Qed.

(** The exact bound fails: with a failure probability of 0.3 and half of the data inliers, one iteration is made, which
    fails with probability 0.5. *)
Definition coin_estimator : estimator Qc Qc :=
  Estimator 1 (fun ds => match ds with [d] => Some [d] | _ => None end)
    (fun data m => (fun d => (d - m) * (d - m))%Qc <$> data).
Definition coin_params : params := Params (Q2Qc (Qmake 1 2)) (Q2Qc (Qmake 3 10)) 0 0 100 false false.
Definition coin_data : list Qc := [Q2Qc 1; Q2Qc 1; Q2Qc 2; Q2Qc 2].

Lemma coin_log eps : 0 <= eps <= 1 / 100 -> 1.2 <= ln (3 / 10) / (ln (1 / 2) - eps) <= 1.85.
Proof.
  intros He. assert (H2 : ln (1 / 2) = - ln 2) by (rewrite <-ln_Rinv by lra; f_equal; lra).
  assert (H3 : ln (3 / 10) = - ln (10 / 3)) by (rewrite <-ln_Rinv by lra; f_equal; lra).
  rewrite H2, H3. pose proof ln_lt_2 as Hl.
  assert (Ha : 3 * ln 2 <= 2 * ln (10 / 3)).
  { assert (E : INR 3 * ln 2 <= INR 2 * ln (10 / 3)); [|simpl in E; lra]. rewrite <-!ln_pow by lra.
    left. apply ln_increasing; simpl; lra. }
  assert (Hb : 5 * ln (10 / 3) <= 9 * ln 2).
  { assert (E : INR 5 * ln (10 / 3) <= INR 9 * ln 2); [|simpl in E; lra]. rewrite <-!ln_pow by lra.
    left. apply ln_increasing; simpl; lra. }
  set (a := ln (10 / 3)) in *. set (b := ln 2) in *.
  replace (- a / (- b - eps)) with (a / (b + eps)) by (field; lra). split.
  - apply (Rmult_le_reg_r (b + eps)); [lra|]. replace (a / (b + eps) * (b + eps)) with a by (field; lra). nra.
  - apply (Rmult_le_reg_r (b + eps)); [lra|]. replace (a / (b + eps) * (b + eps)) with a by (field; lra). nra.
Qed.

Lemma coin_iterations eps log_ratio : 0 <= eps <= 1 / 100 -> accurate eps (1 / 10) log_ratio ->
  compute_max_iterations log_ratio coin_params coin_estimator (of_nat 2 / of_nat 4) = Ok 1%Z.
Proof.
  intros He Hacc. assert (Hr : QR (of_nat 2 / of_nat 4) = 1 / 2).
  { assert (E : (of_nat 2 / of_nat 4)%Qc = Q2Qc (Qmake 1 2)) by (apply Qc_is_canon; reflexivity).
    rewrite E, QR_Q2Qc. unfold Q2R. simpl. lra. }
  assert (Hf : QR (failure_probability coin_params) = 3 / 10).
  { cbn [failure_probability coin_params]. rewrite QR_Q2Qc. unfold Q2R. simpl. lra. }
  unfold compute_max_iterations. rewrite bool_decide_eq_true_2 by (apply QR_lt; rewrite Hr, QR_0; lra).
  cbn [check mbind outcome_bind]. rewrite decide_False by (intros E; rewrite E, QR_1 in Hr; lra).
  cbn [use_Tdd_test coin_params sample_size coin_estimator min_iterations max_iterations]. f_equal.
  pose proof (Hacc (failure_probability coin_params) 1%nat (of_nat 2 / of_nat 4)%Qc) as Ha.
  rewrite Hr, Hf in Ha. specialize (Ha ltac:(lra) ltac:(lra) ltac:(lia)). rewrite pow_1 in Ha.
  replace (1 - 1 / 2) with (1 / 2) in Ha by lra. pose proof (coin_log eps He). apply Rabs_bounds in Ha.
  cbn [failure_probability coin_params] in Ha |- *.
  set (L := log_ratio _ _ _) in *. assert (HL : 1.1 <= QR L < 2) by lra.
  unfold Qcmax, Qcmin.
  rewrite (decide_False (P := (of_Z 100 < L)%Qc)) by (rewrite QR_lt, QR_of_Z; lra).
  rewrite decide_True by (rewrite QR_lt, QR_of_Z; lra).
  destruct (to_int_bounds 1 2 L) as [H1 H2]; [rewrite QR_le, QR_of_Z; lra..|].
  enough (to_int L <> 2%Z) by lia. intros E. unfold to_int, Q2R in *. destruct (this L) as [num den]. cbn in *.
  assert (Hnum : IZR num < IZR (2 * Z.pos den)).
  { rewrite mult_IZR. assert (Hd : 0 < IZR (Z.pos den)) by (apply IZR_lt; lia).
    apply (Rmult_lt_reg_r (/ IZR (Z.pos den))); [by apply Rinv_0_lt_compat|].
    rewrite Rmult_assoc, Rinv_r by lra. lra. }
  apply lt_IZR in Hnum. pose proof (Z.quot_rem' num (Z.pos den)) as Hqr. rewrite E in Hqr.
  pose proof (Z.rem_bound_pos num (Z.pos den)) as Hb. pose proof (Z.rem_bound_abs num (Z.pos den)). lia.
Qed.

Lemma coin_quality : exists c, default_quality coin_params (get_residuals coin_estimator coin_data (Q2Qc 1)) [] =
  Ok (c, [0; 1]%Z) /\ (c < of_Z 1000)%Qc.
Proof.
  assert (E : get_residuals coin_estimator coin_data (Q2Qc 1) = [Q2Qc 0; Q2Qc 0; Q2Qc 1; Q2Qc 1]).
  { unfold coin_estimator, coin_data. cbn [get_residuals fmap list_fmap].
    repeat (f_equal; [apply Qc_is_canon; reflexivity|]). done. }
  rewrite E. destruct (default_quality_spec coin_params [Q2Qc 0; Q2Qc 0; Q2Qc 1; Q2Qc 1]) as (ins & Eq & Hi); [simpl; lia|].
  exists (model_cost coin_params [Q2Qc 0; Q2Qc 0; Q2Qc 1; Q2Qc 1]). split.
  - rewrite Eq. do 2 f_equal.
    apply (is_inliers_unique _ _ _ _ Hi), (collect_inliers (error_thresh coin_params) [Q2Qc 0; Q2Qc 0; Q2Qc 1; Q2Qc 1]).
  - vm_compute. reflexivity.
Qed.

Lemma coin_consider eps log_ratio : 0 <= eps <= 1 / 100 -> accurate eps (1 / 10) log_ratio ->
  exists c, consider log_ratio coin_params coin_estimator (default_quality coin_params) coin_data
    (Best 0%Qc (of_Z 1000) 100%Z) (Q2Qc 1) = Ok (Best (Q2Qc 1) c 1%Z).
Proof.
  intros He Hacc. pose proof (coin_iterations eps log_ratio He Hacc) as Hk. unfold consider.
  destruct coin_quality as (c & -> & Hc). cbn [mbind outcome_bind b_cost b_limit]. rewrite decide_True by done.
  change (length [0; 1]%Z) with 2%nat. change (length coin_data) with 4%nat. change (sample_size coin_estimator) with 1%nat.
  rewrite decide_False by (rewrite ratio_lt by lia; lia). rewrite Hk. cbn [mbind outcome_bind]. by eexists.
Qed.

Lemma coin_confidence :
  (1 - (1 - (of_nat 2 / of_nat 4) ^ 1) ^ 1)%Qc = Q2Qc (Qmake 1 2).
Proof. apply Qc_is_canon. vm_compute. reflexivity. Qed.

Lemma coin_sample : exists s1, sm_sample (random_sampler 1) (seqZ 0 4, fun _ : nat => 0%Z) = Ok (s1, Some [0%Z]).
Proof. eexists. reflexivity. Qed.

Theorem ransac_failure_probability_refuted : forall eps log_ratio, 0 <= eps <= 1 / 100 ->
  accurate eps (1 / 10) log_ratio -> exists m sum' s',
    ransac log_ratio (of_Z 1000) coin_params coin_estimator (random_sampler 1) ([], fun _ => 0%Z) coin_data 0%Qc
      (Summary [] 0%Z 0%Z 0%Qc) = Ok (true, m, sum', s') /\
    num_iterations sum' = 1%Z /\ max_iterations coin_params = 100%Z /\
    inliers sum' = [0; 1]%Z /\ failure_probability coin_params = Q2Qc (Qmake 3 10) /\
    confidence sum' = Q2Qc (Qmake 1 2).
Proof.
  intros eps log_ratio He Hacc. destruct (coin_consider eps log_ratio He Hacc) as [c Hcons]. unfold ransac.
  assert (Hp : check_params coin_params = Ok tt) by (vm_compute; reflexivity). rewrite Hp. cbn [mbind outcome_bind].
  unfold ransac_estimate. rewrite bool_decide_eq_true_2 by (simpl; lia). cbn [check mbind outcome_bind].
  change (sm_initialize (random_sampler 1) ([], fun _ : nat => 0%Z) (Z.of_nat (length coin_data)))
    with (Ok (seqZ 0 4, fun _ : nat => 0%Z, true)).
  cbn [mbind outcome_bind]. rewrite (decide_False (P := (0 < min_inlier_ratio coin_params)%Qc)) by (by vm_compute).
  cbn [max_iterations coin_params mbind outcome_bind].
  assert (E : Z.to_nat 100 = S 99) by reflexivity. rewrite E. clear E.
  generalize 99%nat. intros fuel. cbn [ransac_loop]. rewrite decide_True by (simpl; lia).
  destruct coin_sample as [s1 ->]. cbn [mbind outcome_bind].
  assert (E : subset_data coin_data [0%Z] = Ok [Q2Qc 1]) by reflexivity. rewrite E. cbn [mbind outcome_bind].
  cbn [estimate_model coin_estimator]. cbn [run_steps].
  rewrite Hcons. cbn [mbind outcome_bind]. change (0 + 1)%Z with 1%Z.
  assert (Hend : ransac_loop log_ratio coin_params coin_estimator (random_sampler 1) (default_quality coin_params) fuel
    coin_data 1 s1 (Best (Q2Qc 1) c 1%Z) = Ok (1%Z, s1, Best (Q2Qc 1) c 1%Z)).
  { destruct fuel; cbn [ransac_loop]; by rewrite decide_False by (simpl; lia). }
  rewrite Hend. cbn [mbind outcome_bind b_model].
  destruct coin_quality as (c' & -> & _). cbn [mbind outcome_bind]. eexists _, _, _. split; [reflexivity|].
  cbn [num_iterations inliers confidence]. split; [done|]. split; [done|]. split; [done|]. split; [done|].
  exact coin_confidence.
Qed.

Print Assumptions ransac_failure_probability_partial.
Print Assumptions ransac_failure_probability_refuted.

(** The hypothesis of the partial theorem is met. *)
Example ransac_accurate_sample : accurate (1 / 1000) 1 (floor_ratio (1 / 1000)).
Proof. eapply accurate_weaken; [|apply floor_ratio_accurate]. lra. Qed.
