(** Properties C26 and C27: sample consensus. *)
From stdpp Require Import gmap sorting numbers.
From Coq Require Import QArith_base Qcanon.
From Verif Require Import Base Sampling_Model Quality_Model Quality_Spec Quality_Proofs Ransac_Model Ransac_Spec
  Ransac_Proofs.
Open Scope Qc_scope.

(** C26.  Whatever the estimator, the sampler and the rounding of the logarithms: when Estimate returns true, the model
    is the first cheapest one of all models made from the samples drawn (if one of them costs less than the largest
    double), the inliers are exactly the data within the threshold, and the number of iterations is the number of
    samples drawn, between the minimum and the maximum.  A run of less than the maximum is justified by
    ComputeMaxIterations for the assumed inlier ratio or for the inlier ratio of a hypothesis.  When Estimate returns
    false nothing was drawn. *)
Theorem ransac_best : forall {Datum Model St} log_ratio dbl_max p (est : estimator Datum Model) (smp : sampler St)
    s data init sum ok m sum' s',
  (forall h, (Z.of_nat (length (get_residuals est data h)) < 2 ^ 64)%Z) ->
  ransac log_ratio dbl_max p est smp s data init sum = Ok (ok, m, sum', s') ->
  (ok = false /\ sm_initialize smp s (Z.of_nat (length data)) = Ok (s', false) /\ m = init /\ inliers sum' = []) \/
  (ok = true /\ exists s0 n ms, sm_initialize smp s (Z.of_nat (length data)) = Ok (s0, true) /\
     drawn est smp data n s0 s' ms /\ num_iterations sum' = Z.of_nat n /\
     is_best (fun h => model_cost p (get_residuals est data h)) dbl_max init ms m /\
     is_inliers (error_thresh p) (get_residuals est data m) (inliers sum') /\
     num_input_data_points sum' = Z.of_nat (length data) /\
     (min_iterations p <= Z.of_nat n <= Z.max 0 (max_iterations p))%Z /\
     ((Z.of_nat n < max_iterations p)%Z ->
        exists r k, compute_max_iterations log_ratio p est r = Ok k /\ (k <= Z.of_nat n)%Z /\
          (r = min_inlier_ratio p \/ exists h ins, h ∈ ms /\
             is_inliers (error_thresh p) (get_residuals est data h) ins /\ (sample_size est <= length ins)%nat /\
             r = of_nat (length ins) / of_nat (length data))) /\
     confidence sum' = 1 - (1 - (of_nat (length (inliers sum')) / of_nat (length data)) ^ sample_size est) ^ n).
Proof. exact @ransac_lemma. Qed.

(** The same for LMed, whose cost is the (almost) median of the squared residuals. *)
Theorem lmed_best : forall {Datum Model St} log_ratio dbl_max ne p (est : estimator Datum Model) (smp : sampler St)
    s data init sum ok m sum' s' (cost : Model -> Qc),
  (forall h, (2 <= length (get_residuals est data h))%nat) ->
  (forall h, lmed_median ne (get_residuals est data h) = Ok (cost h)) ->
  lmed log_ratio dbl_max ne p est smp s data init sum = Ok (ok, m, sum', s') ->
  (ok = false /\ sm_initialize smp s (Z.of_nat (length data)) = Ok (s', false) /\ m = init /\ inliers sum' = []) \/
  (ok = true /\ exists s0 n ms, sm_initialize smp s (Z.of_nat (length data)) = Ok (s0, true) /\
     drawn est smp data n s0 s' ms /\ num_iterations sum' = Z.of_nat n /\ is_best cost dbl_max init ms m /\
     inliers sum' = lmed_inliers (cost m) (Z.of_nat (sample_size est)) (get_residuals est data m) [] /\
     (min_iterations p <= Z.of_nat n <= Z.max 0 (max_iterations p))%Z).
Proof. exact @lmed_lemma. Qed.

(** Estimate always returns: no aborts, no out-of-range access, no endless loop, if the parameters pass the checks of the
    constructor and there are at least as many data as a sample needs. *)
Theorem ransac_total : forall {Datum Model} log_ratio dbl_max p (est : estimator Datum Model) indices r data init sum,
  (forall h, (Z.of_nat (length (get_residuals est data h)) < 2 ^ 64)%Z) -> check_params p = Ok tt ->
  (1 <= sample_size est <= length data)%nat ->
  exists m sum' s', ransac log_ratio dbl_max p est (random_sampler (Z.of_nat (sample_size est))) (indices, r) data init sum
    = Ok (true, m, sum', s').
Proof.
  intros Datum Model log_ratio dbl_max p est indices r data init sum Hlen Hp Hs.
  exact (ransac_total_lemma log_ratio dbl_max p est (random_sampler _) (indices, r) data init sum Hlen Hp
    ltac:(lia) ltac:(lia) (random_sampler_sound (Z.of_nat (sample_size est)) (length data) (indices, r) ltac:(lia))).
Qed.

Theorem exhaustive_ransac_total : forall {Datum Model} log_ratio dbl_max p (est : estimator Datum Model) s0 data init sum,
  (forall h, (Z.of_nat (length (get_residuals est data h)) < 2 ^ 64)%Z) -> check_params p = Ok tt ->
  sample_size est = 2%nat -> (2 <= length data)%nat -> es_new 2 = Ok s0 ->
  exists m sum' s', ransac log_ratio dbl_max p est exhaustive_sampler s0 data init sum = Ok (true, m, sum', s').
Proof.
  intros Datum Model log_ratio dbl_max p est s0 data init sum Hlen Hp Hs Hd Hnew. injection Hnew as <-.
  exact (ransac_total_lemma log_ratio dbl_max p est exhaustive_sampler (ES 0 0 1) data init sum Hlen Hp
    ltac:(lia) ltac:(lia) (exhaustive_sampler_sound _ (ES 0 0 1) Hd ltac:(simpl; lia) ltac:(simpl; lia))).
Qed.

Theorem lmed_total : forall {Datum Model} log_ratio dbl_max ne p (est : estimator Datum Model) indices r data init sum,
  (forall h, (2 <= length (get_residuals est data h))%nat) -> check_params p = Ok tt ->
  (1 <= sample_size est <= length data)%nat ->
  exists m sum' s', lmed log_ratio dbl_max ne p est (random_sampler (Z.of_nat (sample_size est))) (indices, r) data init
    sum = Ok (true, m, sum', s').
Proof.
  intros Datum Model log_ratio dbl_max ne p est indices r data init sum Hlen Hp Hs.
  exact (lmed_total_lemma log_ratio dbl_max ne p est (random_sampler _) (indices, r) data init sum Hlen Hp
    ltac:(lia) ltac:(lia) (random_sampler_sound (Z.of_nat (sample_size est)) (length data) (indices, r) ltac:(lia))).
Qed.

(** The reported confidence is a probability. *)
Theorem ransac_confidence_range : forall {Datum Model St} log_ratio dbl_max p (est : estimator Datum Model)
    (smp : sampler St) s data init sum m sum' s',
  (forall h, length (get_residuals est data h) = length data) -> (Z.of_nat (length data) < 2 ^ 64)%Z ->
  ransac log_ratio dbl_max p est smp s data init sum = Ok (true, m, sum', s') ->
  0 <= confidence sum' /\ confidence sum' <= 1.
Proof.
  intros Datum Model St log_ratio dbl_max p est smp s data init sum m sum' s' Hlen Hl Hrun.
  pose proof Hrun as Hd. unfold ransac, ransac_estimate in Hd.
  destruct (check_params p) as [[]| | |]; try done. cbn [mbind outcome_bind] in Hd.
  destruct (bool_decide (0 < length data)%nat) eqn:E; [|done]. apply bool_decide_eq_true in E. clear Hd.
  destruct (ransac_lemma log_ratio dbl_max p est smp s data init sum true m sum' s')
    as [[? _]|(_ & s0 & n & ms & _ & _ & _ & _ & [Hs Hi] & _ & _ & _ & ->)]; [by intros h; rewrite Hlen|done|done|].
  apply confidence_unit; [done|].
  assert (Hnd : NoDup (inliers sum')).
  { clear -Hs. induction Hs as [|a l Hs IH Hall]; constructor; [|done]. intros Hin.
    rewrite list.Forall_forall in Hall. specialize (Hall _ Hin). lia. }
  rewrite <-(seq_length (length data) 0), <-(fmap_length Z.of_nat).
  apply submseteq_length, NoDup_submseteq; [done|]. intros i Hin. apply Hi in Hin as (r & Hi0 & Hr & _).
  apply lookup_lt_Some in Hr. rewrite Hlen in Hr. apply elem_of_list_fmap. exists (Z.to_nat i).
  split; [lia|]. apply elem_of_seq. lia.
Qed.

(** Estimate a constant from one number. *)
Definition constant_estimator : estimator Qc Qc :=
  Estimator 1 (fun ds => match ds with [d] => Some [d] | _ => None end)
    (fun data m => (fun d => (d - m) * (d - m)) <$> data).
Definition sample_params (mle : bool) : params :=
  Params (Q2Qc 2) (Q2Qc (Qmake 1 100)) 0 3 50 mle false.
Definition no_summary : summary := Summary [] 0 0 0.

Definition ransac_test (mle : bool) (best : Qc) : bool :=
  match ransac (fun _ _ _ => Q2Qc 5) (Q2Qc 1000000) (sample_params mle) constant_estimator (random_sampler 1)
          ([], fun k => nth k [0; 2; 1; 3; 2; 3]%Z 0%Z) [Q2Qc 1; Q2Qc 7; Q2Qc 8; Q2Qc 7; Q2Qc 20] 0 no_summary with
  | Ok (ok, m, sum', _) => bool_decide (ok = true /\ m = best /\ inliers sum' = [1; 2; 3]%Z /\ num_iterations sum' = 5%Z)
  | _ => false
  end.

Example ransac_sample :
  ransac_test false (Q2Qc 8) = true /\ ransac_test true (Q2Qc 7) = true /\ check_params (sample_params true) = Ok tt /\
  (forall h, length (get_residuals constant_estimator [Q2Qc 1; Q2Qc 7; Q2Qc 20] h) = 3%nat).
Proof. split_and!; [vm_compute; reflexivity..|]. intros h. done. Qed.

(** C27 is false of the code: when no sample gives a model, Estimate returns true and leaves the caller's model. *)
Theorem ransac_success_refuted : exists (p : params) (est : estimator Qc Qc) (data : list Qc) m sum' s',
  check_params p = Ok tt /\ (sample_size est <= length data)%nat /\
  (forall sub, estimate_model est sub = None) /\
  ransac (fun _ _ _ => Q2Qc 5) (Q2Qc 1000000) p est (random_sampler 1) ([], fun _ => 0%Z) data (Q2Qc 42) no_summary =
    Ok (true, m, sum', s') /\ m = Q2Qc 42.
Proof.
  set (est := Estimator 1 (fun _ => None) (fun data m => (fun d => (d - m) * (d - m)) <$> data) : estimator Qc Qc).
  set (p := Params (Q2Qc 2) (Q2Qc (Qmake 1 100)) 0 3 5 false false).
  destruct (ransac_total (fun _ _ _ => Q2Qc 5) (Q2Qc 1000000) p est [] (fun _ => 0%Z) [Q2Qc 1; Q2Qc 7] (Q2Qc 42) no_summary)
    as (m & sum' & s' & E).
  - intros h. simpl. lia.
  - vm_compute. reflexivity.
  - simpl. lia.
  - exists p, est, [Q2Qc 1; Q2Qc 7], m, sum', s'. split; [vm_compute; reflexivity|]. split; [simpl; lia|]. split; [done|].
    split; [done|]. apply ransac_lemma in E; [|intros h; simpl; lia].
    destruct E as [(? & _)|(_ & s0 & n & ms & _ & Hdr & _ & Hb & _)]; [done|].
    assert (ms = []) as ->.
    { clear Hb. induction Hdr; auto. done. }
    destruct Hb as [[-> _]|(_ & before & after & E & _)]; [done|]. by destruct before.
Qed.

(** What holds: when Estimate returns true and some hypothesis costs less than the largest double, the model is one that
    the estimator made from data that were sampled. *)
Theorem ransac_success_partial : forall {Datum Model St} log_ratio dbl_max p (est : estimator Datum Model)
    (smp : sampler St) s data init sum m sum' s',
  (forall h, (Z.of_nat (length (get_residuals est data h)) < 2 ^ 64)%Z) ->
  ransac log_ratio dbl_max p est smp s data init sum = Ok (true, m, sum', s') ->
  exists s0 n ms, sm_initialize smp s (Z.of_nat (length data)) = Ok (s0, true) /\ drawn est smp data n s0 s' ms /\
    ((exists h, h ∈ ms /\ model_cost p (get_residuals est data h) < dbl_max) -> m ∈ ms) /\
    (m ∈ ms \/ m = init).
Proof.
  intros Datum Model St log_ratio dbl_max p est smp s data init sum m sum' s' Hlen Hrun.
  apply ransac_lemma in Hrun; [|done].
  destruct Hrun as [[? _]|(_ & s0 & n & ms & Hi & Hdr & _ & Hb & _)]; [done|].
  exists s0, n, ms. split; [done|]. split; [done|].
  destruct Hb as [[-> Hall]|(_ & before & after & -> & _)].
  - split; [|by right]. intros (h & Hh & Hlt). exfalso. by apply (Qclt_not_le _ _ Hlt), Hall.
  - assert (m ∈ before ++ m :: after) by (apply elem_of_app; right; by left). split; [done|by left].
Qed.

Print Assumptions ransac_best.
Print Assumptions lmed_best.
Print Assumptions ransac_total.
Print Assumptions exhaustive_ransac_total.
Print Assumptions lmed_total.
Print Assumptions ransac_confidence_range.
Print Assumptions ransac_success_refuted.
Print Assumptions ransac_success_partial.
