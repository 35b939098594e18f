(** Proofs about the sample-consensus loop. *)
From stdpp Require Import gmap sorting numbers.
From Coq Require Import QArith_base Qreduction Qcanon.
From Verif Require Import Base Sampling_Model Sampling_Spec Sampling_Proofs Quality_Model Quality_Spec Quality_Proofs
  Ransac_Model Ransac_Spec.
Open Scope Qc_scope.

(** ** Numbers *)
Lemma this_of_Z z : this (of_Z z) = inject_Z z.
Proof.
  unfold of_Z, Q2Qc, inject_Z. cbn [this]. unfold Qred.
  pose proof (Z.ggcd_gcd z 1) as Hg. pose proof (Z.ggcd_correct_divisors z 1) as Hd.
  destruct (Z.ggcd z 1) as [g [aa bb]]. cbn [fst] in Hg. rewrite Z.gcd_1_r in Hg. subst g.
  destruct Hd as [-> Hb]. rewrite Z.mul_1_l in *. subst bb. done.
Qed.

Lemma of_Z_le a b : of_Z a <= of_Z b <-> (a <= b)%Z.
Proof. unfold Qcle. rewrite !this_of_Z. unfold Qle. simpl. lia. Qed.
Lemma of_Z_lt a b : of_Z a < of_Z b <-> (a < b)%Z.
Proof. unfold Qclt. rewrite !this_of_Z. unfold Qlt. simpl. lia. Qed.
Lemma of_Z_0 : of_Z 0 = 0. Proof. by apply Qc_is_canon. Qed.

Lemma to_int_bounds a b x : of_Z a <= x -> x <= of_Z b -> (a <= to_int x <= b)%Z.
Proof.
  unfold Qcle. rewrite !this_of_Z. unfold Qle, to_int. simpl. intros H1 H2. split.
  - apply Z.quot_le_lower_bound; lia.
  - apply Z.quot_le_upper_bound; lia.
Qed.

Lemma Qcnot_lt a b : ~ a < b -> b <= a.
Proof. intros H. by apply Qcnot_lt_le. Qed.

Lemma Qcmax_min_bounds lo hi x : lo <= hi -> lo <= Qcmax lo (Qcmin x hi) /\ Qcmax lo (Qcmin x hi) <= hi.
Proof.
  intros H. unfold Qcmax, Qcmin. destruct (decide (hi < x)) as [H1|H1].
  - destruct (decide (lo < hi)); split; auto using Qcle_refl, Qclt_le_weak.
  - apply Qcnot_lt in H1. destruct (decide (lo < x)); split; auto using Qcle_refl, Qclt_le_weak.
Qed.

Lemma ratio_lt a b n : (0 < n)%nat -> of_nat a / of_nat n < of_nat b / of_nat n <-> (a < b)%nat.
Proof.
  intros Hn. assert (Hp : 0 < of_nat n).
  { unfold of_nat. rewrite <-of_Z_0. apply of_Z_lt. lia. }
  assert (Hc : forall x, x / of_nat n * of_nat n = x).
  { intros x. unfold Qcdiv. rewrite <-Qcmult_assoc, (Qcmult_comm (/ _)), Qcmult_inv_r, Qcmult_1_r; [done|].
    intros E. rewrite E in Hp. by apply Qclt_not_eq in Hp. }
  split.
  - intros H. apply Nat2Z.inj_lt. apply of_Z_lt. fold (of_nat a) (of_nat b).
    rewrite <-(Hc (of_nat a)), <-(Hc (of_nat b)). by apply Qcmult_lt_compat_r.
  - intros H. apply Nat2Z.inj_lt, of_Z_lt in H. fold (of_nat a) (of_nat b) in H.
    apply Qcnot_le_lt. intros Hle. apply (Qcmult_le_compat_r _ _ (of_nat n)) in Hle; [|by apply Qclt_le_weak].
    rewrite !Hc in Hle. by apply (Qclt_not_le _ _ H).
Qed.

Lemma ratio_pos a n : (0 < n)%nat -> (0 < a)%nat -> 0 < of_nat a / of_nat n.
Proof.
  intros Hn Ha. assert (E : 0 = of_nat 0 / of_nat n).
  { unfold of_nat. change (Z.of_nat 0) with 0%Z. rewrite of_Z_0. unfold Qcdiv. ring. }
  rewrite E. by apply ratio_lt.
Qed.

(** ** The best hypothesis *)
Section Best.
  Context {Model : Type} (cost : Model -> Qc) (worst : Qc) (init : Model).

  (** [is_best] with the recorded cost. *)
  Definition best_of (ms : list Model) (m : Model) (c : Qc) : Prop :=
    is_best cost worst init ms m /\ (forall h, h ∈ ms -> c <= cost h) /\ c <= worst /\
    (c = worst \/ (m ∈ ms /\ c = cost m)).

  Lemma best_of_nil : best_of [] init worst.
  Proof.
    split_and!; [left; split; [done|]|..]; try (by intros h ?%elem_of_nil); [apply Qcle_refl|by left].
  Qed.

  Lemma best_of_better ms m c h : best_of ms m c -> cost h < c -> best_of (ms ++ [h]) h (cost h).
  Proof.
    intros (Hb & Hc & Hw & _) Hlt. split_and!.
    - right. split; [by eapply Qclt_le_trans|]. exists ms, []. split_and!; [done| |by intros ? ?%elem_of_nil].
      intros h' Hh. eapply Qclt_le_trans; [done|by apply Hc].
    - intros h'. rewrite elem_of_app, elem_of_list_singleton. intros [Hh| ->]; [|apply Qcle_refl].
      apply Qclt_le_weak. eapply Qclt_le_trans; [done|by apply Hc].
    - apply Qclt_le_weak. by eapply Qclt_le_trans.
    - right. split; [|done]. apply elem_of_app. right. by left.
  Qed.

  Lemma best_of_worse ms m c h : best_of ms m c -> ~ cost h < c -> best_of (ms ++ [h]) m c.
  Proof.
    intros (Hb & Hc & Hw & Hm) Hge%Qcnot_lt.
    assert (Hall : forall h', h' ∈ ms ++ [h] -> c <= cost h').
    { intros h'. rewrite elem_of_app, elem_of_list_singleton. intros [Hh| ->]; [by apply Hc|done]. }
    split_and!; [|done|done|].
    - destruct Hb as [[-> Hi]|(Hlt & before & after & -> & H1 & H2)].
      + left. split; [done|]. intros h'. rewrite elem_of_app, elem_of_list_singleton. intros [Hh| ->]; [by apply Hi|].
        destruct Hm as [->|[Hin ->]]; [done|]. eapply Qcle_trans; [by apply (Hi _ Hin)|done].
      + right. split; [done|]. exists before, (after ++ [h]). split_and!; [by rewrite <-app_assoc|done|].
        intros h'. rewrite elem_of_app, elem_of_list_singleton. intros [Hh| ->]; [by apply H2|].
        assert (Hcm : c <= cost m) by (apply Hc; rewrite elem_of_app; right; by left).
        destruct Hm as [->|[_ ->]]; [|done].
        exfalso. by apply (Qclt_not_le _ _ Hlt).
    - destruct Hm as [->|[Hin ->]]; [by left|right]. split; [|done]. apply elem_of_app. by left.
  Qed.
End Best.

(** ** The loop *)
Section Loop.
  Context {Datum Model St : Type}.
  Context (log_ratio : Qc -> nat -> Qc -> Qc) (dbl_max : Qc).
  Context (p : params) (est : estimator Datum Model) (smp : sampler St) (q : quality).
  Context (data : list Datum) (cost : Model -> Qc) (ins : Model -> list Z).
  Hypothesis Hq : forall m, q (get_residuals est data m) [] = Ok (cost m, ins m).
  Hypothesis Hmm : (min_iterations p <= max_iterations p)%Z.

  Notation cmi := (compute_max_iterations log_ratio p est).
  Notation ratio m := (of_nat (length (ins m)) / of_nat (length data)).

  Lemma cmi_bounds r k : cmi r = Ok k -> (min_iterations p <= k <= max_iterations p)%Z.
  Proof.
    unfold compute_max_iterations. destruct (bool_decide (0 < r)); [|done]. cbn [check mbind outcome_bind].
    destruct (decide (r = 1)); intros [= <-]; [lia|].
    destruct (Qcmax_min_bounds (of_Z (min_iterations p)) (of_Z (max_iterations p))
      (log_ratio (failure_probability p) (if use_Tdd_test p then S (sample_size est) else sample_size est) r)) as [H1 H2];
      [by apply of_Z_le|]. by apply to_int_bounds.
  Qed.

  (** The limit comes from the parameters or from a hypothesis with enough inliers. *)
  Definition limit_ok (limit0 : Z) (ms : list Model) (limit : Z) : Prop :=
    (min_iterations p <= limit <= limit0)%Z /\
    (limit = limit0 \/ exists h, h ∈ ms /\ (sample_size est <= length (ins h))%nat /\ cmi (ratio h) = Ok limit).

  Lemma limit_ok_app limit0 ms ms' limit : limit_ok limit0 ms limit -> limit_ok limit0 (ms ++ ms') limit.
  Proof.
    intros [H1 H2]. split; [done|]. destruct H2 as [->|(h & Hh & Hr)]; [by left|right].
    exists h. split; [|done]. apply elem_of_app. by left.
  Qed.

  Lemma consider_spec limit0 init ms b m b' : (0 < length data)%nat ->
    best_of cost dbl_max init ms (b_model b) (b_cost b) -> limit_ok limit0 ms (b_limit b) ->
    consider log_ratio p est q data b m = Ok b' ->
    best_of cost dbl_max init (ms ++ [m]) (b_model b') (b_cost b') /\ limit_ok limit0 (ms ++ [m]) (b_limit b').
  Proof.
    intros Hd Hb Hl. unfold consider. rewrite Hq. cbn [mbind outcome_bind].
    destruct (decide (cost m < b_cost b)) as [Hlt|Hge].
    - destruct (decide (ratio m < _)) as [Hs|Hs].
      + intros [= <-]. cbn [b_model b_cost b_limit]. split; [by eapply best_of_better|by apply limit_ok_app].
      + destruct (cmi (ratio m)) as [k| | |] eqn:Ek; try done. cbn [mbind outcome_bind]. intros [= <-].
        cbn [b_model b_cost b_limit]. split; [by eapply best_of_better|].
        pose proof (cmi_bounds _ _ Ek). destruct Hl as [Hlb Hl].
        destruct (Z.min_spec k (b_limit b)) as [[Hk ->]|[Hk ->]].
        * split; [lia|right]. exists m. split; [apply elem_of_app; right; by left|]. split; [|done].
          rewrite ratio_lt in Hs by done. lia.
        * apply limit_ok_app. by split.
    - intros [= <-]. split; [by apply best_of_worse|by apply limit_ok_app].
  Qed.

  Lemma consider_list limit0 init l : forall ms b b', (0 < length data)%nat ->
    best_of cost dbl_max init ms (b_model b) (b_cost b) -> limit_ok limit0 ms (b_limit b) ->
    run_steps (consider log_ratio p est q data) b l = Ok b' ->
    best_of cost dbl_max init (ms ++ l) (b_model b') (b_cost b') /\ limit_ok limit0 (ms ++ l) (b_limit b').
  Proof.
    induction l as [|m l IH]; intros ms b b' Hd Hb Hl.
    { cbn [run_steps]. intros [= <-]. by rewrite app_nil_r. }
    cbn [run_steps]. destruct (consider _ _ _ _ _ b m) as [b1| | |] eqn:E; try done. cbn [mbind outcome_bind].
    destruct (consider_spec limit0 init ms b m b1) as [Hb1 Hl1]; [done..|].
    intros Hrun. rewrite cons_middle, app_assoc. by eapply IH.
  Qed.

  Lemma subset_data_spec indices : forall sub, subset_data data indices = Ok sub ->
    Forall2 (fun i d => (0 <= i)%Z /\ data !! Z.to_nat i = Some d) indices sub.
  Proof.
    unfold subset_data. induction indices as [|i indices IH]; intros sub.
    { simpl. intros [= <-]. constructor. }
    cbn [mapM]. destruct (decide (0 <= i)%Z) as [Hi|]; [|done].
    destruct (data !! Z.to_nat i) as [d|] eqn:Ed; [|done]. cbn [or_ub mbind outcome_bind].
    destruct (mapM _ indices) as [sub'| | |] eqn:E; try done. cbn [mbind outcome_bind].
    intros [= <-]. constructor; [done|]. by apply IH.
  Qed.

  Lemma loop_spec limit0 init fuel : forall k s0 s ms b n' s' b', (0 < length data)%nat ->
    drawn est smp data k s0 s ms -> (Z.of_nat k <= Z.max 0 limit0)%Z ->
    best_of cost dbl_max init ms (b_model b) (b_cost b) -> limit_ok limit0 ms (b_limit b) ->
    ransac_loop log_ratio p est smp q fuel data (Z.of_nat k) s b = Ok (n', s', b') ->
    exists k' ms', n' = Z.of_nat k' /\ drawn est smp data k' s0 s' ms' /\ (Z.of_nat k' <= Z.max 0 limit0)%Z /\
      best_of cost dbl_max init ms' (b_model b') (b_cost b') /\ limit_ok limit0 ms' (b_limit b') /\ (b_limit b' <= n')%Z.
  Proof.
    induction fuel as [|fuel IH]; intros k s0 s ms b n' s' b' Hd Hdr Hk Hb Hl.
    { cbn [ransac_loop]. destruct (decide _) as [|Hlim]; [done|]. intros [= <- <- <-].
      exists k, ms. split_and!; try done; [apply Hl..|lia]. }
    cbn [ransac_loop]. destruct (decide _) as [Hlim|Hlim].
    2:{ intros [= <- <- <-]. exists k, ms. split_and!; try done; [apply Hl..|lia]. }
    assert (Hk' : (Z.of_nat (S k) <= Z.max 0 limit0)%Z) by (destruct Hl as [? _]; lia).
    replace (Z.of_nat k + 1)%Z with (Z.of_nat (S k)) by lia.
    destruct (sm_sample smp s) as [[s1 [indices|]]| | |] eqn:Es; try done; cbn [mbind outcome_bind].
    2:{ intros Hrun. eapply (IH (S k) s0 s1 ms b); [done|by eapply drawn_no_sample|done..]. }
    destruct (subset_data data indices) as [sub| | |] eqn:Esub; try done. cbn [mbind outcome_bind].
    apply subset_data_spec in Esub. destruct (estimate_model est sub) as [models|] eqn:Em.
    2:{ intros Hrun. eapply (IH (S k) s0 s1 ms b); [done|by eapply drawn_no_model|done..]. }
    destruct (run_steps _ b models) as [b1| | |] eqn:Er; try done. cbn [mbind outcome_bind].
    destruct (consider_list limit0 init models ms b b1) as [Hb1 Hl1]; [done..|].
    intros Hrun. eapply (IH (S k) s0 s1 (ms ++ models) b1); [done|by eapply drawn_models|done..].
  Qed.
End Loop.

Section Estimate.
  Context {Datum Model St : Type}.
  Context (log_ratio : Qc -> nat -> Qc -> Qc) (dbl_max : Qc).
  Context (p : params) (est : estimator Datum Model) (smp : sampler St) (q : quality).
  Context (data : list Datum) (cost : Model -> Qc) (ins : Model -> list Z).
  Hypothesis Hq : forall m, q (get_residuals est data m) [] = Ok (cost m, ins m).
  Hypothesis Hmm : (min_iterations p <= max_iterations p)%Z.

  Notation cmi := (compute_max_iterations log_ratio p est).
  Notation ratio m := (of_nat (length (ins m)) / of_nat (length data)).

  Lemma estimate_spec s init sum ok m sum' s' :
    ransac_estimate log_ratio dbl_max p est smp q s data init sum = Ok (ok, m, sum', s') ->
    (ok = false /\ sm_initialize smp s (Z.of_nat (length data)) = Ok (s', false) /\ m = init /\ inliers sum' = []) \/
    (ok = true /\ exists s0 n ms, sm_initialize smp s (Z.of_nat (length data)) = Ok (s0, true) /\
       drawn est smp data n s0 s' ms /\ num_iterations sum' = Z.of_nat n /\ is_best cost dbl_max init ms m /\
       inliers sum' = ins m /\ num_input_data_points sum' = Z.of_nat (length data) /\
       (min_iterations p <= Z.of_nat n <= Z.max 0 (max_iterations p))%Z /\
       ((Z.of_nat n < max_iterations p)%Z -> exists r k, cmi r = Ok k /\ (k <= Z.of_nat n)%Z /\
          (r = min_inlier_ratio p \/ exists h, h ∈ ms /\ (sample_size est <= length (ins h))%nat /\ r = ratio h)) /\
       confidence sum' = 1 - (1 - (ratio m) ^ sample_size est) ^ n).
  Proof.
    unfold ransac_estimate. destruct (bool_decide (0 < length data)%nat) eqn:Hd; [|done].
    apply bool_decide_eq_true in Hd. cbn [check mbind outcome_bind].
    destruct (sm_initialize smp s _) as [[s0 [|]]| | |] eqn:Ei; try done; cbn [mbind outcome_bind].
    2:{ intros [= <- <- <- <-]. left. done. }
    set (lim := if decide _ then _ else _). destruct lim as [limit| | |] eqn:El; try done. cbn [mbind outcome_bind].
    assert (Hlim : (min_iterations p <= limit <= max_iterations p)%Z /\
      ((limit < max_iterations p)%Z -> cmi (min_inlier_ratio p) = Ok limit)).
    { subst lim. destruct (decide _) as [Hpos|]; [|injection El as <-; lia].
      destruct (cmi (min_inlier_ratio p)) as [k| | |] eqn:Ek; try done. cbn [mbind outcome_bind] in El.
      injection El as <-. pose proof (cmi_bounds log_ratio p est Hmm _ _ Ek). split; [lia|].
      intros ?. f_equal. lia. }
    destruct Hlim as [Hlim Hlim'].
    destruct (ransac_loop _ _ _ _ _ _ _ _ _ _) as [[[n s1] b]| | |] eqn:Erun; try done. cbn [mbind outcome_bind].
    rewrite Hq. cbn [mbind outcome_bind]. intros [= <- <- <- <-]. right. split; [done|].
    change 0%Z with (Z.of_nat 0) in Erun.
    destruct (loop_spec log_ratio dbl_max p est smp q data cost ins Hq Hmm limit init (Z.to_nat limit) 0 s0 s0 []
      (Best init dbl_max limit) n s1 b) as (k & ms & -> & Hdr & Hk & Hb & Hl & Hend);
      [done|apply drawn_0|lia|apply best_of_nil|split; [cbn [b_limit]; lia|by left]|exact Erun|].
    exists s0, k, ms. cbn [num_iterations inliers num_input_data_points confidence]. rewrite Nat2Z.id.
    split_and!; try done; [apply Hb|destruct Hl as [? _]; lia|lia|].
    intros Hlt. destruct Hl as [Hlb [E|(h & Hh & Hs & Ek)]].
    - exists (min_inlier_ratio p), limit. split_and!; [apply Hlim'; lia|lia|by left].
    - exists (ratio h), (b_limit b). split_and!; [done|lia|right; eauto].
  Qed.

  (** *** Every run ends *)
  Hypothesis Hs1 : (1 <= sample_size est)%nat.

  Lemma cmi_total r : 0 < r -> exists k, cmi r = Ok k.
  Proof.
    intros Hr. unfold compute_max_iterations. rewrite bool_decide_eq_true_2 by done. cbn [check mbind outcome_bind].
    destruct (decide _); eauto.
  Qed.

  Lemma consider_total b m : (0 < length data)%nat ->
    exists b', consider log_ratio p est q data b m = Ok b' /\ (b_limit b' <= b_limit b)%Z.
  Proof.
    intros Hd. unfold consider. rewrite Hq. cbn [mbind outcome_bind].
    destruct (decide (cost m < _)); [|eexists; done].
    destruct (decide (ratio m < _)) as [|Hge]; [eexists; done|].
    destruct (cmi_total (ratio m)) as [k Ek].
    { apply ratio_pos; [done|]. rewrite ratio_lt in Hge by done. lia. }
    rewrite Ek. cbn [mbind outcome_bind]. eexists. split; [done|]. simpl. lia.
  Qed.

  Lemma consider_list_total l : forall b, (0 < length data)%nat ->
    exists b', run_steps (consider log_ratio p est q data) b l = Ok b' /\ (b_limit b' <= b_limit b)%Z.
  Proof.
    induction l as [|m l IH]; intros b Hd; [by exists b|]. cbn [run_steps].
    destruct (consider_total b m Hd) as (b1 & -> & H1). cbn [mbind outcome_bind].
    destruct (IH b1 Hd) as (b2 & -> & H2). exists b2. split; [done|lia].
  Qed.

  Lemma subset_total indices : (forall i, i ∈ indices -> (0 <= i < Z.of_nat (length data))%Z) ->
    exists sub, subset_data data indices = Ok sub.
  Proof.
    unfold subset_data. induction indices as [|i indices IH]; intros Hi; [by eexists|].
    cbn [mapM]. assert (Hi0 : (0 <= i < Z.of_nat (length data))%Z) by (apply Hi; by left).
    rewrite decide_True by lia. destruct (lookup_lt_is_Some_2 data (Z.to_nat i)) as [d ->]; [lia|].
    cbn [or_ub mbind outcome_bind]. destruct IH as [sub ->]; [|by eexists].
    intros j Hj. apply Hi. by right.
  Qed.

  Lemma loop_total (Inv : St -> Prop) : (0 < length data)%nat ->
    (forall s1, Inv s1 -> exists s2 sampled, sm_sample smp s1 = Ok (s2, sampled) /\ Inv s2 /\
      forall indices i, sampled = Some indices -> i ∈ indices -> (0 <= i < Z.of_nat (length data))%Z) ->
    forall fuel n s b, Inv s -> (b_limit b - n <= Z.of_nat fuel)%Z ->
    exists r, ransac_loop log_ratio p est smp q fuel data n s b = Ok r.
  Proof.
    intros Hd Hsmp. induction fuel as [|fuel IH]; intros n s b Hs Hf; cbn [ransac_loop].
    { rewrite decide_False by lia. by eexists. }
    destruct (decide _) as [Hlt|]; [|by eexists].
    destruct (Hsmp s Hs) as (s2 & sampled & -> & Hs2 & Hi). cbn [mbind outcome_bind].
    destruct sampled as [indices|]; [|apply IH; [done|lia]].
    destruct (subset_total indices) as [sub ->]; [intros i Hin; by eapply Hi|]. cbn [mbind outcome_bind].
    destruct (estimate_model est sub) as [models|]; [|apply IH; [done|lia]].
    destruct (consider_list_total models b Hd) as (b' & -> & Hb'). cbn [mbind outcome_bind]. apply IH; [done|lia].
  Qed.

  Lemma estimate_total s init sum : (0 < length data)%nat -> sound_sampler smp (length data) s ->
    exists m sum' s', ransac_estimate log_ratio dbl_max p est smp q s data init sum = Ok (true, m, sum', s').
  Proof.
    intros Hd (Inv & s0 & Hi & H0 & Hsmp). unfold ransac_estimate. rewrite bool_decide_eq_true_2 by done.
    cbn [check mbind outcome_bind]. rewrite Hi. cbn [mbind outcome_bind].
    set (lim := if decide (0 < _) then _ else _).
    assert (Hlim : exists limit, lim = Ok limit).
    { subst lim. destruct (decide _) as [Hpos|]; [|by eexists].
      destruct (cmi_total _ Hpos) as [k ->]. by eexists. }
    destruct Hlim as [limit ->]. cbn [mbind outcome_bind].
    destruct (loop_total Inv Hd Hsmp (Z.to_nat limit) 0%Z s0 (Best init dbl_max limit)) as [[[n s1] b] ->];
      [done|simpl; lia|].
    cbn [mbind outcome_bind]. rewrite Hq. cbn [mbind outcome_bind]. eauto.
  Qed.
End Estimate.

(** ** The quality measurements *)
Lemma default_quality_spec p residuals : (Z.of_nat (length residuals) < 2 ^ 64)%Z ->
  exists ins, default_quality p residuals [] = Ok (model_cost p residuals, ins) /\
    is_inliers (error_thresh p) residuals ins.
Proof.
  intros Hl. unfold default_quality, model_cost. destruct (use_mle p).
  - destruct (mle_lemma (error_thresh p) residuals) as (ins & -> & Hin). eauto.
  - destruct (inlier_support_lemma (error_thresh p) residuals Hl) as (ins & -> & Hin). eauto.
Qed.

Lemma check_params_ok p : check_params p = Ok tt <->
  0 < error_thresh p /\ (0 <= min_inlier_ratio p /\ min_inlier_ratio p <= 1) /\
  (0 < failure_probability p /\ failure_probability p < 1) /\ (min_iterations p <= max_iterations p)%Z.
Proof.
  unfold check_params.
  split.
  - destruct (bool_decide (0 < error_thresh p)) eqn:?; [|done].
    destruct (bool_decide (min_inlier_ratio p <= 1)) eqn:?; [|done].
    destruct (bool_decide (0 <= min_inlier_ratio p)) eqn:?; [|done].
    destruct (bool_decide (failure_probability p < 1)) eqn:?; [|done].
    destruct (bool_decide (0 < failure_probability p)) eqn:?; [|done].
    destruct (bool_decide (min_iterations p <= max_iterations p)%Z) eqn:?; [|done]. intros _.
    repeat match goal with H : bool_decide _ = true |- _ => apply bool_decide_eq_true in H end. done.
  - intros (? & [? ?] & [? ?] & ?). by rewrite !bool_decide_eq_true_2 by done.
Qed.

Lemma is_inliers_unique thresh residuals i1 i2 : is_inliers thresh residuals i1 -> is_inliers thresh residuals i2 -> i1 = i2.
Proof.
  intros [S1 H1] [S2 H2]. assert (Hlt : forall l, StronglySorted Z.lt l -> StronglySorted Z.le l /\ NoDup l).
  { induction 1 as [|a l Hs [IH1 IH2] Hall]; [split; constructor|]. split; constructor; try done.
    - apply list.Forall_forall. rewrite list.Forall_forall in Hall. intros y Hy. specialize (Hall y Hy). lia.
    - intros Hin. rewrite list.Forall_forall in Hall. specialize (Hall _ Hin). lia. }
  destruct (Hlt _ S1) as [L1 N1], (Hlt _ S2) as [L2 N2].
  apply (StronglySorted_unique Z.le); [done|done|]. apply NoDup_Permutation; [done|done|].
  intros i. by rewrite H1, H2.
Qed.

(** ** The samplers of the library *)
Lemma random_sampler_sound m n (s : list Z * stream) : (0 <= m <= Z.of_nat n)%Z -> sound_sampler (random_sampler m) n s.
Proof.
  intros Hm. exists (fun s => s.1 ≡ₚ seqZ 0 (Z.of_nat n)), (seqZ 0 (Z.of_nat n), s.2). split_and!.
  - cbn. unfold rs_initialize. rewrite bool_decide_eq_true_2 by lia. done.
  - done.
  - intros [indices r] Hi. cbn [fst snd] in Hi.
    destruct (random_sampler_lemma m (Z.of_nat n) indices r [] Hm Hi) as (xs & ind' & E & Hg & Hp).
    cbn. rewrite E. cbn [mbind outcome_bind]. eexists _, _. split_and!; [done|done|].
    intros ? i [= <-]. apply Hg.
Qed.

(** The exhaustive sampler is sound after any calls of Initialize with numbers that do not get smaller. *)
Lemma exhaustive_sampler_sound n s : (2 <= n)%nat -> (0 <= es_i s < es_j s)%Z -> (es_j s < Z.of_nat n)%Z ->
  sound_sampler exhaustive_sampler n s.
Proof.
  intros Hn Hi Hj. exists (fun s => es_valid s /\ es_n s = Z.of_nat n), (ES (Z.of_nat n) (es_i s) (es_j s)). split_and!.
  - cbn. unfold es_initialize. rewrite bool_decide_eq_true_2 by lia. done.
  - unfold es_valid. cbn. lia.
  - done.
  - intros s1 [Hv Hn1]. destruct (es_step_pos s1 Hv) as (Hv' & Hn' & _). cbn.
    pose proof (es_nth_eq 0 s1) as E. unfold es_nth in E. cbn [es_after] in E.
    destruct (es_sample s1 []) as [s2 sub] eqn:Es. cbn [fst snd] in *. subst sub.
    exists s2. eexists. split_and!; [done|done|congruence|].
    intros ? i [= <-]. rewrite !elem_of_cons, elem_of_nil. destruct Hv as (? & ? & ?). lia.
Qed.

(** ** The confidence is a probability *)
Lemma Qcpower_unit x n : 0 <= x -> x <= 1 -> 0 <= x ^ n /\ x ^ n <= 1.
Proof.
  intros H0 H1. induction n as [|n [IH0 IH1]]; cbn [Qcpower]; [split; [by vm_compute|apply Qcle_refl]|]. split.
  - replace 0 with (0 * x ^ n) by ring. by apply Qcmult_le_compat_r.
  - apply Qcle_trans with (1 * x ^ n); [by apply Qcmult_le_compat_r|]. by rewrite Qcmult_1_l.
Qed.

Lemma Qcsub_unit x : 0 <= x -> x <= 1 -> 0 <= 1 - x /\ 1 - x <= 1.
Proof.
  intros H0 H1. split.
  - replace 0 with (x - x) by ring. by apply Qcplus_le_compat; [|apply Qcle_refl].
  - replace 1 with (1 - 0) at 2 by ring. apply Qcplus_le_compat; [apply Qcle_refl|]. by apply Qcopp_le_compat.
Qed.

Lemma ratio_unit a n : (0 < n)%nat -> (a <= n)%nat -> 0 <= of_nat a / of_nat n /\ of_nat a / of_nat n <= 1.
Proof.
  intros Hn Ha. assert (E0 : 0 = of_nat 0 / of_nat n).
  { unfold of_nat. change (Z.of_nat 0) with 0%Z. rewrite of_Z_0. unfold Qcdiv. ring. }
  assert (E1 : 1 = of_nat n / of_nat n).
  { unfold Qcdiv. rewrite Qcmult_inv_r; [done|]. intros E. assert (H : of_Z 0 < of_nat n) by (apply of_Z_lt; lia).
    rewrite E, of_Z_0 in H. by apply Qclt_not_eq in H. }
  split.
  - rewrite E0. apply Qcnot_lt. rewrite ratio_lt by done. lia.
  - rewrite E1. apply Qcnot_lt. rewrite ratio_lt by done. lia.
Qed.

Lemma confidence_unit a n s k : (0 < n)%nat -> (a <= n)%nat ->
  0 <= 1 - (1 - (of_nat a / of_nat n) ^ s) ^ k /\ 1 - (1 - (of_nat a / of_nat n) ^ s) ^ k <= 1.
Proof.
  intros Hn Ha. destruct (ratio_unit a n Hn Ha) as [H0 H1]. destruct (Qcpower_unit _ s H0 H1) as [H2 H3].
  destruct (Qcsub_unit _ H2 H3) as [H4 H5]. destruct (Qcpower_unit _ k H4 H5) as [H6 H7]. by apply Qcsub_unit.
Qed.

(** ** The two estimators of the library *)
Definition default_ins (p : params) (residuals : list Qc) : list Z :=
  match default_quality p residuals [] with Ok (_, ins) => ins | _ => [] end.

Lemma default_ins_spec p residuals : (Z.of_nat (length residuals) < 2 ^ 64)%Z ->
  default_quality p residuals [] = Ok (model_cost p residuals, default_ins p residuals) /\
  is_inliers (error_thresh p) residuals (default_ins p residuals).
Proof.
  intros Hl. destruct (default_quality_spec p residuals Hl) as (ins & E & Hi). unfold default_ins. by rewrite E.
Qed.

Lemma ransac_lemma {Datum Model St} log_ratio dbl_max p (est : estimator Datum Model) (smp : sampler St) s data init sum
    ok m sum' s' :
  (forall h, (Z.of_nat (length (get_residuals est data h)) < 2 ^ 64)%Z) ->
  ransac log_ratio dbl_max p est smp s data init sum = Ok (ok, m, sum', s') ->
  (ok = false /\ sm_initialize smp s (Z.of_nat (length data)) = Ok (s', false) /\ m = init /\ inliers sum' = []) \/
  (ok = true /\ exists s0 n ms, sm_initialize smp s (Z.of_nat (length data)) = Ok (s0, true) /\
     drawn est smp data n s0 s' ms /\ num_iterations sum' = Z.of_nat n /\
     is_best (fun h => model_cost p (get_residuals est data h)) dbl_max init ms m /\
     is_inliers (error_thresh p) (get_residuals est data m) (inliers sum') /\
     num_input_data_points sum' = Z.of_nat (length data) /\
     (min_iterations p <= Z.of_nat n <= Z.max 0 (max_iterations p))%Z /\
     ((Z.of_nat n < max_iterations p)%Z ->
        exists r k, compute_max_iterations log_ratio p est r = Ok k /\ (k <= Z.of_nat n)%Z /\
          (r = min_inlier_ratio p \/ exists h ins, h ∈ ms /\
             is_inliers (error_thresh p) (get_residuals est data h) ins /\ (sample_size est <= length ins)%nat /\
             r = of_nat (length ins) / of_nat (length data))) /\
     confidence sum' = 1 - (1 - (of_nat (length (inliers sum')) / of_nat (length data)) ^ sample_size est) ^ n).
Proof.
  intros Hlen. unfold ransac. destruct (check_params p) as [[]| | |] eqn:Hp; try done. cbn [mbind outcome_bind].
  apply check_params_ok in Hp as (_ & _ & _ & Hmm). intros Hrun.
  destruct (estimate_spec log_ratio dbl_max p est smp (default_quality p) data
    (fun h => model_cost p (get_residuals est data h)) (fun h => default_ins p (get_residuals est data h))
    (fun h => proj1 (default_ins_spec p _ (Hlen h))) Hmm s init sum ok m sum' s' Hrun)
    as [?|(-> & s0 & n & ms & H1 & H2 & H3 & H4 & H5 & H6 & H7 & H8 & H9)]; [by left|right].
  split; [done|]. exists s0, n, ms. split_and!; try done; try lia.
  - rewrite H5. apply default_ins_spec, Hlen.
  - intros Hlt. destruct (H8 Hlt) as (r & k & Hk & Hle & [Hr|(h & Hh & Hs & Hr)]); exists r, k; split_and!; try done.
    + by left.
    + right. exists h, (default_ins p (get_residuals est data h)). split_and!; try done.
      apply default_ins_spec, Hlen.
  - by rewrite H9, H5.
Qed.

Lemma ransac_total_lemma {Datum Model St} log_ratio dbl_max p (est : estimator Datum Model) (smp : sampler St) s data
    init sum :
  (forall h, (Z.of_nat (length (get_residuals est data h)) < 2 ^ 64)%Z) -> check_params p = Ok tt ->
  (1 <= sample_size est)%nat -> (0 < length data)%nat -> sound_sampler smp (length data) s ->
  exists m sum' s', ransac log_ratio dbl_max p est smp s data init sum = Ok (true, m, sum', s').
Proof.
  intros Hlen Hp Hs Hd Hsmp. unfold ransac. rewrite Hp. cbn [mbind outcome_bind].
  apply check_params_ok in Hp as (_ & _ & _ & Hmm).
  exact (estimate_total log_ratio dbl_max p est smp (default_quality p) data
    (fun h => model_cost p (get_residuals est data h)) (fun h => default_ins p (get_residuals est data h))
    (fun h => proj1 (default_ins_spec p _ (Hlen h))) Hs s init sum Hd Hsmp).
Qed.

(** The least-median cost of at least two residuals. *)
Definition lmed_parts (ne : nth_element) (k : nat) (residuals : list Qc) : Qc * list Z :=
  match lmed_cost ne (Z.of_nat k) residuals [] with Ok r => r | _ => (0, []) end.

Lemma lmed_parts_spec ne k residuals : (2 <= length residuals)%nat ->
  lmed_quality ne k residuals [] = Ok ((lmed_parts ne k residuals).1, (lmed_parts ne k residuals).2) /\
  lmed_median ne residuals = Ok (lmed_parts ne k residuals).1.
Proof.
  intros Hl. unfold lmed_quality, lmed_parts, lmed_cost.
  set (s := merge_sort Qcle ((fun r => r * r) <$> residuals)).
  assert (Hs : sorted_squares residuals s).
  { split; [apply merge_sort_Permutation|apply (StronglySorted_merge_sort Qcle)]. }
  destruct (lmed_value ne residuals s Hs Hl) as (x & y & _ & _ & _ & ->). cbn [mbind outcome_bind]. done.
Qed.

Lemma lmed_lemma {Datum Model St} log_ratio dbl_max ne p (est : estimator Datum Model) (smp : sampler St) s data init sum
    ok m sum' s' (cost : Model -> Qc) :
  (forall h, (2 <= length (get_residuals est data h))%nat) ->
  (forall h, lmed_median ne (get_residuals est data h) = Ok (cost h)) ->
  lmed log_ratio dbl_max ne p est smp s data init sum = Ok (ok, m, sum', s') ->
  (ok = false /\ sm_initialize smp s (Z.of_nat (length data)) = Ok (s', false) /\ m = init /\ inliers sum' = []) \/
  (ok = true /\ exists s0 n ms, sm_initialize smp s (Z.of_nat (length data)) = Ok (s0, true) /\
     drawn est smp data n s0 s' ms /\ num_iterations sum' = Z.of_nat n /\ is_best cost dbl_max init ms m /\
     inliers sum' = lmed_inliers (cost m) (Z.of_nat (sample_size est)) (get_residuals est data m) [] /\
     (min_iterations p <= Z.of_nat n <= Z.max 0 (max_iterations p))%Z).
Proof.
  intros Hlen Hc. unfold lmed. destruct (check_params p) as [[]| | |] eqn:Hp; try done. cbn [mbind outcome_bind].
  apply check_params_ok in Hp as (_ & _ & _ & Hmm). intros Hrun.
  assert (Hq : forall h, lmed_quality ne (sample_size est) (get_residuals est data h) [] =
    Ok (cost h, lmed_inliers (cost h) (Z.of_nat (sample_size est)) (get_residuals est data h) [])).
  { intros h. unfold lmed_quality, lmed_cost. by rewrite Hc. }
  destruct (estimate_spec log_ratio dbl_max p est smp _ data cost _ Hq Hmm s init sum ok m sum' s' Hrun)
    as [?|(-> & s0 & n & ms & H1 & H2 & H3 & H4 & H5 & H6 & H7 & H8 & H9)]; [by left|right].
  split; [done|]. exists s0, n, ms. split_and!; try done; lia.
Qed.

Lemma lmed_total_lemma {Datum Model St} log_ratio dbl_max ne p (est : estimator Datum Model) (smp : sampler St) s data
    init sum :
  (forall h, (2 <= length (get_residuals est data h))%nat) -> check_params p = Ok tt ->
  (1 <= sample_size est)%nat -> (0 < length data)%nat -> sound_sampler smp (length data) s ->
  exists m sum' s', lmed log_ratio dbl_max ne p est smp s data init sum = Ok (true, m, sum', s').
Proof.
  intros Hlen Hp Hs Hd Hsmp. unfold lmed. rewrite Hp. cbn [mbind outcome_bind].
  apply check_params_ok in Hp as (_ & _ & _ & Hmm).
  exact (estimate_total log_ratio dbl_max p est smp (lmed_quality ne (sample_size est)) data
    (fun h => (lmed_parts ne (sample_size est) (get_residuals est data h)).1)
    (fun h => (lmed_parts ne (sample_size est) (get_residuals est data h)).2)
    (fun h => proj1 (lmed_parts_spec ne (sample_size est) _ (Hlen h))) Hs s init sum Hd Hsmp).
Qed.
