(** Proofs about bundle adjustment: what changes, the cost, when the call aborts. *)
From stdpp Require Import gmap.
From Coq Require Import Reals Lra.
From Verif Require Import Base Reconstruction_Model SfmQueries_Spec BundleAdjust_Model BundleAdjust_Spec BundleAdjust_Proofs
  BundleAdjust_Setup.

Lemma sum_of_ext {A} (f g : A -> R) (l : list A) : (forall x, x ∈ l -> f x = g x) -> sum_of f l = sum_of g l.
Proof.
  induction l as [|x l IH]; intros H; cbn; [done|]. rewrite (H x) by by left. f_equal. apply IH. intros y Hy. apply H. by right.
Qed.
Lemma sum_of_fmap {A B} (f : B -> R) (g : A -> B) (l : list A) : sum_of f (g <$> l) = sum_of (fun x => f (g x)) l.
Proof. induction l as [|x l IH]; cbn; [done|]. unfold sum_of in IH. by rewrite IH. Qed.

Section result.
Context {F : Type}.
Notation recon := (recon F (list R) (list R)).
Notation residual := (residual (F:=F)).
Notation adjuster := (adjuster (F:=F)).
Implicit Types (a : adjuster) (rs : residual).
Context (os : nat -> N -> order N) (r : recon) (h : gmap N intrinsics) (opts : ba_options).
Hypothesis (Hcons : consistent r) (Halloc : allocated r h) (Hgrp : grouped r).

Notation mask := (intrinsics_to_optimize opts).
Notation cpos := (constant_position opts).
Notation cori := (constant_orientation opts).

(** The residuals are the observations that take part. *)
Lemma residual_of_observation (u t : N) : sees r u t -> est_view r u -> est_track r t ->
  exists rs, good_residual r h rs /\ rs_view rs = u /\ rs_track rs = t /\ uses r u (rs_intr rs).
Proof.
  intros (v & Hv & f & Hf) (v' & Hv' & He) (T & HT & HeT). assert (v' = v) as -> by congruence.
  destruct (Halloc u v Hv) as [i Hi]. exists (Residual (i_type i) f u (v_intr v) t). cbn.
  split; [exists v, T, i; cbn; tauto|]. split; [done|]. split; [done|]. by exists v.
Qed.
Lemma observation_of_residual rs : good_residual r h rs ->
  sees r (rs_view rs) (rs_track rs) /\ est_view r (rs_view rs) /\ est_track r (rs_track rs) /\ uses r (rs_view rs) (rs_intr rs).
Proof.
  intros (v & T & i & Hv & He & HT & HeT & Hf & Hp & Hi & Hty). split; [exists v; eauto|]. split; [by exists v|].
  split; [by exists T|]. by exists v.
Qed.

(** The whole preparation. *)
Definition prepare (vs ts : list N) : outcome (adjuster * adjuster) :=
  a1 ← run_steps (add_view os r h) ba_new vs;
  a2 ← run_steps (add_track os r h) a1 ts;
  a3 ← setup os r h opts a2;
  Ok (a2, a3).

Lemma prepare_spec (vs ts : list N) :
  (adjustable opts vs ts r h -> exists V a a', prepare vs ts = Ok (a, a') /\
     (forall u, u ∈ V <-> u ∈ vs /\ est_view r u) /\ (forall t, t ∈ ba_tracks a <-> t ∈ ts /\ est_track r t) /\
     inv r h (fun u t => u ∈ V \/ t ∈ ba_tracks a) (fun _ => False) a /\ ready r h opts V a a' /\
     (forall u, u ∈ V -> is_Some (ba_blocks a !! BExtrinsics u) <-> exists t, est_track r t /\ sees r u t) /\
     (forall p, is_Some (ba_blocks a !! BIntrinsics p) <-> exists w t, uses r w p /\ adjusted r vs ts w t)) /\
  (~ adjustable opts vs ts r h -> prepare vs ts = CheckFail).
Proof.
  destruct (add_views_spec os r h Hcons Halloc vs ∅ ba_new (views_state_new r h Hcons Halloc)) as [A B].
  destruct (Classical_Prop.classic (forall u, u ∈ vs -> is_Some (rc_views r !! u))) as [H1|H1].
  2:{ split; [intros [H _]; tauto|]. intros _. unfold prepare. by rewrite (B H1). }
  destruct (A H1) as (a1 & E1 & (Ht1 & Hv1 & I1)). clear A B. unfold prepare. rewrite E1. cbn [mbind outcome_bind].
  set (V := ba_views a1) in *.
  assert (HV : forall u, u ∈ V <-> u ∈ vs /\ est_view r u).
  { intros u. rewrite Hv1. rewrite elem_of_union, elem_of_list_to_set. set_solver. }
  assert (S1 : tracks_state r h V ∅ a1).
  { split; [done|]. rewrite Ht1. split; [set_solver|]. split; [set_solver|]. eapply inv_ext; [| |exact I1]; [|done].
    intros rs _. cbn. set_solver. }
  destruct (add_tracks_spec os r h Hcons Halloc V ts ∅ a1 S1) as [A B].
  destruct (Classical_Prop.classic (forall t, t ∈ ts -> is_Some (rc_tracks r !! t) /\ anchored r t)) as [H2|H2].
  2:{ split.
      - intros (_ & H3 & H4 & _). exfalso. apply H2. intros t Ht. split; [by apply H3|]. intros He. by apply H4.
      - intros _. by rewrite (B H2). }
  destruct (A H2) as (a2 & E2 & S2). clear A B. rewrite E2. cbn [mbind outcome_bind].
  assert (HVv : forall u, u ∈ V -> is_Some (rc_views r !! u)). { intros u Hu. apply H1. apply HV in Hu. tauto. }
  destruct (setup_spec os r h opts Hcons Halloc Hgrp V _ a2 HVv S2) as [A B].
  destruct S2 as (HV2 & Hts2 & _ & I2).
  assert (Hts : forall t, t ∈ ba_tracks a2 <-> t ∈ ts /\ est_track r t).
  { intros t. rewrite Hts2, elem_of_union, elem_of_list_to_set. set_solver. }
  (* blocks in terms of observations *)
  assert (Hbe : forall u, u ∈ V -> is_Some (ba_blocks a2 !! BExtrinsics u) <-> exists t, est_track r t /\ sees r u t).
  { intros u Hu. rewrite (i_dom _ _ _ _ _ I2). split.
    - intros (rs & Hrs & Hb). apply elem_of_blocks_of in Hb. destruct Hb as [[= ->]|[[=]|[=]]].
      apply (i_res _ _ _ _ _ I2) in Hrs. destruct Hrs as [Hg _]. apply observation_of_residual in Hg. exists (rs_track rs). tauto.
    - intros (t & Ht & Hs). destruct (residual_of_observation u t) as (rs & Hg & Eu & Et & _); [done|apply HV in Hu; tauto|done|].
      exists rs. split; [|apply elem_of_blocks_of; rewrite Eu; tauto]. apply (i_res _ _ _ _ _ I2). rewrite Eu. tauto. }
  assert (Hbi : forall p, is_Some (ba_blocks a2 !! BIntrinsics p) <-> exists w t, uses r w p /\ adjusted r vs ts w t).
  { intros p. rewrite (i_dom _ _ _ _ _ I2). split.
    - intros (rs & Hrs & Hb). apply elem_of_blocks_of in Hb. destruct Hb as [[=]|[[= ->]|[=]]].
      apply (i_res _ _ _ _ _ I2) in Hrs. destruct Hrs as [Hg Hsel]. apply observation_of_residual in Hg.
      exists (rs_view rs), (rs_track rs). split; [tauto|]. unfold adjusted. rewrite HV, Hts in Hsel. tauto.
    - intros (w & t & Hu & Hs & Hw & Ht & Hsel).
      destruct (residual_of_observation w t) as (rs & Hg & Ew & Et & Hp); [done..|].
      exists rs. split.
      + apply (i_res _ _ _ _ _ I2). rewrite Ew, Et, HV, Hts. tauto.
      + apply elem_of_blocks_of. right; left. f_equal. destruct Hu as (v & Hv & <-). destruct Hp as (v' & Hv' & <-). congruence. }
  assert (Hiff : adjustable opts vs ts r h <-> ext_present opts V a2 /\ int_present r h opts V a2).
  { unfold adjustable, ext_present, int_present. split.
    - intros (_ & _ & _ & He & Hi). split.
      + intros Ho u Hu. apply Hbe; [done|]. apply HV in Hu. apply He; tauto.
      + intros u p i Hu Hup Hhi Hl. apply Hbi. apply HV in Hu.
        destruct (l_of opts i) as [|j l] eqn:El; [done|].
        apply (Hi u p i j); try tauto. apply constant_intrinsics_spec. unfold l_of in El. rewrite El. by left.
    - intros [He Hi]. split; [done|]. split; [intros t Ht; by apply H2|]. split; [intros t Ht; by apply H2|]. split.
      + intros Ho u Hu Hes. apply Hbe; [by apply HV|]. apply He; [done|]. by apply HV.
      + intros u p i j Hu Hes Hup Hhi Hk. apply Hbi. apply (Hi u p i); [by apply HV|done|done|].
        intros El. apply constant_intrinsics_spec in Hk. unfold l_of in El. rewrite El in Hk. by apply elem_of_nil in Hk. }
  rewrite <- Hiff in A, B. split.
  - intros Had. destruct (A Had) as (a3 & E3 & Y). exists V, a2, a3. rewrite E3. split; [done|]. split; [done|]. split; [done|]. split; [done|]. split; [done|]. split; [done|]. done.
  - intros Had. by rewrite (B Had).
Qed.

Context (err : model_type -> F -> list R -> list R -> list R -> R).
Context (solve : list residual -> gmap block flags -> (block -> list R) -> solution).
Hypothesis Hsolve : ceres_contract err solve.

Lemma partial_prepare (vs ts : list N) :
  bundle_adjust_partial os r h opts solve vs ts =
    '(_, a) ← prepare vs ts;
    let s := solve (ba_residuals a) (ba_blocks a) (values r h) in
    Ok (set_tracks (set_views r (write_views r h a s)) (write_tracks r h a s), write_heap r h a s,
        Summary (sol_usable s) (sol_initial s) (sol_final s)).
Proof.
  unfold bundle_adjust_partial, prepare, optimize.
  destruct (run_steps (add_view os r h) ba_new vs) as [a1| | |]; [|done..]. cbn [mbind outcome_bind].
  destruct (run_steps (add_track os r h) a1 ts) as [a2| | |]; [|done..]. cbn [mbind outcome_bind].
  by destruct (setup os r h opts a2).
Qed.

Theorem partial_abort (vs ts : list N) : ~ adjustable opts vs ts r h -> bundle_adjust_partial os r h opts solve vs ts = CheckFail.
Proof. intros H. rewrite partial_prepare. destruct (prepare_spec vs ts) as [_ B]. by rewrite (B H). Qed.

Theorem partial_ok (vs ts : list N) : adjustable opts vs ts r h ->
  exists r' h' sm, bundle_adjust_partial os r h opts solve vs ts = Ok (r', h', sm) /\
    frame opts vs ts r h r' h' /\
    (sm_success sm = false -> r' = r /\ h' = h) /\
    exists l, NoDup l /\ (forall u t, (u, t) ∈ l <-> adjusted r vs ts u t) /\
      (sm_success sm = true -> sm_initial sm = sum_of (observation_error err r h) l /\
        sm_final sm = sum_of (observation_error err r' h') l /\ (sm_final sm <= sm_initial sm)%R).
Proof.
  intros Had. rewrite partial_prepare. destruct (prepare_spec vs ts) as [A _].
  destruct (A Had) as (V & a0 & a & E & HV & Hts & I & Y & Hbe & Hbi). rewrite E. cbn [mbind outcome_bind]. clear A E.
  set (s := solve (ba_residuals a) (ba_blocks a) (values r h)).
  destruct Y as [Yr Yd Y1 Y2 Y3 Y4 Y5 Y6 Y7 _ _ _ _ _ _].
  assert (Hpre : forall rs b, rs ∈ ba_residuals a -> b ∈ blocks_of rs -> is_Some (ba_blocks a !! b)).
  { intros rs b Hrs Hb. apply Yd, (i_dom _ _ _ _ _ I). rewrite Yr in Hrs. eauto. }
  destruct (Hsolve (ba_residuals a) (ba_blocks a) (values r h) Hpre) as (Sb & Su & Sc). fold s in Sb, Su, Sc.
  set (r' := set_tracks (set_views r (write_views r h a s)) (write_tracks r h a s)).
  set (h' := write_heap r h a s).
  (* the new values *)
  assert (Hlen : forall b, length (new_value r h a s b) = length (values r h b)).
  { intros b. unfold new_value. destruct (ba_blocks a !! b) as [k|] eqn:Ek; [|done]. apply (Sb b k Ek). }
  assert (Hsame : forall b, (forall k, ba_blocks a !! b = Some k -> f_constant k = true) -> new_value r h a s b = values r h b).
  { intros b Hb. unfold new_value. destruct (ba_blocks a !! b) as [k|] eqn:Ek; [|done]. apply (Sb b k Ek). by apply Hb. }
  assert (Hcoord : forall b c i, (forall k, ba_blocks a !! b = Some k -> f_subset k = Some c) -> i ∈ c ->
    new_value r h a s b !! i = values r h b !! i).
  { intros b c i Hb Hi. unfold new_value. destruct (ba_blocks a !! b) as [k|] eqn:Ek; [|done].
    destruct (Sb b k Ek) as (_ & _ & H). apply (H c i); [by apply Hb|done]. }
  assert (Hv' : forall u, rc_views r' !! u =
     (fun v => View (v_name v) (v_est v) (v_intr v) (new_value r h a s (BExtrinsics u)) (v_feats v)) <$> rc_views r !! u).
  { intros u. unfold r', write_views. cbn [rc_views set_tracks set_views]. rewrite map_lookup_imap. by destruct (rc_views r !! u). }
  assert (Ht' : forall t, rc_tracks r' !! t =
     (fun T => Track (t_est T) (new_value r h a s (BPoint t)) (t_views T)) <$> rc_tracks r !! t).
  { intros t. unfold r', write_tracks. cbn [rc_tracks set_tracks set_views]. rewrite map_lookup_imap. by destruct (rc_tracks r !! t). }
  assert (Hh' : forall p, h' !! p = (fun i => Intrinsics (i_type i) (new_value r h a s (BIntrinsics p))) <$> h !! p).
  { intros p. unfold h', write_heap. rewrite map_lookup_imap. by destruct (h !! p). }
  exists r', h', (Summary (sol_usable s) (sol_initial s) (sol_final s)). split; [done|]. split; [|split].
  - split; [done|]. split; [|split].
    + intros u. rewrite Hv'. destruct (rc_views r !! u) as [v|] eqn:Ev; cbn [fmap option_fmap option_map]; [|constructor].
      constructor. unfold view_frame. cbn [v_name v_est v_intr v_data v_feats].
      assert (Hval : values r h (BExtrinsics u) = v_data v) by (cbn; by rewrite Ev).
      split; [done|]. split; [done|]. split; [done|]. split; [done|]. split; [by rewrite Hlen, Hval|].
      assert (Hout : u ∉ V -> new_value r h a s (BExtrinsics u) = v_data v).
      { intros Hu. rewrite <- Hval. apply Hsame. intros k Hk. by apply (Y1 u k). }
      assert (Hall : cpos = true -> cori = true -> new_value r h a s (BExtrinsics u) = v_data v).
      { intros Hp Ho. rewrite <- Hval. apply Hsame. intros k Hk. by apply (Y2 u k). }
      split; [|split; [|split]].
      * intros Hu. destruct (decide (u ∈ V)) as [Hin|Hin]; [|by apply Hout].
        destruct Hu as [Hu|[Hu|Hu]].
        -- apply HV in Hin. tauto.
        -- apply HV in Hin. destruct Hin as [_ (v' & Hv2 & Hu2)]. congruence.
        -- rewrite <- Hval. unfold new_value. destruct (ba_blocks a !! BExtrinsics u) as [k|] eqn:Ek; [|done].
           exfalso. destruct (Hbe u Hin) as [H _]. destruct H as (t & Ht1 & Ht2); [apply Yd; eauto|]. by apply (Hu t).
      * intros Hp i Hi. destruct cori eqn:Ho; [by rewrite Hall|].
        destruct (decide (u ∈ V)) as [Hu|Hu]; [|by rewrite Hout]. rewrite <- Hval. apply (Hcoord _ [0; 1; 2]).
        -- intros k Hk. by apply (Y4 u k).
        -- rewrite !elem_of_cons. lia.
      * intros Ho i Hi. destruct cpos eqn:Hp; [by rewrite Hall|].
        destruct (decide (u ∈ V)) as [Hu|Hu]; [|by rewrite Hout]. rewrite <- Hval. apply (Hcoord _ [3; 4; 5]).
        -- intros k Hk. by apply (Y3 u k).
        -- rewrite !elem_of_cons. lia.
      * done.
    + intros t. rewrite Ht'. destruct (rc_tracks r !! t) as [T|] eqn:ET; cbn [fmap option_fmap option_map]; [|constructor].
      constructor. unfold track_frame. cbn [t_est t_views t_data].
      assert (Hval : values r h (BPoint t) = t_data T) by (cbn; by rewrite ET).
      split; [done|]. split; [done|]. split; [by rewrite Hlen, Hval|]. intros Ht. rewrite <- Hval. apply Hsame.
      intros k Hk. apply (Y5 t k); [|done]. rewrite Hts. intros [Ht1 (T' & HT' & Ht2)]. assert (T' = T) as -> by congruence.
      destruct Ht; [done|congruence].
    + intros p. rewrite Hh'. destruct (h !! p) as [i|] eqn:Ei; cbn [fmap option_fmap option_map]; [|constructor].
      constructor. unfold intrinsics_frame. cbn [i_type i_params].
      assert (Hval : values r h (BIntrinsics p) = i_params i) by (cbn; by rewrite Ei).
      split; [done|]. split; [by rewrite Hlen, Hval|].
      assert (Hout : (forall u, u ∈ vs -> est_view r u -> ~ uses r u p) -> new_value r h a s (BIntrinsics p) = i_params i).
      { intros Hno. rewrite <- Hval. apply Hsame. intros k Hk. apply (Y6 p k); [|done]. intros u Hu. apply HV in Hu.
        apply Hno; tauto. }
      split.
      { intros [Hno|Hno]; [by apply Hout|]. rewrite <- Hval. unfold new_value.
        destruct (ba_blocks a !! BIntrinsics p) as [k|] eqn:Ek; [|done].
        exfalso. destruct (Hbi p) as [H _]. destruct H as (w & t & Hw & Ht2); [apply Yd; eauto|]. by apply (Hno w t). }
      intros j Hj.
      destruct (Classical_Prop.classic (exists u, u ∈ vs /\ est_view r u /\ uses r u p)) as [(u & Hu1 & Hu2 & Hu3)|Hno].
      2:{ rewrite Hout; [done|]. intros u H1 H2 H3. apply Hno. eauto. }
      assert (Hu : u ∈ V) by by apply HV.
      assert (Hjl : j ∈ l_of opts i) by by apply constant_intrinsics_spec.
      rewrite <- Hval. destruct (decide (length (l_of opts i) = num_parameters (i_type i))) as [Hl|Hl].
      * rewrite (Hsame (BIntrinsics p)); [done|]. intros k Hk. by apply (Y7 u p i k).
      * apply (Hcoord _ (l_of opts i)); [|done]. intros k Hk. apply (Y7 u p i k); try done.
        intros Hn. rewrite Hn in Hjl. by apply elem_of_nil in Hjl.
  - intros Hus. cbn [sm_success] in Hus.
    assert (Hnv : forall b, new_value r h a s b = values r h b).
    { intros b. unfold new_value. destruct (ba_blocks a !! b) as [k|] eqn:Ek; [|done]. apply Su; [done|eauto]. }
    split.
    + assert (rc_views r' = rc_views r) as E1.
      { apply map_eq. intros u. rewrite Hv', Hnv. destruct (rc_views r !! u) as [v|] eqn:Ev; [|done]. cbn. rewrite Ev. by destruct v. }
      assert (rc_tracks r' = rc_tracks r) as E2.
      { apply map_eq. intros t. rewrite Ht', Hnv. destruct (rc_tracks r !! t) as [T|] eqn:ET; [|done]. cbn. rewrite ET. by destruct T. }
      transitivity (set_tracks (set_views r (rc_views r')) (rc_tracks r')); [done|]. rewrite E1, E2. by destruct r.
    + apply map_eq. intros p. rewrite Hh', Hnv. destruct (h !! p) as [i|] eqn:Ei; [|done]. cbn. rewrite Ei. by destruct i.
  - exists (pair_of <$> ba_residuals a). split; [|split].
    + rewrite Yr. apply (i_nodup _ _ _ _ _ I).
    + intros u t. rewrite Yr. rewrite elem_of_list_fmap. unfold adjusted. split.
      * intros (rs & [= -> ->] & Hrs). apply (i_res _ _ _ _ _ I) in Hrs. destruct Hrs as [Hg Hsel].
        apply observation_of_residual in Hg. rewrite HV, Hts in Hsel. tauto.
      * intros (Hs & Hu & Ht & Hsel). destruct (residual_of_observation u t) as (rs & Hg & Eu & Et & _); [done..|].
        exists rs. unfold pair_of. rewrite Eu, Et. split; [done|]. apply (i_res _ _ _ _ _ I). rewrite Eu, Et, HV, Hts. tauto.
    + cbn [sm_success sm_initial sm_final]. intros Hus. destruct (Sc Hus) as (C1 & C2 & C3). split; [|split; [|done]].
      * rewrite C1. unfold problem_cost. rewrite sum_of_fmap. apply sum_of_ext. intros rs Hrs. rewrite Yr in Hrs.
        apply (i_res _ _ _ _ _ I) in Hrs. destruct Hrs as [(v & T & i & Hv & He & HT & HeT & Hf & Hp & Hi & Hty) _].
        unfold observation_error, pair_of. cbn [fst snd]. rewrite Hv, HT, Hf, Hi. cbn [values]. rewrite Hv, HT, Hp, Hi. by rewrite Hty.
      * rewrite C2. unfold problem_cost. rewrite sum_of_fmap. apply sum_of_ext. intros rs Hrs.
        assert (Hnew : forall b, b ∈ blocks_of rs -> new_value r h a s b = sol_values s b).
        { intros b Hb. unfold new_value. destruct (Hpre rs b Hrs Hb) as [k Hk]. by rewrite Hk. }
        rewrite Yr in Hrs. apply (i_res _ _ _ _ _ I) in Hrs.
        destruct Hrs as [(v & T & i & Hv & He & HT & HeT & Hf & Hp & Hi & Hty) _].
        unfold observation_error, pair_of. cbn [fst snd]. rewrite Hv', Ht', Hv, HT. cbn [fmap option_fmap option_map v_feats v_intr v_data t_data].
        rewrite Hf, Hh', Hi. cbn [fmap option_fmap option_map i_type i_params]. rewrite <- Hp, Hty.
        rewrite !Hnew by (apply elem_of_blocks_of; tauto). done.
Qed.

(** A solver that moves to given values [y] if these respect the flags and do not increase the cost. *)
Definition admissible (bs : gmap block flags) (x y : block -> list R) : Prop :=
  map_Forall (fun b k => length (y b) = length (x b) /\ (f_constant k = true -> y b = x b) /\
    match f_subset k with Some c => Forall (fun i => y b !! i = x b !! i) c | None => True end) bs.
Local Instance R_eq_dec : EqDecision R.
Proof. intros a b. apply Req_EM_T. Defined.
Local Instance admissible_dec bs x y : Decision (admissible bs x y).
Proof.
  unfold admissible. apply map_Forall_dec. intros b k. apply and_dec; [apply _|]. apply and_dec; [apply impl_dec; apply _|].
  destruct (f_subset k); apply _.
Defined.

Definition solver_to (y : block -> list R) (l : list residual) (bs : gmap block flags) (x : block -> list R) : solution :=
  if decide (admissible bs x y) then
    if Rle_dec (problem_cost err l y) (problem_cost err l x)
    then Solution y (problem_cost err l x) (problem_cost err l y) true
    else Solution x (problem_cost err l x) (problem_cost err l x) false
  else Solution x (problem_cost err l x) (problem_cost err l x) false.

Lemma solver_to_contract (y : block -> list R) : ceres_contract err (solver_to y).
Proof.
  intros l bs x _. unfold solver_to. destruct (decide _) as [Had|Had]; [destruct (Rle_dec _ _) as [Hle|Hle]|]; cbn.
  - split; [|split; [done|done]]. intros b k Hk. destruct (Had b k Hk) as (H1 & H2 & H3). split; [done|]. split; [done|].
    intros c i Hc Hi. rewrite Hc in H3. rewrite list.Forall_forall in H3. by apply H3.
  - split; [done|]. split; done.
  - split; [done|]. split; done.
Qed.

(** Every change allowed by the frame that does not increase the cost is a possible result. *)
Theorem partial_reaches (vs ts : list N) r' h' l : sized h ->
  adjustable opts vs ts r h -> frame opts vs ts r h r' h' ->
  NoDup l -> (forall u t, (u, t) ∈ l <-> adjusted r vs ts u t) ->
  (sum_of (observation_error err r' h') l <= sum_of (observation_error err r h) l)%R ->
  exists y, bundle_adjust_partial os r h opts (solver_to y) vs ts =
    Ok (r', h', Summary true (sum_of (observation_error err r h) l) (sum_of (observation_error err r' h') l)).
Proof.
  intros Hsz Had (Fr & Fv & Ft & Fh) Hnd Hl Hle.
  exists (values r' h'). unfold bundle_adjust_partial.
  destruct (prepare_spec vs ts) as [A _]. destruct (A Had) as (V & a0 & a & E & HV & Hts & I & Y & Hbe & Hbi).
  assert (Ep : bundle_adjust_partial os r h opts (solver_to (values r' h')) vs ts =
    '(_, a) ← prepare vs ts;
    let s := solver_to (values r' h') (ba_residuals a) (ba_blocks a) (values r h) in
    Ok (set_tracks (set_views r (write_views r h a s)) (write_tracks r h a s), write_heap r h a s,
        Summary (sol_usable s) (sol_initial s) (sol_final s))).
  { unfold bundle_adjust_partial, prepare, optimize.
    destruct (run_steps (add_view os r h) ba_new vs) as [a1| | |]; [|done..]. cbn [mbind outcome_bind].
    destruct (run_steps (add_track os r h) a1 ts) as [a2| | |]; [|done..]. cbn [mbind outcome_bind].
    by destruct (setup os r h opts a2). }
  fold (bundle_adjust_partial os r h opts (solver_to (values r' h')) vs ts). rewrite Ep, E. cbn [mbind outcome_bind]. clear A E Ep.
  destruct Y as [Yr Yd Y1 Y2 Y3 Y4 Y5 Y6 Y7 Z1 Z2 Z3 Z4 Z5 Z6].
  (* present blocks *)
  assert (Hadm : admissible (ba_blocks a) (values r h) (values r' h')).
  { intros b k Hk. destruct b as [u|p|t].
    - specialize (Fv u). cbn [values]. inversion Fv as [v v' HT E1 E2|E1 E2]; [|split; [done|split; [done|]]; destruct (f_subset k); [by apply list.Forall_forall|done]].
      destruct HT as (_ & _ & _ & _ & Hlen & Hout & Hp & Ho & Hpo). split; [done|]. split.
      + intros Hc. destruct (Z1 u k Hk Hc) as [Hn|[? ?]]; [|by apply Hpo]. apply Hout. rewrite HV in Hn.
        destruct (decide (u ∈ vs)) as [Hu|Hu]; [|by left]. right; left. destruct (v_est v) eqn:Ev; [|done]. exfalso. apply Hn.
        split; [done|]. by exists v.
      + destruct (f_subset k) as [c|] eqn:Ec; [|done]. apply list.Forall_forall. intros i Hi.
        destruct (Z2 u k c Hk Ec) as [[H1 ->]|[H1 ->]].
        * apply Ho; [done|]. rewrite !elem_of_cons, elem_of_nil in Hi. lia.
        * apply Hp; [done|]. rewrite !elem_of_cons, elem_of_nil in Hi. lia.
    - specialize (Fh p). cbn [values]. inversion Fh as [i i' HT E1 E2|E1 E2]; [|split; [done|split; [done|]]; destruct (f_subset k); [by apply list.Forall_forall|done]].
      destruct HT as (Hty & Hlen & Hout & Hk'). split; [done|]. split.
      + intros Hc. destruct (Z5 p k Hk Hc) as [Hn|(i1 & Hi1 & Hll)].
        * apply Hout. left. intros u Hu Hue. apply Hn. by apply HV.
        * assert (i1 = i) as -> by congruence. apply list_eq. intros j. destruct (decide (j < num_parameters (i_type i))) as [Hj|Hj].
          -- apply Hk'. apply constant_intrinsics_spec. apply constant_intrinsics_full; done.
          -- rewrite !lookup_ge_None_2; [done| |]; rewrite ?Hlen, (Hsz p i) by congruence; lia.
      + destruct (f_subset k) as [c|] eqn:Ec; [|done]. apply list.Forall_forall. intros j Hj.
        destruct (Z6 p k c Hk Ec) as (i1 & Hi1 & ->). assert (i1 = i) as -> by congruence. apply Hk'.
        by apply constant_intrinsics_spec.
    - specialize (Ft t). cbn [values]. inversion Ft as [T T' HT E1 E2|E1 E2]; [|split; [done|split; [done|]]; destruct (f_subset k); [by apply list.Forall_forall|done]].
      destruct HT as (_ & _ & Hlen & Hout). split; [done|]. split.
      + intros Hc. pose proof (Z3 t k Hk Hc) as Hn. apply Hout. rewrite Hts in Hn.
        destruct (decide (t ∈ ts)) as [Hu|Hu]; [|by left]. right. destruct (t_est T) eqn:Ev; [|done]. exfalso. apply Hn.
        split; [done|]. by exists T.
      + by rewrite (Z4 t k Hk). }
  (* costs *)
  assert (Hperm : pair_of <$> ba_residuals a ≡ₚ l).
  { apply NoDup_Permutation; [rewrite Yr; apply (i_nodup _ _ _ _ _ I)|done|]. intros [u t]. rewrite Hl, Yr, elem_of_list_fmap.
    unfold adjusted. split.
    - intros (rs & [= -> ->] & Hrs). apply (i_res _ _ _ _ _ I) in Hrs. destruct Hrs as [Hg Hsel].
      apply observation_of_residual in Hg. rewrite HV, Hts in Hsel. tauto.
    - intros (Hs & Hu & Ht & Hsel). destruct (residual_of_observation u t) as (rs & Hg & Eu & Et & _); [done..|].
      exists rs. unfold pair_of. rewrite Eu, Et. split; [done|]. apply (i_res _ _ _ _ _ I). rewrite Eu, Et, HV, Hts. tauto. }
  assert (Hsum : forall (g : N * N -> R), sum_of g l = sum_of g (pair_of <$> ba_residuals a)).
  { intros g. clear -Hperm. symmetry. induction Hperm as [|x l1 l2 _ IH|x y l1|l1 l2 l3 _ IH1 _ IH2]; cbn; [done| | |by rewrite IH1].
    - unfold sum_of in IH. by rewrite IH.
    - lra. }
  assert (C0 : problem_cost err (ba_residuals a) (values r h) = sum_of (observation_error err r h) l).
  { rewrite Hsum. unfold problem_cost. rewrite sum_of_fmap. apply sum_of_ext. intros rs Hrs. rewrite Yr in Hrs.
    apply (i_res _ _ _ _ _ I) in Hrs. destruct Hrs as [(v & T & i & Hv & He & HT & HeT & Hf & Hp & Hi & Hty) _].
    unfold observation_error, pair_of. cbn [fst snd]. rewrite Hv, HT, Hf, Hi. cbn [values]. rewrite Hv, HT, Hp, Hi. by rewrite Hty. }
  assert (C1 : problem_cost err (ba_residuals a) (values r' h') = sum_of (observation_error err r' h') l).
  { rewrite Hsum. unfold problem_cost. rewrite sum_of_fmap. apply sum_of_ext. intros rs Hrs. rewrite Yr in Hrs.
    apply (i_res _ _ _ _ _ I) in Hrs. destruct Hrs as [(v & T & i & Hv & He & HT & HeT & Hf & Hp & Hi & Hty) _].
    specialize (Fv (rs_view rs)). rewrite Hv in Fv. inversion Fv as [v1 v' HFv E1 E2|]; subst v1.
    specialize (Ft (rs_track rs)). rewrite HT in Ft. inversion Ft as [T1 T' HFt E3 E4|]; subst T1.
    specialize (Fh (v_intr v)). rewrite Hi in Fh. inversion Fh as [i1 i' HFh E5 E6|]; subst i1.
    destruct HFv as (_ & _ & Hvi & Hvf & _). destruct HFh as (Hit & _).
    unfold observation_error, pair_of. cbn [fst snd values]. rewrite Hp, <- E2, <- E4, <- E6, Hvf, Hf, Hvi, <- E6. by rewrite Hty, Hit. }
  unfold solver_to. rewrite decide_True by done. rewrite C0, C1.
  destruct (Rle_dec _ _) as [_|Hn]; [|by destruct Hn]. cbn [sol_usable sol_initial sol_final].
  set (s := Solution (values r' h') (sum_of (observation_error err r h) l) (sum_of (observation_error err r' h') l) true).
  assert (N1 : forall u, is_Some (rc_views r !! u) -> new_value r h a s (BExtrinsics u) = values r' h' (BExtrinsics u)).
  { intros u [v Hv]. unfold new_value. destruct (ba_blocks a !! BExtrinsics u) as [k|] eqn:Ek; [done|].
    specialize (Fv u). cbn [values]. rewrite Hv in *. inversion Fv as [v1 v' HT E1 E2|E1 E2]; subst v1.
    destruct HT as (_ & _ & _ & _ & _ & Hout & _). symmetry. apply Hout.
    destruct (decide (u ∈ V)) as [Hu|Hu].
    - right; right. intros t Ht Hs. destruct (Hbe u Hu) as [_ H]. destruct H as [k Hk]; [eauto|].
      destruct (Yd (BExtrinsics u)) as [_ Hd]. destruct Hd as [k' Hk']; [eauto|]. congruence.
    - rewrite HV in Hu. destruct (decide (u ∈ vs)) as [Hu'|Hu']; [|by left]. right; left.
      destruct (v_est v) eqn:Ev; [|done]. exfalso. apply Hu. split; [done|]. by exists v. }
  assert (N2 : forall t, is_Some (rc_tracks r !! t) -> new_value r h a s (BPoint t) = values r' h' (BPoint t)).
  { intros t [T HT0]. unfold new_value. destruct (ba_blocks a !! BPoint t) as [k|] eqn:Ek; [done|].
    specialize (Ft t). cbn [values]. rewrite HT0 in *. inversion Ft as [T1 T' HT E1 E2|E1 E2]; subst T1.
    destruct HT as (_ & _ & _ & Hout). symmetry. apply Hout.
    destruct (decide (t ∈ ba_tracks a0)) as [Hu|Hu].
    - exfalso. destruct Had as (_ & _ & Han & _). apply Hts in Hu. destruct Hu as [Hu1 Hu2].
      destruct (Han t Hu1 Hu2) as (u & Hue & Hus). destruct (residual_of_observation u t) as (rs & Hg & Eu & Et & _); [done..|].
      assert (Hb : is_Some (ba_blocks a !! BPoint t)).
      { apply Yd, (i_dom _ _ _ _ _ I). exists rs. split; [|apply elem_of_blocks_of; rewrite Et; tauto].
        apply (i_res _ _ _ _ _ I). rewrite Et, Hts. tauto. }
      rewrite Ek in Hb. by destruct Hb.
    - rewrite Hts in Hu. destruct (decide (t ∈ ts)) as [Hu'|Hu']; [|by left]. right.
      destruct (t_est T) eqn:Ev; [|done]. exfalso. apply Hu. split; [done|]. by exists T. }
  assert (N3 : forall p, is_Some (h !! p) -> new_value r h a s (BIntrinsics p) = values r' h' (BIntrinsics p)).
  { intros p [i Hi]. unfold new_value. destruct (ba_blocks a !! BIntrinsics p) as [k|] eqn:Ek; [done|].
    specialize (Fh p). cbn [values]. rewrite Hi in *. inversion Fh as [i1 i' HT E1 E2|E1 E2]; subst i1.
    destruct HT as (_ & _ & Hout & _). symmetry. apply Hout. right. intros w t Hw Ht.
    destruct (Hbi p) as [_ H]. destruct H as [k Hk]; [eauto|].
    destruct (Yd (BIntrinsics p)) as [_ Hd]. destruct Hd as [k' Hk']; [eauto|]. congruence. }
  assert (W1 : write_views r h a s = rc_views r').
  { apply map_eq. intros u. unfold write_views. rewrite map_lookup_imap. pose proof (N1 u) as N1u. specialize (Fv u).
    destruct (rc_views r !! u) as [v|] eqn:Ev; cbn [mbind option_bind]; [|by inversion Fv].
    rewrite N1u by eauto. cbn [values]. inversion Fv as [v1 v' HT E1 E2|E1 E2]; subst v1. f_equal.
    destruct HT as (H1 & H2 & H3 & H4 & _). destruct v', v; cbn in *. congruence. }
  assert (W2 : write_tracks r h a s = rc_tracks r').
  { apply map_eq. intros t. unfold write_tracks. rewrite map_lookup_imap. pose proof (N2 t) as N2u. specialize (Ft t).
    destruct (rc_tracks r !! t) as [T|] eqn:Ev; cbn [mbind option_bind]; [|by inversion Ft].
    rewrite N2u by eauto. cbn [values]. inversion Ft as [v1 T' HT E1 E2|E1 E2]; subst v1. f_equal.
    destruct HT as (H1 & H2 & _). destruct T', T; cbn in *. congruence. }
  assert (W3 : write_heap r h a s = h').
  { apply map_eq. intros p. unfold write_heap. rewrite map_lookup_imap. pose proof (N3 p) as N3u. specialize (Fh p).
    destruct (h !! p) as [i|] eqn:Ev; cbn [mbind option_bind]; [|by inversion Fh].
    rewrite N3u by eauto. cbn [values]. inversion Fh as [v1 i' HT E1 E2|E1 E2]; subst v1. f_equal.
    destruct HT as (H1 & _). destruct i', i; cbn in *. congruence. }
  rewrite W1, W2, W3, <- Fr. done.
Qed.
End result.
