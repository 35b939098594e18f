(** Properties C68-C71: bundle adjustment changes what it was asked to change, minimizes over the right observations,
    and when it aborts. *)
From stdpp Require Import gmap strings.
From Coq Require Import Reals Lra.
From Verif Require Import Base Reconstruction_Model Reconstruction_Props SfmQueries_Spec SfmQueries_Props
  BundleAdjust_Model BundleAdjust_Spec BundleAdjust_Proofs BundleAdjust_Setup BundleAdjust_Result.

(** Every reconstruction reached through its interface meets the hypotheses of the theorems below. *)
Theorem reachable_grouped : forall (F : Type) (c0 d0 : list R) (ops : list (rc_op F (list R) (list R))) r rs,
  (N.of_nat (length ops) < 2 ^ 32)%N -> run_obs (rc_step c0 d0) rc_empty ops = Ok (r, rs) -> consistent r /\ grouped r.
Proof.
  intros F c0 d0 ops r rs Hl Hr. split; [by eapply reachable_consistent|]. by eapply groups_partition.
Qed.
Print Assumptions reachable_grouped.

(** C68.  Adjusting the views [vs] and the tracks [ts] changes nothing but the extrinsics of estimated views in [vs]
    (not the positions or orientations that are to be kept), the requested parameters of the intrinsics used by such
    views, and the points of estimated tracks in [ts]. *)
Theorem adjust_changes_only : forall (F : Type) err solve (os : nat -> N -> order N) (r : recon F (list R) (list R))
    (h : gmap N intrinsics) (opts : ba_options) (vs ts : list N) r' h' sm,
  consistent r -> grouped r -> allocated r h -> ceres_contract err solve ->
  bundle_adjust_partial os r h opts solve vs ts = Ok (r', h', sm) ->
  frame opts vs ts r h r' h' /\ (sm_success sm = false -> r' = r /\ h' = h).
Proof.
  intros F err solve os r h opts vs ts r' h' sm Hc Hg Ha Hs E.
  destruct (Classical_Prop.classic (adjustable opts vs ts r h)) as [H|H].
  - destruct (partial_ok os r h opts Hc Ha Hg err solve Hs vs ts H) as (r1 & h1 & sm1 & E1 & Hf & Hu & _).
    rewrite E1 in E. injection E as <- <- <-. done.
  - rewrite (partial_abort os r h opts Hc Ha Hg solve vs ts H) in E. discriminate E.
Qed.
Print Assumptions adjust_changes_only.

(** C68.  A single view: no point and no other view changes.  A single track: no camera changes. *)
Theorem adjust_view_changes_only : forall (F : Type) err solve (os : nat -> N -> order N) (r : recon F (list R) (list R))
    (h : gmap N intrinsics) (opts : ba_options) (u : N) r' h' sm,
  consistent r -> grouped r -> allocated r h -> ceres_contract err solve ->
  bundle_adjust_view os r h opts solve u = Ok (r', h', sm) ->
  frame opts [u] [] r h r' h' /\ rc_tracks r' = rc_tracks r /\ (forall w, w <> u -> rc_views r' !! w = rc_views r !! w).
Proof.
  intros F err solve os r h opts u r' h' sm Hc Hg Ha Hs E.
  assert (E' : bundle_adjust_partial os r h opts solve [u] [] = Ok (r', h', sm)).
  { unfold bundle_adjust_view in E. unfold bundle_adjust_partial. cbn [run_steps]. by destruct (add_view os r h ba_new u). }
  destruct (adjust_changes_only F err solve os r h opts [u] [] r' h' sm Hc Hg Ha Hs E') as [Hf _].
  split; [done|]. destruct Hf as (_ & Hv & Ht & _). split.
  - apply map_eq. intros t. specialize (Ht t). destruct (rc_tracks r !! t) as [T|]; inversion Ht as [T1 T2 HT E1 E2|E1 E2]; [|done].
    f_equal. destruct HT as (H1 & H2 & _ & H4). destruct T as [a b c], T2 as [a' b' c']; cbn in *.
    rewrite H4 by (left; apply not_elem_of_nil). congruence.
  - intros w Hw. specialize (Hv w). destruct (rc_views r !! w) as [v|]; inversion Hv as [v1 v2 HT E1 E2|E1 E2]; [|done].
    f_equal. destruct HT as (H1 & H2 & H3 & H4 & _ & H5 & _). destruct v as [a b c d e], v2 as [a' b' c' d' e']; cbn in *.
    rewrite H5 by (left; set_solver). congruence.
Qed.
Print Assumptions adjust_view_changes_only.

Theorem adjust_track_changes_only : forall (F : Type) err solve (os : nat -> N -> order N) (r : recon F (list R) (list R))
    (h : gmap N intrinsics) (opts : ba_options) (t : N) r' h' sm,
  consistent r -> grouped r -> allocated r h -> ceres_contract err solve ->
  bundle_adjust_track os r h opts solve t = Ok (r', h', sm) ->
  rc_views r' = rc_views r /\ h' = h /\ (forall w, w <> t -> rc_tracks r' !! w = rc_tracks r !! w) /\
  frame opts [] [t] r h r' h'.
Proof.
  intros F err solve os r h opts t r' h' sm Hc Hg Ha Hs E.
  assert (E' : bundle_adjust_partial os r h opts solve [] [t] = Ok (r', h', sm)).
  { unfold bundle_adjust_track in E. unfold bundle_adjust_partial. cbn [run_steps mbind outcome_bind].
    by destruct (add_track os r h ba_new t). }
  destruct (adjust_changes_only F err solve os r h opts [] [t] r' h' sm Hc Hg Ha Hs E') as [Hf _].
  pose proof Hf as (_ & Hv & Ht & Hh). split; [|split; [|split; [|done]]].
  - apply map_eq. intros w. specialize (Hv w). destruct (rc_views r !! w) as [v|]; inversion Hv as [v1 v2 HT E1 E2|E1 E2]; [|done].
    f_equal. destruct HT as (H1 & H2 & H3 & H4 & _ & H5 & _). destruct v as [a b c d e], v2 as [a' b' c' d' e']; cbn in *.
    rewrite H5 by (left; apply not_elem_of_nil). congruence.
  - apply map_eq. intros p. specialize (Hh p). destruct (h !! p) as [i|]; inversion Hh as [i1 i2 HT E1 E2|E1 E2]; [|done].
    f_equal. destruct HT as (H1 & _ & H3 & _). destruct i as [a b], i2 as [a' b']; cbn in *.
    rewrite H3 by (left; intros u Hu; by apply elem_of_nil in Hu). congruence.
  - intros w Hw. specialize (Ht w). destruct (rc_tracks r !! w) as [T|]; inversion Ht as [T1 T2 HT E1 E2|E1 E2]; [|done].
    f_equal. destruct HT as (H1 & H2 & _ & H4). destruct T as [a b c], T2 as [a' b' c']; cbn in *.
    rewrite H4 by (left; set_solver). congruence.
Qed.
Print Assumptions adjust_track_changes_only.

(** C68.  Nothing more is held fixed: every change that keeps what must be kept and does not increase the cost is the
    result of adjusting with some solver that meets the contract. *)
Theorem adjust_reaches : forall (F : Type) err (os : nat -> N -> order N) (r : recon F (list R) (list R))
    (h : gmap N intrinsics) (opts : ba_options) (vs ts : list N) r' h' l,
  consistent r -> grouped r -> allocated r h -> sized h -> adjustable opts vs ts r h ->
  frame opts vs ts r h r' h' -> NoDup l -> (forall u t, (u, t) ∈ l <-> adjusted r vs ts u t) ->
  (sum_of (observation_error err r' h') l <= sum_of (observation_error err r h) l)%R ->
  exists solve, ceres_contract err solve /\
    bundle_adjust_partial os r h opts solve vs ts =
      Ok (r', h', Summary true (sum_of (observation_error err r h) l) (sum_of (observation_error err r' h') l)).
Proof.
  intros F err os r h opts vs ts r' h' l Hc Hg Ha Hz Had Hf Hnd Hl Hle.
  destruct (partial_reaches os r h opts Hc Ha Hg err vs ts r' h' l Hz Had Hf Hnd Hl Hle) as [y E].
  exists (solver_to err y). split; [apply solver_to_contract|done].
Qed.
Print Assumptions adjust_reaches.

(** C69.  The cost that is minimized is the sum over every observation of an estimated track in an estimated view of
    which the view or the track was chosen, each counted once; a successful adjustment does not increase it. *)
Theorem adjust_cost : forall (F : Type) err solve (os : nat -> N -> order N) (r : recon F (list R) (list R))
    (h : gmap N intrinsics) (opts : ba_options) (vs ts : list N) r' h' sm,
  consistent r -> grouped r -> allocated r h -> ceres_contract err solve ->
  bundle_adjust_partial os r h opts solve vs ts = Ok (r', h', sm) -> sm_success sm = true ->
  exists l, NoDup l /\ (forall u t, (u, t) ∈ l <-> adjusted r vs ts u t) /\
    sm_initial sm = sum_of (observation_error err r h) l /\ sm_final sm = sum_of (observation_error err r' h') l /\
    (sm_final sm <= sm_initial sm)%R.
Proof.
  intros F err solve os r h opts vs ts r' h' sm Hc Hg Ha Hs E Hok.
  destruct (Classical_Prop.classic (adjustable opts vs ts r h)) as [H|H].
  - destruct (partial_ok os r h opts Hc Ha Hg err solve Hs vs ts H) as (r1 & h1 & sm1 & E1 & _ & _ & l & H1 & H2 & H3).
    rewrite E1 in E. injection E as <- <- <-. exists l. split; [done|]. split; [done|]. auto.
  - rewrite (partial_abort os r h opts Hc Ha Hg solve vs ts H) in E. discriminate E.
Qed.
Print Assumptions adjust_cost.

(** C69.  The whole reconstruction: the cost is over all observations between estimated views and tracks. *)
Theorem adjust_all : forall (F : Type) err solve (os : nat -> N -> order N) (r : recon F (list R) (list R))
    (h : gmap N intrinsics) (opts : ba_options) r' h' sm,
  consistent r -> grouped r -> allocated r h -> ceres_contract err solve ->
  bundle_adjust os r h opts solve = Ok (r', h', sm) ->
  (forall u t, sees r' u t <-> sees r u t) /\ (forall u, est_view r' u <-> est_view r u) /\
  (forall t, est_track r' t <-> est_track r t) /\
  (sm_success sm = true ->
   exists l, NoDup l /\ (forall u t, (u, t) ∈ l <-> sees r u t /\ est_view r u /\ est_track r t) /\
    sm_initial sm = sum_of (observation_error err r h) l /\ sm_final sm = sum_of (observation_error err r' h') l /\
    (sm_final sm <= sm_initial sm)%R).
Proof.
  intros F err solve os r h opts r' h' sm Hc Hg Ha Hs E. unfold bundle_adjust in E.
  destruct (adjust_changes_only F err solve os r h opts _ _ r' h' sm Hc Hg Ha Hs E) as [(_ & Hv & Ht & _) _].
  split; [|split; [|split]].
  - intros u t. unfold sees. specialize (Hv u). inversion Hv as [v1 v2 HT E1 E2|E1 E2].
    + destruct HT as (_ & _ & _ & H4 & _). split; intros (v & [= <-] & H); eexists; (split; [reflexivity|]); congruence.
    + split; intros (v & [=] & _).
  - intros u. unfold est_view. specialize (Hv u). inversion Hv as [v1 v2 HT E1 E2|E1 E2].
    + destruct HT as (_ & H2 & _). split; intros (v & [= <-] & H); eexists; (split; [reflexivity|]); congruence.
    + split; intros (v & [=] & _).
  - intros t. unfold est_track. specialize (Ht t). inversion Ht as [v1 v2 HT E1 E2|E1 E2].
    + destruct HT as (H2 & _). split; intros (v & [= <-] & H); eexists; (split; [reflexivity|]); congruence.
    + split; intros (v & [=] & _).
  - intros Hok. destruct (adjust_cost F err solve os r h opts _ _ r' h' sm Hc Hg Ha Hs E Hok) as (l & H1 & H2 & H3).
    exists l. split; [done|]. split; [|done]. intros u t. rewrite H2. unfold adjusted. split; [tauto|].
    intros (Hsee & Hu & Htt). split; [done|]. split; [done|]. split; [done|]. left. rewrite ord_perm, elem_of_elements, elem_of_dom.
    destruct Hu as (v & Hv' & _). eauto.
Qed.
Print Assumptions adjust_all.

(** C70.  Exactly when adjusting aborts.  In full the property asks that adjusting existing views and tracks returns;
    the theorem gives the conditions under which it does. *)
Theorem adjust_returns_partial : forall (F : Type) err solve (os : nat -> N -> order N) (r : recon F (list R) (list R))
    (h : gmap N intrinsics) (opts : ba_options) (vs ts : list N),
  consistent r -> grouped r -> allocated r h -> ceres_contract err solve ->
  (adjustable opts vs ts r h -> exists r' h' sm, bundle_adjust_partial os r h opts solve vs ts = Ok (r', h', sm)) /\
  (~ adjustable opts vs ts r h -> bundle_adjust_partial os r h opts solve vs ts = CheckFail).
Proof.
  intros F err solve os r h opts vs ts Hc Hg Ha Hs. split.
  - intros H. destruct (partial_ok os r h opts Hc Ha Hg err solve Hs vs ts H) as (r' & h' & sm & E & _). eauto.
  - apply partial_abort; done.
Qed.
Print Assumptions adjust_returns_partial.

(** C71.  The intrinsics parameters kept constant are exactly those whose kind was not requested. *)
Theorem kept_parameters_exact : forall ty mask i,
  (i ∈ constant_intrinsics ty mask <-> kept ty mask i) /\ NoDup (constant_intrinsics ty mask) /\
  (i ∈ constant_intrinsics ty mask -> i < num_parameters ty).
Proof.
  intros ty mask i. split; [apply constant_intrinsics_spec|]. split; [apply constant_intrinsics_NoDup|].
  intros H. pose proof (constant_intrinsics_lt ty mask) as Hl. rewrite list.Forall_forall in Hl. auto.
Qed.
Print Assumptions kept_parameters_exact.

(** ** Non-vacuity.  A solver that tries to set every coordinate that may move to zero. *)
Definition zero_values (bs : gmap block flags) (x : block -> list R) (b : block) : list R :=
  match bs !! b with
  | Some k => if f_constant k then x b else match f_subset k with Some _ => x b | None => (fun _ => 0%R) <$> x b end
  | None => x b
  end.
Definition zero_solver {F} (err : model_type -> F -> list R -> list R -> list R -> R)
    (l : list (residual (F:=F))) (bs : gmap block flags) (x : block -> list R) : solution :=
  if Rle_dec (problem_cost err l (zero_values bs x)) (problem_cost err l x)
  then Solution (zero_values bs x) (problem_cost err l x) (problem_cost err l (zero_values bs x)) true
  else Solution x (problem_cost err l x) (problem_cost err l x) false.

Lemma zero_solver_contract {F} (err : model_type -> F -> list R -> list R -> list R -> R) : ceres_contract err (zero_solver err).
Proof.
  intros l bs x _. unfold zero_solver. destruct (Rle_dec _ _) as [Hle|Hle]; cbn.
  - split; [|split; [done|done]]. intros b k Hk. unfold zero_values. rewrite Hk. split; [|split].
    + destruct (f_constant k); [done|]. destruct (f_subset k); [done|]. apply fmap_length.
    + by intros ->.
    + intros c i Hc Hi. destruct (f_constant k); [done|]. by rewrite Hc.
  - split; [done|]. split; done.
Qed.

(** Two views in one intrinsics group see a track; a third view and a second track are isolated. *)
Definition ba_ops (e0 e1 p0 : list R) : list (rc_op N (list R) (list R)) :=
  [OAddViewGroup ord_id "a" 5; OAddViewGroup ord_id "b" 5; OAddView ord_id "c"; OAddTrack [(0, 7); (1, 8)]%N; OAddEmptyTrack;
   OSetView 0 true e0; OSetView 1 true e1; OSetView 2 true e0; OSetTrack 0 true p0; OSetTrack 1 true p0]%N.
Definition ba_sample (e0 e1 p0 : list R) : option (recon N (list R) (list R)) :=
  match run_obs (rc_step [] []) rc_empty (ba_ops e0 e1 p0) with Ok (r, _) => Some r | _ => None end.
Definition ba_heap (i0 i2 : list R) : gmap N intrinsics := {[0%N := Intrinsics Pinhole i0; 2%N := Intrinsics Fisheye i2]}.

Definition ba_test (r : recon N (list R) (list R)) : bool :=
  bool_decide ((fun v => (v_est v, v_intr v, v_feats v !! 0%N)) <$> rc_views r !! 0%N = Some (true, 0%N, Some 7%N)) &&
  bool_decide ((fun v => (v_est v, v_intr v, v_feats v !! 0%N)) <$> rc_views r !! 1%N = Some (true, 0%N, Some 8%N)) &&
  bool_decide ((fun v => (v_est v, v_intr v, map_to_list (v_feats v))) <$> rc_views r !! 2%N = Some (true, 2%N, [])) &&
  bool_decide (t_est <$> rc_tracks r !! 0%N = Some true) &&
  bool_decide ((fun T => (t_est T, elements (t_views T))) <$> rc_tracks r !! 1%N = Some (true, [])) &&
  bool_decide ((map_to_list (rc_views r)).*1 = [0; 1; 2]%N) && bool_decide ((map_to_list (rc_tracks r)).*1 = [0; 1]%N).
Lemma ba_sample_test e0 e1 p0 : match ba_sample e0 e1 p0 with Some r => ba_test r | None => false end = true.
Proof. vm_compute. reflexivity. Qed.

(** What the sample looks like: the intrinsics of the first two views are object 0, those of the third object 2. *)
Lemma ba_sample_facts e0 e1 p0 : exists r, ba_sample e0 e1 p0 = Some r /\ consistent r /\ grouped r /\
  (forall i0 i2, allocated r (ba_heap i0 i2)) /\
  sees r 0 0 /\ sees r 1 0 /\ (forall t, ~ sees r 2 t) /\ (forall u, ~ sees r u 1) /\
  est_view r 0 /\ est_view r 1 /\ est_view r 2 /\ est_track r 0 /\ est_track r 1 /\
  uses r 0 0 /\ uses r 1 0 /\ uses r 2 2 /\ dom (rc_views r) = {[0; 1; 2]}%N /\ dom (rc_tracks r) = {[0; 1]}%N.
Proof.
  pose proof (ba_sample_test e0 e1 p0) as Ht. destruct (ba_sample e0 e1 p0) as [r|] eqn:E; [|discriminate Ht].
  exists r. split; [done|].
  assert (Hr : exists rs, run_obs (rc_step [] []) rc_empty (ba_ops e0 e1 p0) = Ok (r, rs)).
  { unfold ba_sample in E. destruct (run_obs _ _ _) as [[r0 rs]| | |]; try discriminate E. exists rs. congruence. }
  destruct Hr as [rs Hr]. destruct (reachable_grouped N [] [] (ba_ops e0 e1 p0) r rs) as [Hc Hg]; [done|done|].
  split; [done|]. split; [done|].
  unfold ba_test in Ht. rewrite !andb_true_iff, !bool_decide_eq_true in Ht.
  destruct Ht as ((((((V0 & V1) & V2) & T0) & T1) & DV) & DT).
  apply fmap_Some in V0, V1, V2, T0, T1.
  assert (V0' : exists v, rc_views r !! 0%N = Some v /\ v_est v = true /\ v_intr v = 0%N /\ v_feats v !! 0%N = Some 7%N)
    by (destruct V0 as (v & ? & [= ? ? ?]); exists v; auto).
  assert (V1' : exists v, rc_views r !! 1%N = Some v /\ v_est v = true /\ v_intr v = 0%N /\ v_feats v !! 0%N = Some 8%N)
    by (destruct V1 as (v & ? & [= ? ? ?]); exists v; auto).
  assert (V2' : exists v, rc_views r !! 2%N = Some v /\ v_est v = true /\ v_intr v = 2%N /\ map_to_list (v_feats v) = [])
    by (destruct V2 as (v & ? & [= ? ? ?]); exists v; auto).
  assert (T1' : exists T, rc_tracks r !! 1%N = Some T /\ t_est T = true /\ elements (t_views T) = [])
    by (destruct T1 as (v & ? & [= ? ?]); exists v; auto).
  clear V0 V1 V2 T1. rename V0' into V0, V1' into V1, V2' into V2, T1' into T1.
  clear E Hr.
  assert (DV' : dom (rc_views r) = {[0; 1; 2]}%N).
  { apply set_eq. intros u. rewrite elem_of_dom. split.
    - intros [v Hv]. assert (Hu : u ∈ (map_to_list (rc_views r)).*1).
      { apply elem_of_list_fmap. exists (u, v). split; [done|]. by apply elem_of_map_to_list. }
      rewrite DV in Hu. set_solver.
    - destruct V0 as (v0 & V0 & _), V1 as (v1 & V1 & _), V2 as (v2 & V2 & _).
      rewrite !elem_of_union, !elem_of_singleton. intros [[->| ->]| ->]; eauto. }
  assert (DT' : dom (rc_tracks r) = {[0; 1]}%N).
  { apply set_eq. intros u. rewrite elem_of_dom. split.
    - intros [v Hv]. assert (Hu : u ∈ (map_to_list (rc_tracks r)).*1).
      { apply elem_of_list_fmap. exists (u, v). split; [done|]. by apply elem_of_map_to_list. }
      rewrite DT in Hu. set_solver.
    - destruct T0 as (v0 & T0 & _), T1 as (v1 & T1 & _).
      rewrite !elem_of_union, !elem_of_singleton. intros [->| ->]; eauto. }
  destruct V0 as (v0 & V0 & EV0 & P0 & F0), V1 as (v1 & V1 & EV1 & P1 & F1), V2 as (v2 & V2 & EV2 & P2 & F2).
  destruct T0 as (t0 & T0 & ET0), T1 as (t1 & T1 & ET1 & W1).
  assert (Hcases : forall u v, rc_views r !! u = Some v -> u = 0%N \/ u = 1%N \/ u = 2%N).
  { intros u v Hv. assert (Hd : u ∈ dom (rc_views r)) by (apply elem_of_dom; eauto). rewrite DV' in Hd. set_solver. }
  split.
  { intros i0 i2 u v Hv. destruct (Hcases u v Hv) as [->|[->| ->]].
    - assert (v = v0) as -> by congruence. rewrite P0. exists (Intrinsics Pinhole i0). reflexivity.
    - assert (v = v1) as -> by congruence. rewrite P1. exists (Intrinsics Pinhole i0). reflexivity.
    - assert (v = v2) as -> by congruence. rewrite P2. exists (Intrinsics Fisheye i2). reflexivity. }
  split; [exists v0; eauto|]. split; [exists v1; eauto|].
  split.
  { intros t (v & Hv & f & Hf). assert (v = v2) as -> by congruence.
    apply elem_of_map_to_list in Hf. rewrite F2 in Hf. by apply elem_of_nil in Hf. }
  split.
  { intros u Hs. apply Hc in Hs. destruct Hs as (T & HT & Hu). assert (T = t1) as -> by congruence.
    apply elem_of_elements in Hu. rewrite W1 in Hu. by apply elem_of_nil in Hu. }
  split; [by exists v0|]. split; [by exists v1|]. split; [by exists v2|]. split; [by exists t0|]. split; [by exists t1|].
  split; [by exists v0|]. split; [by exists v1|]. split; [by exists v2|]. done.
Qed.

(** The hypotheses are met: adjusting view 0 and track 0 runs, with a solver that meets the contract. *)
Example adjust_sample : forall e0 e1 p0 i0 i2 err, exists r, ba_sample e0 e1 p0 = Some r /\ consistent r /\ grouped r /\
  allocated r (ba_heap i0 i2) /\ ceres_contract err (zero_solver err) /\
  exists r' h' sm, bundle_adjust_partial (fun _ _ => ord_rev) r (ba_heap i0 i2) (BaOptions false true (kFocalLength + kRadialDistortion))
     (zero_solver err) [0%N] [0%N] = Ok (r', h', sm).
Proof.
  intros e0 e1 p0 i0 i2 err. destruct (ba_sample_facts e0 e1 p0) as (r & E & Hc & Hg & Ha & S0 & S1 & S2 & S3 & E0 & E1 & E2 & F0 & F1 & U0 & U1 & U2 & DV & DT).
  exists r. split; [done|]. split; [done|]. split; [done|]. split; [done|]. split; [apply zero_solver_contract|].
  destruct (adjust_returns_partial N err (zero_solver err) (fun _ _ => ord_rev) r (ba_heap i0 i2)
     (BaOptions false true (kFocalLength + kRadialDistortion)) [0%N] [0%N] Hc Hg (Ha i0 i2) (zero_solver_contract err)) as [H _].
  apply H. split; [|split; [|split; [|split]]].
  - intros u ->%elem_of_list_singleton. destruct E0 as (v & Hv & _). eauto.
  - intros t ->%elem_of_list_singleton. destruct F0 as (v & Hv & _). eauto.
  - intros t ->%elem_of_list_singleton _. eauto.
  - intros _ u ->%elem_of_list_singleton _. eauto.
  - intros u p i j ->%elem_of_list_singleton _ Hu _ _. exists 0%N, 0%N. split; [done|]. split; [done|]. split; [done|].
    split; [done|]. left. by left.
Qed.

(** The hypotheses of [adjust_reaches] are met: with an error that does not depend on the points any point can be reached. *)
Example reaches_sample : forall e0 e1 p0 i0 i2, length i0 = 7 -> length i2 = 9 ->
  exists r T, ba_sample e0 e1 p0 = Some r /\ rc_tracks r !! 0%N = Some T /\
  forall p1 : list R, length p1 = length (t_data T) -> exists solve sm,
    ceres_contract (fun _ _ _ _ _ => 1%R) solve /\
    bundle_adjust_partial (fun _ _ => ord_rev) r (ba_heap i0 i2) (BaOptions true true kNone) solve [0%N] [0%N] =
      Ok (set_tracks r (<[0%N := Track (t_est T) p1 (t_views T)]> (rc_tracks r)), ba_heap i0 i2, sm).
Proof.
  intros e0 e1 p0 i0 i2 Hi0 Hi2.
  destruct (ba_sample_facts e0 e1 p0) as (r & E & Hc & Hg & Ha & S0 & S1 & S2 & S3 & E0 & E1 & E2 & F0 & F1 & U0 & U1 & U2 & DV & DT).
  pose proof F0 as (T & HT & HTe). exists r, T. split; [done|]. split; [done|]. intros p1 Hp1.
  set (err := (fun (_ : model_type) (_ : N) (_ _ _ : list R) => 1%R)).
  set (opts := BaOptions true true kNone). set (h := ba_heap i0 i2).
  assert (Had : adjustable opts [0%N] [0%N] r h).
  { split; [|split; [|split; [|split]]].
    - intros u ->%elem_of_list_singleton. destruct E0 as (v & Hv & _). eauto.
    - intros t ->%elem_of_list_singleton. eauto.
    - intros t ->%elem_of_list_singleton _. eauto.
    - intros _ u ->%elem_of_list_singleton _. eauto.
    - intros u p i j ->%elem_of_list_singleton _ Hu _ _. exists 0%N, 0%N. split; [done|]. split; [done|]. split; [done|].
      split; [done|]. left. by left. }
  destruct (partial_ok (fun _ _ => ord_rev) r h opts Hc (Ha i0 i2) Hg err (zero_solver err) (zero_solver_contract err) [0%N] [0%N] Had)
    as (_ & _ & _ & _ & _ & _ & l & Hnd & Hl & _).
  set (r' := set_tracks r (<[0%N := Track (t_est T) p1 (t_views T)]> (rc_tracks r))).
  destruct (adjust_reaches N err (fun _ _ => ord_rev) r h opts [0%N] [0%N] r' h l) as (solve & Hs & Er); [done|done|apply Ha| |done| |done|done| |].
  - intros p i. unfold h, ba_heap. rewrite lookup_insert_Some, lookup_singleton_Some.
    intros [[_ <-]|(_ & _ & <-)]; done.
  - split; [done|]. split; [|split].
    + intros u. cbn. destruct (rc_views r !! u) as [v|]; constructor. unfold view_frame. split_and!; intros; reflexivity.
    + intros t. unfold r'. cbn [rc_tracks set_tracks]. destruct (decide (t = 0%N)) as [->|Hne].
      * rewrite lookup_insert, HT. constructor. split; [done|]. split; [done|]. split; [done|].
        intros [Hn|Hn]; [|congruence]. destruct Hn. by left.
      * rewrite lookup_insert_ne by done. destruct (rc_tracks r !! t); constructor. unfold track_frame. split_and!; intros; reflexivity.
    + intros p. destruct (h !! p); constructor. unfold intrinsics_frame. split_and!; intros; reflexivity.
  - clear Hnd. assert (Hle : forall x, x ∈ l -> (observation_error err r' h x <= observation_error err r h x)%R).
    { intros [u t] Hx. unfold observation_error. cbn [fst snd]. unfold r'. cbn [rc_views rc_tracks set_tracks].
      destruct (rc_views r !! u) as [v|]; [|lra]. destruct (decide (t = 0%N)) as [->|Hne].
      - rewrite lookup_insert, HT. destruct (v_feats v !! 0%N), (h !! v_intr v); unfold err; lra.
      - rewrite lookup_insert_ne by done. lra. }
    clear -Hle. induction l as [|x l IH]; cbn; [lra|].
    assert (H1 := Hle x (elem_of_list_here _ _)). assert (H2 := IH (fun y Hy => Hle y (elem_of_list_further _ _ _ Hy))).
    unfold sum_of in H2. lra.
  - exists solve. eexists. split; [exact Hs|exact Er].
Qed.

(** C70.  Adjusting existing, estimated views and tracks may abort: a view that sees no estimated track (under the
    default choice of intrinsics), a track that no estimated view sees, and so the whole reconstruction. *)
Theorem adjust_may_abort_refuted : forall err, exists (r : recon N (list R) (list R)) h,
  consistent r /\ grouped r /\ allocated r h /\ is_Some (rc_views r !! 2%N) /\ est_view r 2 /\ is_Some (rc_tracks r !! 1%N) /\
  let opts := BaOptions false false (kFocalLength + kRadialDistortion) in
  bundle_adjust_view (fun _ _ => ord_id) r h opts (zero_solver err) 2 = CheckFail /\
  bundle_adjust_track (fun _ _ => ord_id) r h opts (zero_solver err) 1 = CheckFail /\
  bundle_adjust (fun _ _ => ord_id) r h opts (zero_solver err) = CheckFail.
Proof.
  intros err. destruct (ba_sample_facts [] [] []) as (r & E & Hc & Hg & Ha & S0 & S1 & S2 & S3 & E0 & E1 & E2 & F0 & F1 & U0 & U1 & U2 & DV & DT).
  set (h := ba_heap [] []). exists r, h. split; [done|]. split; [done|]. split; [apply Ha|].
  assert (V2 : is_Some (rc_views r !! 2%N)) by (destruct E2 as (v & Hv & _); eauto).
  assert (T1 : is_Some (rc_tracks r !! 1%N)) by (destruct F1 as (v & Hv & _); eauto).
  split; [done|]. split; [done|]. split; [done|]. intros opts.
  pose proof (fun vs ts => proj2 (adjust_returns_partial N err (zero_solver err) (fun _ _ => ord_id) r h opts vs ts Hc Hg (Ha [] [])
     (zero_solver_contract err))) as H.
  assert (Hv : forall vs ts, 2%N ∈ vs -> ~ adjustable opts vs ts r h).
  { intros vs ts Hin (_ & _ & _ & _ & Hi). destruct (Hi 2%N 2%N (Intrinsics Fisheye []) 1 Hin E2 U2) as (w & t & Hw & Hs & _).
    - reflexivity.
    - exists Aspect. split; reflexivity.
    - assert (w = 2%N) as ->; [|by apply (S2 t)].
      destruct Hw as (v & Hv & Hp). assert (Hd : w ∈ dom (rc_views r)) by (apply elem_of_dom; eauto). rewrite DV in Hd.
      rewrite !elem_of_union, !elem_of_singleton in Hd. destruct Hd as [[->| ->]| ->]; [| |done].
      + destruct U0 as (v' & Hv' & Hp'). congruence.
      + destruct U1 as (v' & Hv' & Hp'). congruence. }
  assert (Ht : forall vs ts, 1%N ∈ ts -> ~ adjustable opts vs ts r h).
  { intros vs ts Hin (_ & _ & Hi & _). destruct (Hi 1%N Hin F1) as (u & _ & Hs). by apply (S3 u). }
  split; [|split].
  - assert (E' : bundle_adjust_partial (fun _ _ => ord_id) r h opts (zero_solver err) [2%N] [] = CheckFail).
    { apply H, Hv. by left. }
    rewrite <- E'. unfold bundle_adjust_view, bundle_adjust_partial. cbn [run_steps mbind outcome_bind].
    by destruct (add_view _ r h ba_new 2).
  - assert (E' : bundle_adjust_partial (fun _ _ => ord_id) r h opts (zero_solver err) [] [1%N] = CheckFail).
    { apply H, Ht. by left. }
    rewrite <- E'. unfold bundle_adjust_track, bundle_adjust_partial. cbn [run_steps mbind outcome_bind].
    by destruct (add_track _ r h ba_new 1).
  - unfold bundle_adjust. apply H, Hv. rewrite ord_perm, elem_of_elements, DV, !elem_of_union, !elem_of_singleton. tauto.
Qed.
Print Assumptions adjust_may_abort_refuted.

(** Some parameters are kept, others are not. *)
Example kept_sample : constant_intrinsics PinholeRadialTangential (kFocalLength + kRadialDistortion) = [1; 2; 3; 4; 8; 9] /\
  constant_intrinsics FOV kAll = [] /\ constant_intrinsics Fisheye kNone = seq 0 9.
Proof. by vm_compute. Qed.
