(** C155: the orientations in hybrid reconstruction. *)
From stdpp Require Import gmap sorting strings.
From Coq Require Import Reals QArith_base Qreduction Qcanon Lra.
From Verif Require Import Base Reconstruction_Model ViewGraph_Model ViewGraph_Spec ViewGraph_Proofs SfmQueries_Model SfmQueries_Spec SfmQueries_Proofs SfmQueries_Props
  TrackEstimator_Model TrackEstimator_Spec TrackEstimator_Props TrackSelection_Model TrackSelection_Props
  VisibilityPyramid_Model VisibilityPyramid_Spec VisibilityPyramid_Props
  BundleAdjust_Model BundleAdjust_Spec BundleAdjust_Proofs BundleAdjust_Setup BundleAdjust_Result BundleAdjust_Props
  Localize_Model Localize_Spec Localize_Proofs Localize_Props Priors_Model Priors_Spec Priors_Props
  Incremental_Model Incremental_Spec Incremental_Proofs Incremental_Under Incremental_Steps Incremental_Props IncrementalCases_Props
  Hybrid_Model Hybrid_Spec Hybrid_Proofs Hybrid_Orient Hybrid_Props.

Section props.
Context {F P W : Type}.
Notation recon := (recon F (list R) (list R)).
Implicit Types (r : recon) (h : gmap N intrinsics) (s : inc F) (w : world F P W) (pw : pair_world F) (E : nat -> env F P W) (opts : inc_options) (priors : N -> prior).

(** C155: whatever the estimators, the nonlinear solver, the thread schedules and the iteration orders do, each view of a
    run that returns has the orientation that it started with, or one that was found by a localization that does not
    assume a known orientation.  No bundle adjustment changes an orientation, whatever the options say. *)
Theorem hybrid_keeps_orientations : forall w pw E opts min_two_view (ops : list (vg_op two_view)) priors og ov tree orientations oo grid fuel r h sizes s sm sizes',
  let graph := (vg_run vg_empty ops).1 in
  environment_ok E -> options_ok opts grid -> input_ok r h priors ->
  estimate_hybrid w pw E opts min_two_view graph priors og ov tree (Some orientations) oo grid fuel r h sizes = Ok (s, sm, sizes') ->
  forall u v, rc_views r !! u = Some v -> exists v', rc_views (n_recon s) !! u = Some v' /\
    (orientation v' = first_orientation orientations u v \/ localized_orientation E (orientation v')).
Proof.
  intros w pw E opts mt ops priors og ov tree orientations oo grid fuel r h sizes s sm sizes' graph HE HO HI Hrun.
  destruct (hybrid_frame w pw E opts mt ops priors og ov tree (Some orientations) oo grid fuel r h sizes s sm sizes' HE HO HI Hrun) as (Hobs & _).
  assert (Hin : forall u, is_Some (rc_views r !! u) -> is_Some (rc_views (n_recon s) !! u)).
  { clear Hrun. intros u [v Hv]. destruct Hobs as (_ & _ & _ & _ & _ & _ & K & _). specialize (K u). rewrite Hv in K. inversion K; subst. eauto. }
  enough (G : forall u v', rc_views (n_recon s) !! u = Some v' -> exists v, rc_views r !! u = Some v /\ (orientation v' = first_orientation orientations u v \/ localized_orientation E (orientation v'))).
  { clear Hrun. intros u v Hv. destruct (Hin u) as [v' Hv']; [by exists v|]. exists v'. split; [done|]. destruct (G u v' Hv') as (v0 & Hv0 & K). rewrite Hv in Hv0. injection Hv0 as ->. exact K. }
  clear Hobs Hin. destruct HE as (err & ferr & cerr & HE), HO as (O1 & O2 & O3 & O4), HI as (Hc & Hg & Ha & Hs & Hcr & H6 & Hn & Hp). revert Hrun.
  unfold estimate_hybrid. match goal with |- context [check (?a && ?b)] => destruct (a && b) end; cbn [check mbind outcome_bind]; [|intros K; discriminate K].
  destruct (priors_set_groups og ov priors r h sizes Hg Ha Hs Hcr Hp) as (r1 & h1 & s1 & -> & Hsame & Hg1 & Ha1 & _). cbn [mbind outcome_bind].
  destruct (same_but_facts r r1 Hsame) as (D1 & D2 & F1 & C1 & S1 & T1). pose proof (C1 Hc) as Hc1. pose proof (S1 H6) as H61.
  destruct tree; cbn [check mbind outcome_bind]; [|intros K; discriminate K].
  pose proof (hybrid_orientations orientations oo r1) as Hor. destruct (oriented_scene orientations r1 _ h1 H61 Hor) as (Hsc & Hfl & Htr). set (r2 := set_orientations orientations oo r1) in *.
  assert (Hfirst : forall u v2, rc_views r2 !! u = Some v2 -> exists v, rc_views r !! u = Some v /\ orientation v2 = first_orientation orientations u v).
  { intros u v2 Hv2. destruct Hor as [_ Hor]. rewrite Hor in Hv2. apply fmap_Some in Hv2 as (v1 & Hv1 & ->). destruct Hsame as (_ & _ & _ & _ & _ & _ & _ & K). specialize (K u). rewrite Hv1 in K.
    inversion K as [v x (Kn & Ke & Kd & Kf) E1 E2|]; subst. exists v. split; [done|]. symmetry in E1. unfold first_orientation, orientation. rewrite Ke. destruct (orientations !! u) as [o|]; [|by rewrite Kd]. destruct (v_est v); [by rewrite Kd|].
    cbn [v_data]. rewrite Kd, drop_app_alt; [done|]. rewrite take_length, (H6 u v E1). done. }
  destruct (decide _).
  { intros K. injection K as <- <- <-. cbn [n_recon]. intros u v2 Hv2. destruct (Hfirst u v2 Hv2) as (v & Hv & Eo). exists v. auto. }
  set (s0 := Inc r2 h1 (unestimated_views r) [] 0 grid 0). destruct (scene_dom _ _ _ _ Hsc) as (E1 & E2 & _).
  assert (Hinv : inv (constant_orientations opts) (views_graph r2) r2 h1 True s0).
  { split; [|split; [|split]].
    - split; [apply scene_refl|]. intros K. by apply O4.
    - split; [|split; [|split; [|split]]]; cbn; [|by intros u Hu%elem_of_nil|constructor|by intros u Hu%elem_of_nil|lia].
      intros u Hu. unfold unestimated_views in Hu. apply elem_of_filter in Hu as [_ Hu]. apply (proj2 (all_views opts r2 O1 u)). rewrite <- elem_of_dom, E2, D1. done.
    - by right.
    - intros u (v & Hu & _). left. apply (proj2 (all_views opts r2 O1 u)). by exists v. }
  assert (Ht : safe True (hybrid_from w pw E opts mt graph (filter (fun u => is_Some (p_focal (priors u))) (dom (rc_views r1))) s1 orientations fuel s0) (fun x => turn E (n_recon s0) (n_recon x.1))).
  { apply (hybrid_from_turn w pw E opts mt graph _ s1 orientations err ferr cerr HE r2 h1); [by eapply scene_consistent|by eapply scene_grouped|by eapply scene_allocated|by eapply scene_six|by rewrite E1, D2|done|done|done| |exact Hinv|done|done].
    intros p Hp'. by apply (graph_edges ops). }
  destruct (hybrid_from _ _ _ _ _ _ _ _ _ _ _) as [[s' sm']| | |]; cbn [mbind outcome_bind safe fst] in *; [|intros K; discriminate K|intros K; discriminate K|intros K; discriminate K].
  intros K. injection K as <- <- <-. intros u v' Hv'. destruct (Ht u v' Hv') as (v2 & Hv2 & K). destruct (Hfirst u v2 Hv2) as (v & Hv & Eo). exists v. split; [done|]. destruct K as [K|K]; [left|by right]. unfold orientation in *. congruence.
Qed.
(** If localization without a known orientation never succeeds, all orientations are exactly the ones of the start. *)
Theorem hybrid_exact_orientations : forall w pw E opts min_two_view (ops : list (vg_op two_view)) priors og ov tree orientations oo grid fuel r h sizes s sm sizes',
  let graph := (vg_run vg_empty ops).1 in
  environment_ok E -> options_ok opts grid -> input_ok r h priors ->
  (forall n th ms, e_ok (e_calibrated (E n) th ms) = false /\ e_ok (e_uncalibrated (E n) th ms) = false) ->
  estimate_hybrid w pw E opts min_two_view graph priors og ov tree (Some orientations) oo grid fuel r h sizes = Ok (s, sm, sizes') ->
  forall u v, rc_views r !! u = Some v -> exists v', rc_views (n_recon s) !! u = Some v' /\ orientation v' = first_orientation orientations u v.
Proof.
  intros w pw E opts mt ops priors og ov tree orientations oo grid fuel r h sizes s sm sizes' graph HE HO HI Hno Hrun u v Hv.
  destruct (hybrid_keeps_orientations w pw E opts mt ops priors og ov tree orientations oo grid fuel r h sizes s sm sizes' HE HO HI Hrun u v Hv) as (v' & Hv' & [K|(n & th & ms & [[K _]|[K _]])]); [by exists v'| |]; exfalso; clear Hrun; destruct (Hno n th ms) as [K1 K2]; congruence.
Qed.
(** The search for the initial pair, with all its triangulations and bundle adjustments, changes no orientation at all,
    whether it succeeds or not. *)
Theorem hybrid_initial_orientations : forall w pw E opts min_two_view (ops : list (vg_op two_view)) orientations s s' ok,
  let graph := (vg_run vg_empty ops).1 in
  environment_ok E -> options_ok opts (n_grid s) -> consistent (n_recon s) -> grouped (n_recon s) -> allocated (n_recon s) (n_heap s) -> six (n_recon s) ->
  (Z.of_nat (size (dom (rc_tracks (n_recon s)))) < 2 ^ 31)%Z ->
  choose_initial_hybrid w pw E opts min_two_view graph orientations s = Ok (s', ok) ->
  forall u v', rc_views (n_recon s') !! u = Some v' -> exists v, rc_views (n_recon s) !! u = Some v /\ orientation v' = orientation v.
Proof.
  intros w pw E opts mt ops orientations s s' ok graph (err & ferr & cerr & HE) (O1 & O2 & O3 & O4) Hc Hg Ha H6 Hn Hrun.
  assert (Hgood : good (constant_orientations opts) (n_recon s) (n_heap s) s). { split; [apply scene_refl|]. intros K. by apply O4. }
  assert (Hgr : forall p, is_Some (vg_edges graph !! p) -> (p.1 < p.2)%N) by (intros p Hp'; by apply (graph_edges ops)).
  pose proof (choose_initial_still w pw E opts mt graph orientations err ferr cerr HE (n_recon s) (n_heap s) Hc Hg Ha H6 Hn O1 O2 O3 Hgr s Hgood) as H. rewrite Hrun in H. exact H.
Qed.
End props.
Print Assumptions hybrid_keeps_orientations.
Print Assumptions hybrid_exact_orientations.
Print Assumptions hybrid_initial_orientations.

(** A successful run after which view 1 has the orientation of the rotation estimation. *)
Example hybrid_keeps_orientations_sample : exists r s sm sizes v, input_ok r scene_heap (fun _ => plain_prior) /\
  sample_run (graph_ops 101) two_orientations r = Ok (s, sm, sizes) /\ is_success sm = true /\ elements (is_views sm) = [0; 1]%N /\
  rc_views (n_recon s) !! 1%N = Some v /\ orientation v = [0; 1; 0]%R.
Proof.
  destruct (scene_exists (many 101) [false; false; true; true] false (fun r => v_est <$> rc_views r !! 1%N = Some false /\
    match sample_run (graph_ops 101) two_orientations r with
    Ok (s, sm, _) => is_success sm = true /\ elements (is_views sm) = [0; 1]%N | _ => False end)) as (r & _ & H1 & H2 & H4).
  - vm_compute. reflexivity.
  - vm_compute. repeat split.
  - apply fmap_Some in H2 as (v1 & V1 & K1). pose proof (hybrid_exact_orientations flat_world near_pair (fun _ => @still_env N unit unit) easy_options 30 (graph_ops 101)
      (fun _ => plain_prior) ord_id (fun _ => ord_id) true two_orientations ord_id None 1 r scene_heap ∅) as T.
    cbv zeta in T. exists r. destruct (sample_run (graph_ops 101) two_orientations r) as [[[s sm] sizes]| | |]; [|destruct H4|destruct H4|destruct H4].
    destruct (T s sm sizes still_ok (easy_ok None) H1 ltac:(intros n th ms; split; reflexivity) eq_refl 1%N v1 V1) as (v & Hv & Ho). exists s, sm, sizes, v. split; [exact H1|]. split; [reflexivity|]. destruct H4 as [A1 A2]. split; [exact A1|]. split; [exact A2|]. split; [exact Hv|].
    rewrite Ho. unfold first_orientation, two_orientations. rewrite lookup_insert_ne by done. rewrite lookup_singleton, <- K1. reflexivity.
Qed.
