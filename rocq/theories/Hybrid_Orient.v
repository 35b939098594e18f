(** Proofs about the orientations in hybrid reconstruction. *)
From stdpp Require Import gmap sorting.
From Coq Require Import Reals QArith_base Qcanon.
From Verif Require Import Base Reconstruction_Model ViewGraph_Model SfmQueries_Model SfmQueries_Spec SfmQueries_Proofs SfmQueries_Props
  TrackEstimator_Model TrackEstimator_Spec TrackEstimator_Props TrackSelection_Model TrackSelection_Props
  VisibilityPyramid_Model VisibilityPyramid_Spec VisibilityPyramid_Props
  BundleAdjust_Model BundleAdjust_Spec BundleAdjust_Proofs BundleAdjust_Setup BundleAdjust_Result BundleAdjust_Props
  Localize_Model Localize_Spec Localize_Proofs Localize_Props Priors_Model Incremental_Model Incremental_Spec Incremental_Proofs Incremental_Under Incremental_Steps
  Hybrid_Model Hybrid_Spec Hybrid_Proofs.

Section orient.
Context {F P W : Type}.
Notation recon := (recon F (list R) (list R)).
Notation heap := (gmap N intrinsics).
Notation inc := (inc F).
Implicit Types (r : recon) (h : heap) (s : inc).
Context (w : world F P W) (pw : pair_world F) (E : nat -> env F P W) (opts0 : inc_options) (min_two_view : Z) (graph : view_graph two_view)
  (focal_priors : gset N) (sizes : gmap N (Z * Z)) (orientations : gmap N (R * R * R)).
Notation opts := (constant_orientations opts0).
Context (err : pose_error (P:=P) (W:=W)) (ferr : focal_error (P:=P) (W:=W)) (cerr : model_type -> F -> list R -> list R -> list R -> R).
Context (HE : forall n, pose_contract err ferr (e_with_orientation (E n)) (e_calibrated (E n)) (e_uncalibrated (E n)) /\ ceres_contract cerr (e_solve (E n))).
Context (r0 : recon) (h0 : heap) (Hc0 : consistent r0) (Hg0 : grouped r0) (Ha0 : allocated r0 h0) (H60 : six r0).
Context (Hn0 : (Z.of_nat (size (dom (rc_tracks r0))) < 2 ^ 31)%Z).
Context (Hmin : (1 <= io_min_inliers opts < 2 ^ 31)%Z) (Hthreads : (1 <= eo_threads (io_triangulation opts))%Z) (Hstep : (1 <= eo_step (io_triangulation opts))%Z).
Context (Hgraph : forall p, is_Some (vg_edges graph !! p) -> (p.1 < p.2)%N).
Notation good := (good opts r0 h0).
Notation vgraph := (views_graph r0).
Notation inv := (inv opts vgraph r0 h0 True).
Notation found := (localized_orientation E).

(** All orientations are the same; or some have been found by a localization. *)
Definition still r r' : Prop := forall u v', rc_views r' !! u = Some v' -> exists v, rc_views r !! u = Some v /\ drop 3 (v_data v') = drop 3 (v_data v).
Definition turn r r' : Prop := forall u v', rc_views r' !! u = Some v' -> exists v, rc_views r !! u = Some v /\
  (drop 3 (v_data v') = drop 3 (v_data v) \/ found (drop 3 (v_data v'))).
Lemma still_same r r' : rc_views r' = rc_views r -> still r r'.
Proof. intros H u v' Hv. rewrite H in Hv. by exists v'. Qed.
Lemma still_trans r1 r2 r3 : still r1 r2 -> still r2 r3 -> still r1 r3.
Proof. intros A B u v3 H3. destruct (B u v3 H3) as (v2 & H2 & E2). destruct (A u v2 H2) as (v1 & H1 & E1). exists v1. split; [done|congruence]. Qed.
Lemma still_turn r r' : still r r' -> turn r r'.
Proof. intros A u v' Hv. destruct (A u v' Hv) as (v & H & K). exists v. auto. Qed.
Lemma turn_trans r1 r2 r3 : turn r1 r2 -> turn r2 r3 -> turn r1 r3.
Proof. intros A B u v3 H3. destruct (B u v3 H3) as (v2 & H2 & E2). destruct (A u v2 H2) as (v1 & H1 & E1). exists v1. split; [done|]. destruct E2 as [E2|]; [rewrite E2; done|by right]. Qed.
Lemma still_set_view r u v est d : rc_views r !! u = Some v -> drop 3 d = drop 3 (v_data v) -> still r (set_view r u est d).
Proof.
  intros Hv Hd x v' Hx. unfold set_view in Hx. cbn [rc_views set_views] in Hx. destruct (decide (x = u)) as [->|N].
  - rewrite lookup_alter, Hv in Hx. cbn in Hx. injection Hx as <-. by exists v.
  - rewrite lookup_alter_ne in Hx by done. by exists v'.
Qed.
Lemma turn_set_view r u v est d : rc_views r !! u = Some v -> found (drop 3 d) -> turn r (set_view r u est d).
Proof.
  intros Hv Hd x v' Hx. unfold set_view in Hx. cbn [rc_views set_views] in Hx. destruct (decide (x = u)) as [->|N].
  - rewrite lookup_alter, Hv in Hx. cbn in Hx. injection Hx as <-. exists v. by auto.
  - rewrite lookup_alter_ne in Hx by done. exists v'. auto.
Qed.
Lemma still_cleared r r' us ts : flags_cleared r r' us ts -> still r r'.
Proof. intros (_ & H & _) u v' Hv'. rewrite H in Hv'. apply fmap_Some in Hv' as (v & Hv & ->). by exists v. Qed.

(** Bundle adjustment. *)
Lemma adjust_still s views tracks : good s -> safe True (adjust E opts s views tracks) (fun x => still (n_recon s) (n_recon x.1)).
Proof.
  intros Hg. destruct (good_facts opts r0 h0 Hc0 Hg0 Ha0 H60 s Hg) as (Hc & Hgr & Ha & H6 & _). unfold adjust. set (e := E (n_tick s)). destruct (HE (n_tick s)) as [_ Hs]. fold e in Hs.
  destruct (bundle_adjust_partial _ _ _ _ _ _ _) as [[[r h] sm]| | |] eqn:Eb; [|done|done|done]. cbn [mbind outcome_bind safe fst n_recon with_heap].
  destruct (adjust_changes_only F cerr (e_solve e) (e_ba_orders e) (n_recon s) (n_heap s) (io_ba opts) _ _ r h sm Hc Hgr Ha Hs Eb) as [(_ & Hv & _) _]. clear Eb.
  intros u v' Hv'. specialize (Hv u). rewrite Hv' in Hv. inversion Hv as [v ? Hf E1 E2|]; subst. exists v. split; [done|]. destruct Hf as (_ & _ & _ & _ & Hl & _ & _ & Ho & _).
  apply list_eq. intros i. rewrite !lookup_drop. destruct (decide (3 + i < 6)%nat) as [K|K]; [apply Ho; [done|lia]|]. symmetry in E1. rewrite !lookup_ge_None_2; [done|rewrite (H6 u v E1); lia|rewrite Hl, (H6 u v E1); lia].
Qed.
Lemma remove_outliers_still s ids m : good s -> (forall t, t ∈ ids -> is_Some (rc_tracks (n_recon s) !! t)) -> safe True (remove_outliers w E opts s ids m) (fun s' => still (n_recon s) (n_recon s')).
Proof. intros Hg Hi. eapply safe_weaken; [by apply (remove_outliers_safe w E opts r0 h0 Hc0 Hg0 Ha0 H60 True)|]. intros s' (_ & _ & H & _). by apply still_same. Qed.
Lemma full_still s : good s -> safe True (full_adjustment w E opts s) (fun x => still (n_recon s) (n_recon x.1)).
Proof.
  intros Hg. unfold full_adjustment. set (e := E (n_tick s)).
  eapply (safe_bind True _ _ (fun x => keep opts r0 h0 s x.1 /\ rc_views (n_recon x.1) = rc_views (n_recon s))).
  - destruct (io_subsample opts) eqn:Hsub.
    + destruct (good_facts opts r0 h0 Hc0 Hg0 Ha0 H60 s Hg) as (Hc & _). pose proof (proj2 Hg Hsub) as Hne.
      destruct (selection_coverage_partial F (list R) (list R) (g_error (w_geometry w (n_heap s))) (w_position w) (e_order e) (e_cells e) (n_recon s) (estimated_views (e_order e) (n_recon s))
        (io_track_length opts) (io_cell_size opts) (io_min_tracks opts) (n_grid s) ∅ Hc) as (st' & chosen & Es & _ & _ & _ & _ & Hst); [|done|].
      { intros u (v & Hv & _)%estimated_views_lemma. by exists v. }
      unfold select_tracks. rewrite Es. cbn [mbind outcome_bind safe fst].
      destruct (set_tracks_in_views_ok (e_order e) (n_reconstructed s) chosen (n_recon s)) as (ts & Hcl & _).
      destruct (tracks_cleared_scene _ (n_heap s) _ _ Hcl) as [H1 H2]. split.
      * split; [|done]. split; [eapply scene_trans; [apply Hg|done]|]. cbn. eapply select_grid_ok; [done|apply Hg|done].
      * cbn [n_recon with_recon]. destruct Hcl as [-> _]. done.
    + cbn [safe fst]. split; [|done]. split; [|done]. done.
  - intros [s1 tracks] [Hk Hf]. cbn [fst] in *. eapply safe_bind; [apply safe_and; [apply (adjust_safe E opts err ferr cerr HE r0 h0 Hc0 Hg0 Ha0 H60 True s1); apply Hk|apply adjust_still; apply Hk]|]. intros [s2 ok] [[Hk2 _] Hs2]. cbn [fst] in *.
    set (s3 := with_views s2 (n_unlocalized s2) (n_reconstructed s2) (Z.of_nat (length (n_reconstructed s2)))).
    assert (Hg3 : good s3) by apply Hk2. eapply safe_bind; [apply (remove_outliers_still s3); [done|]|].
    { intros t Ht. by apply elem_of_dom. }
    intros s4 H4. cbn [safe fst]. eapply still_trans; [apply (still_same _ _ Hf)|]. by eapply still_trans.
Qed.
Lemma partial_still s : good s -> (forall u, u ∈ n_reconstructed s -> is_Some (rc_views r0 !! u)) -> safe True (partial_adjustment w E opts s) (fun x => still (n_recon s) (n_recon x.1)).
Proof.
  intros Hg Hrec. unfold partial_adjustment. set (e := E (n_tick s)). set (k := Z.to_nat _). set (views := list_to_set _ : gset N).
  assert (Hviews : forall u, u ∈ views -> is_Some (rc_views r0 !! u)).
  { intros u Hu. apply elem_of_list_to_set in Hu. apply Hrec. eapply elem_of_submseteq; [exact Hu|]. apply sublist_submseteq, sublist_drop. }
  eapply (safe_bind True _ _ (fun x => keep opts r0 h0 s x.1 /\ rc_views (n_recon x.1) = rc_views (n_recon s) /\ forall t, t ∈ x.2 -> is_Some (rc_tracks (n_recon s) !! t))).
  - destruct (io_subsample opts) eqn:Hsub.
    + destruct (good_facts opts r0 h0 Hc0 Hg0 Ha0 H60 s Hg) as (Hc & _). pose proof (proj2 Hg Hsub) as Hne.
      destruct (selection_coverage_partial F (list R) (list R) (g_error (w_geometry w (n_heap s))) (w_position w) (e_order e) (e_cells e) (n_recon s) views
        (io_track_length opts) (io_cell_size opts) (io_min_tracks opts) (n_grid s) ∅ Hc) as (st' & chosen & Es & _ & Hch & _ & _ & Hst); [|done|].
      { intros u Hu. apply (good_view opts r0 h0 Hc0 Hg0 Ha0 H60 s u Hg). by apply Hviews. }
      rewrite Es. cbn [mbind outcome_bind safe fst snd].
      destruct (set_tracks_in_views_ok (e_order e) (e_order e (elements views)) chosen (n_recon s)) as (ts & Hcl & _).
      destruct (tracks_cleared_scene _ (n_heap s) _ _ Hcl) as [H1 H2]. split; [|split].
      * split; [|done]. split; [eapply scene_trans; [apply Hg|done]|]. cbn. eapply select_grid_ok; [done|apply Hg|done].
      * cbn [n_recon with_recon]. destruct Hcl as [-> _]. done.
      * intros t Ht. destruct (Hch t Ht) as [[]%elem_of_empty|[(T & HT & _) _]]. by exists T.
    + eapply safe_bind; [apply (tracks_in_views_safe opts r0 h0 Hc0 Hg0 Ha0 H60 True (e_order e) s views Hg Hviews)|]. intros ts Hts. cbn [safe fst snd].
      split; [|split; [done|done]]. split; [|done]. done.
  - intros [s1 tracks] (Hk & Hf & Ht). cbn [fst snd] in *. eapply safe_bind; [apply safe_and; [apply (adjust_safe E opts err ferr cerr HE r0 h0 Hc0 Hg0 Ha0 H60 True s1); apply Hk|apply adjust_still; apply Hk]|]. intros [s2 ok] [[Hk2 _] Hs2]. cbn [fst] in *.
    eapply safe_bind; [apply (remove_outliers_still s2); [apply Hk2|]|].
    { intros t Htt. apply (keep_track opts r0 h0 Hc0 Hg0 Ha0 H60 s s2); [done|apply Hk2|by apply Ht]. }
    intros s3 H3. cbn [safe fst]. eapply still_trans; [apply (still_same _ _ Hf)|]. by eapply still_trans.
Qed.
Lemma underconstrained_still s : inv s -> safe True (set_underconstrained E vgraph s) (fun s' => still (n_recon s) (n_recon s')).
Proof.
  intros Hi. destruct Hi as (Hg & (S1 & S2 & S3 & S4 & S5) & _). destruct (good_facts opts r0 h0 Hc0 Hg0 Ha0 H60 s Hg) as (Hc & _).
  destruct (set_underconstrained_cases E vgraph s Hc S3 S4) as (r' & us & ts & Hf & _ & _ & _ & _ & _ & [(s' & Es & B1 & _)|(Es & _)]); rewrite Es; cbn [safe]; [|done].
  rewrite B1. by eapply still_cleared.
Qed.
Lemma extend_still s u : inv s -> u ∈ n_unlocalized s -> safe True (extend w E opts vgraph s u) (fun x => still (n_recon s) (n_recon x.1)).
Proof.
  intros (Hg & (S1 & S2 & S3 & S4 & S5) & Hcov & Hon) Hu. unfold extend. set (s1 := with_views s _ _ _). pose proof (S1 u Hu) as HuG. pose proof (graph_views_view vgraph r0 u HuG) as Hu0.
  assert (Hg1 : good s1) by exact Hg.
  assert (I1 : inv s1).
  { split; [done|]; split; [|split; [by right|done]].
    split; [intros x Hx; cbn [n_unlocalized s1 with_views] in Hx; apply elem_of_difference in Hx as [Hx _]; by apply S1|]. cbn [n_unlocalized n_reconstructed n_optimized s1 with_views]. split; [|split; [|split]].
    + intros x [Hx|Hx]%elem_of_app; [by apply S2|]. apply elem_of_list_singleton in Hx as ->. done.
    + apply NoDup_app. split; [done|]. split; [|apply NoDup_singleton]. intros x Hx Hx'. apply elem_of_list_singleton in Hx' as ->. by apply (S4 u).
    + intros x [Hx|Hx]%elem_of_app Hx'; apply elem_of_difference in Hx' as [K1 K2]; [by apply (S4 x)|]. apply elem_of_list_singleton in Hx as ->. by apply K2, elem_of_singleton.
    + rewrite app_length. cbn. lia. }
  change (n_recon s) with (n_recon s1). destruct (proj1 (good_view opts r0 h0 Hc0 Hg0 Ha0 H60 s1 u Hg1) Hu0) as [v Hv]. cbn [n_recon s1 with_views] in Hv |- *. rewrite Hv. cbn [or_ub mbind outcome_bind].
  eapply safe_bind; [apply (remove_outliers_safe w E opts r0 h0 Hc0 Hg0 Ha0 H60 True s1); [done|]|].
  { intros t Ht. apply elem_of_list_to_set in Ht. rewrite ord_perm, elem_of_elements, elem_of_dom in Ht. apply (sees_tracks opts r0 h0 Hc0 Hg0 Ha0 H60 s1 u t Hg1). by exists v. }
  intros s2 (Hk2 & _ & V2 & _). pose proof (keep_inv _ _ _ _ _ _ _ Hk2 I1) as I2. pose proof (still_same (n_recon s1) (n_recon s2) V2) as Z2. cbn [n_recon s1 with_views] in Z2.
  eapply (safe_bind True _ _ (fun x => inv x.1 /\ still (n_recon s) (n_recon x.1))).
  - destruct Hk2 as (Hg2 & _ & U2 & R2 & O2). destruct (growth_below _ _ _).
    + eapply safe_bind; [by apply (estimate_structure_safe w E opts r0 h0 Hc0 Hg0 Ha0 H60 Hn0 Hthreads Hstep True s2 u)|]. intros s3 (Hk3 & _ & V3 & _). pose proof (keep_inv _ _ _ _ _ _ _ Hk3 I2) as I3.
      assert (Hr3 : forall x, x ∈ n_reconstructed s3 -> is_Some (rc_views r0 !! x)) by (intros x Hx; apply (graph_views_view vgraph); by apply I3).
      eapply safe_weaken; [apply safe_and; [apply (partial_adjustment_safe w E opts err ferr cerr HE r0 h0 Hc0 Hg0 Ha0 H60 True s3); [apply I3|exact Hr3]|apply partial_still; [apply I3|exact Hr3]]|].
      intros [s4 ok] [[Hk4 _] Z4]. cbn [fst] in *. split; [by eapply keep_inv|]. eapply still_trans; [exact Z2|]. eapply still_trans; [apply (still_same _ _ V3)|exact Z4].
    + eapply safe_bind; [by apply (estimate_everything_safe w E opts r0 h0 Hc0 Hg0 Ha0 H60 Hn0 Hthreads Hstep True s2)|]. intros s3 (Hk3 & _ & V3 & _). pose proof (keep_inv _ _ _ _ _ _ _ Hk3 I2) as I3.
      eapply safe_weaken; [apply safe_and; [apply (full_adjustment_safe w E opts err ferr cerr HE r0 h0 Hc0 Hg0 Ha0 H60 True s3); apply I3|apply full_still; apply I3]|]. intros [s4 ok] [(Hg4 & F4 & _ & U4 & R4 & O4) Z4]. cbn [fst] in *.
      destruct I3 as (_ & (T1 & T2 & T3 & T4 & T5) & C3 & Og3). split.
      * split; [done|]. unfold sets_ok, covered, only_graph. rewrite U4, R4, O4.
        split; [split; [done|]; split; [done|]; split; [done|]; split; [done|]; lia|]. split; [done|]. intros x Hx. apply Og3. by apply (F4 x).
      * eapply still_trans; [exact Z2|]. eapply still_trans; [apply (still_same _ _ V3)|exact Z4].
  - intros [s4 ok] (I4 & Z4). cbn [fst] in *. eapply safe_bind; [by apply (underconstrained_still s4)|]. intros s5 Z5. cbn [safe fst]. by eapply still_trans.
Qed.
(** ChooseInitialViewPair. *)
Lemma pair_still s p v1 v2 (x : R * R * R) h : rc_views (n_recon s) !! p.1 = Some v1 -> rc_views (n_recon s) !! p.2 = Some v2 ->
  still (n_recon s) (n_recon (with_heap s (set_view (set_view (n_recon s) p.1 true (v_data v1)) p.2 true (set_position (vec3 x) (v_data v2))) h)).
Proof.
  intros H1 H2. cbn [n_recon with_heap]. pose proof (still_set_view (n_recon s) p.1 v1 true (v_data v1) H1 eq_refl) as S1. set (r1 := set_view (n_recon s) p.1 true (v_data v1)) in *.
  assert (K : exists v, rc_views r1 !! p.2 = Some v /\ v_data v = v_data v2).
  { unfold r1, set_view. cbn [rc_views set_views]. destruct (decide (p.1 = p.2)) as [Ep|Ep].
    - rewrite Ep in *. rewrite lookup_alter, H2. cbn. eexists. split; [done|]. cbn. congruence.
    - rewrite lookup_alter_ne by done. by exists v2. }
  destruct K as (v & Hv & Ev). eapply still_trans; [exact S1|]. eapply still_set_view; [exact Hv|]. rewrite Ev. unfold set_position. done.
Qed.
Lemma initialize_known_still s p : safe True (initialize_known pw min_two_view orientations s p) (fun x => still (n_recon s) (n_recon x.1)).
Proof.
  unfold initialize_known. destruct (decide _) as [_|_]; [by apply still_same|]. destruct (rc_views (n_recon s) !! p.1) as [v1|] eqn:H1; [|done]. destruct (rc_views (n_recon s) !! p.2) as [v2|] eqn:H2; [|done].
  cbn [or_ub mbind outcome_bind]. destruct (pw_relative _ _ _ _ _) as [[x n]|]; [|by apply still_same]. cbn [safe fst]. by apply pair_still.
Qed.
Lemma initialize_two_view_still s p info : safe True (initialize_two_view pw orientations s p info) (fun x => still (n_recon s) (n_recon x.1)).
Proof.
  unfold initialize_two_view. destruct (decide _); [by apply still_same|]. destruct (rc_views (n_recon s) !! p.1) as [v1|] eqn:H1; [|done]. destruct (rc_views (n_recon s) !! p.2) as [v2|] eqn:H2; [|done].
  cbn [or_ub mbind outcome_bind]. eapply (safe_bind True _ _ (fun _ => True)); [eapply safe_weaken; [apply set_focal_safe|done]|]. intros h1 _. eapply (safe_bind True _ _ (fun _ => True)); [eapply safe_weaken; [apply set_focal_safe|done]|]. intros h2 _.
  cbn [safe fst]. by apply pair_still.
Qed.
Lemma choose_loop_still pairs : forall s, good s -> Forall (pair_ok graph r0 True) pairs ->
  safe True (choose_loop_hybrid w pw E opts0 min_two_view graph orientations s pairs) (fun x => still (n_recon s) (n_recon x.1)).
Proof.
  induction pairs as [|p pairs IH]; intros s Hg Hps; [by apply still_same|]. apply Forall_cons in Hps as [(Hne & [info Hi] & Hex) Hps]. cbn [choose_loop_hybrid].
  destruct (set_unestimated_ok (e_order (E (n_tick s))) (n_recon s) (n_heap s)) as (U1 & _ & _ & U4). set (r1 := set_unestimated _ _) in *.
  set (s1 := with_recon s r1). assert (Hg1 : good s1). { destruct Hg as [G1 G2]. split; [by eapply scene_trans|done]. }
  assert (S1 : still (n_recon s) (n_recon s1)).
  { intros u v' Hv'. destruct (proj1 (U4 u (v_data v'))) as (v & Hv & Ev); [by exists v'|]. exists v. split; [done|]. by rewrite Ev. }
  rewrite Hi. cbn [or_ub mbind outcome_bind].
  assert (Hlater : forall s4, good s4 -> still (n_recon s) (n_recon s4) -> safe True (choose_loop_hybrid w pw E opts0 min_two_view graph orientations s4 pairs) (fun x => still (n_recon s) (n_recon x.1))).
  { intros s4 Hg4 S4. eapply safe_weaken; [by apply IH|]. intros x Hx. by eapply still_trans. }
  eapply safe_bind; [apply safe_and; [apply (initialize_known_safe pw opts0 min_two_view orientations r0 h0 Hc0 Hg0 Ha0 H60 Hmin True s1 p Hg1 Hne Hex)|apply initialize_known_still]|].
  intros [s2 ok2] [I2 S2]. cbn [fst snd] in *.
  eapply (safe_bind True _ _ (fun x => (good x.1 /\ (x.2 = true -> is_Some (rc_views r0 !! p.1))) /\ still (n_recon s) (n_recon x.1))).
  { destruct ok2; [destruct I2 as (B1 & _ & _ & _ & B2); cbn; split; [split; [done|intros _; by apply B2]|by eapply still_trans]|]. destruct I2 as (B1 & _).
    eapply safe_weaken; [apply safe_and; [apply (initialize_two_view_safe pw opts0 orientations r0 h0 Hc0 Hg0 Ha0 H60 Hmin True s2 p info B1 Hne Hex)|apply initialize_two_view_still]|].
    intros [s3 ok3] [(D1 & _ & _ & _ & D2) S3]. cbn [fst snd] in *. split; [split; [done|intros K; by apply D2]|]. eapply still_trans; [exact S1|]. by eapply still_trans. }
  clear s2 ok2 I2 S2. intros [s2 ok2] ((Hg2 & Hp1) & S2). cbn [fst snd] in *. destruct ok2; cbn [negb]; [|by apply Hlater].
  eapply safe_bind; [apply (estimate_structure_safe w E opts r0 h0 Hc0 Hg0 Ha0 H60 Hn0 Hthreads Hstep True s2 p.1); [done|by apply Hp1]|].
  intros s3 ((Hg3 & _) & _ & V3 & _). assert (S3 : still (n_recon s) (n_recon s3)) by (eapply still_trans; [exact S2|by apply still_same]).
  destruct (decide _) as [_|_]; [by apply Hlater|].
  eapply safe_bind; [apply safe_and; [by apply (full_adjustment_safe w E opts err ferr cerr HE r0 h0 Hc0 Hg0 Ha0 H60 True s3)|by apply full_still]|]. intros [s4 ok] [(Hg4 & _) S4]. cbn [fst] in *.
  assert (S5 : still (n_recon s) (n_recon s4)) by (by eapply still_trans). destruct ok; cbn [negb]; [|by apply Hlater]. destruct (decide _) as [_|_]; [exact S5|by apply Hlater].
Qed.
Lemma choose_initial_still s : good s -> safe True (choose_initial_hybrid w pw E opts0 min_two_view graph orientations s) (fun x => still (n_recon s) (n_recon x.1)).
Proof.
  intros Hg. unfold choose_initial_hybrid. eapply safe_bind; [by apply (order_hybrid_safe pw E opts0 graph orientations r0 h0 Hc0 Hg0 Ha0 H60 True (or_intror I))|]. intros l (cs & -> & _ & Hcs & _).
  apply choose_loop_still; [done|]. apply Forall_forall. intros p Hp. apply elem_of_list_fmap in Hp as (c & -> & Hc). rewrite merge_sort_Permutation in Hc. destruct (Hcs c Hc) as (i & Hi & _).
  pose proof (Hgraph c.2 ltac:(by exists i)) as Hlt. split; [lia|]. split; [|by right]. unfold view_id_pair. rewrite decide_True by done. destruct c.2 as [a b]. cbn. by exists i.
Qed.

(** LocalizeView. *)
Lemma localize_with_turn known s u s' ok : good s -> localize_with w E opts0 focal_priors sizes known s u = Ok (s', ok) -> turn (n_recon s) (n_recon s').
Proof.
  intros Hg Hl. destruct (good_facts opts r0 h0 Hc0 Hg0 Ha0 H60 s Hg) as (_ & _ & _ & H6 & _). destruct (HE (n_tick s)) as [(P1 & P2 & P3) _]. unfold localize_with in Hl.
  apply bind_Ok in Hl as ([[[ok' inl'] r'] h'] & Hl & K). injection K as <- _. cbn [n_recon with_heap]. unfold localize in Hl. apply bind_Ok in Hl as (kn & _ & Hl). apply bind_Ok in Hl as ([[[ok1 inl1] r1] h1] & He & Hl).
  assert (T1 : turn (n_recon s) r1).
  { clear Hl. unfold estimate_camera_pose in He. destruct (rc_views (n_recon s) !! u) as [v|] eqn:Hv; cbn [or_ub mbind outcome_bind] in He; [|discriminate He]. pose proof (H6 u v Hv) as L6.
    apply bind_Ok in He as (i & _ & He). apply bind_Ok in He as (ms & _ & He). destruct (decide _) in He; [injection He as _ _ <- _; by apply still_turn, still_same|]. cbv zeta in He.
    assert (Hfound : forall e : estimate, length (e_position e) = 3%nat -> drop 3 (set_position (e_position e) (set_orientation (e_orientation e) (v_data v))) = e_orientation e).
    { intros e L. unfold set_position, set_orientation. rewrite drop_app_alt by done. rewrite drop_app_alt; [done|]. rewrite take_length. lia. }
    destruct (lo_known_orientation _) in He.
    - destruct (e_ok _) eqn:Eok in He; cbn [andb] in He; [|injection He as _ _ <- _; by apply still_turn, still_same]. destruct (bool_decide _) in He; injection He as _ _ <- _; [|by apply still_turn, still_same].
      apply still_turn. eapply still_set_view; [exact Hv|]. unfold set_position. rewrite drop_app_alt; [done|]. symmetry. by apply (P1 _ _ _ Eok).
    - destruct kn.
      + destruct (e_ok _) eqn:Eok in He; injection He as _ _ <- _; [|by apply still_turn, still_same]. eapply turn_set_view; [exact Hv|]. rewrite Hfound by (by apply (P2 _ _ Eok)). eexists _, _, _. left. split; [exact Eok|done].
      + destruct (e_ok _) eqn:Eok in He; [|injection He as _ _ <- _; by apply still_turn, still_same]. apply bind_Ok in He as (h2 & _ & He). injection He as _ _ <- _.
        eapply turn_set_view; [exact Hv|]. rewrite Hfound by (by apply (P3 _ _ Eok)). eexists _, _, _. right. split; [exact Eok|done]. }
  clear He. destruct (negb ok1 || _) in Hl; [injection Hl as _ _ <- _; exact T1|]. destruct (rc_views r1 !! u) as [v|] eqn:Hv; cbn [or_ub mbind outcome_bind] in Hl; [|discriminate Hl].
  cbn [hybrid_localization lo_bundle_adjust] in Hl. injection Hl as _ _ <- _. eapply turn_trans; [exact T1|]. apply still_turn. by eapply still_set_view.
Qed.
Lemma localize_hybrid_turn s u : good s -> is_Some (rc_views r0 !! u) -> exists s' ok, localize_hybrid w E opts0 focal_priors sizes orientations s u = Ok (s', ok) /\
  attempted opts0 r0 h0 s s' ok u /\ turn (n_recon s) (n_recon s').
Proof.
  intros Hg Hu. destruct (localize_hybrid_ok w E opts0 focal_priors sizes orientations err ferr cerr HE r0 h0 Hc0 Hg0 Ha0 H60 Hmin s u Hg Hu) as (s' & ok & Hl & Ha). exists s', ok. split; [done|]. split; [done|].
  unfold localize_hybrid in Hl. destruct (decide _) in Hl; [|by eapply localize_with_turn]. apply bind_Ok in Hl as ([s1 ok1] & H1 & Hl). destruct ok1.
  - injection Hl as <- <-. by eapply localize_with_turn.
  - eapply turn_trans; [by eapply localize_with_turn|]. eapply localize_with_turn; [|exact Hl].
    destruct (localize_with_ok w E opts0 focal_priors sizes err ferr cerr HE r0 h0 Hc0 Hg0 Ha0 H60 Hmin true s u Hg Hu) as (s2 & ok2 & H2 & A2). rewrite H1 in H2. injection H2 as -> _. apply A2.
Qed.

(** The loops. *)
Lemma round_loop_turn views : forall s failed, inv s -> NoDup views -> (forall u, u ∈ views -> u ∈ n_unlocalized s) ->
  safe True (round_loop w E opts0 focal_priors sizes orientations s views failed) (fun x => turn (n_recon s) (n_recon x.1.1)).
Proof.
  induction views as [|u views IH]; intros s failed Hi Dv Hv; [cbn; by apply still_turn, still_same|]. apply NoDup_cons in Dv as [Nu Dv]. cbn [round_loop].
  assert (Hu : u ∈ n_unlocalized s) by (apply Hv; by left). destruct Hi as (Hg & Hs & Hcov & Hon). assert (Hu0 : is_Some (rc_views r0 !! u)) by (apply (graph_views_view vgraph); destruct Hs as [K _]; by apply K).
  destruct (localize_hybrid_turn s u Hg Hu0) as (s1 & ok & -> & A & T1). cbn [mbind outcome_bind]. assert (Hg1 : good s1) by apply A. pose proof A as (_ & (U1 & R1 & O1) & _ & _ & _).
  assert (I1 : inv s1).
  { split; [done|]. unfold sets_ok, covered, only_graph. rewrite U1, R1, O1. split; [exact Hs|]. split; [exact Hcov|]. intros x (v & Hx & _). left. apply (all_views opts0 r0 Hmin). apply (good_view opts r0 h0 Hc0 Hg0 Ha0 H60 s1 x Hg1). by exists v. }
  destruct ok.
  - rewrite (views_graph_same opts0 r0 h0 Hc0 Hg0 Ha0 H60 s1 Hg1). pose proof I1 as (_ & Hs1 & Hcov1 & Hon1). rewrite <- U1 in Hu.
    eapply safe_bind; [apply safe_and; [apply (extend_safe w E opts vgraph sizes err ferr cerr HE r0 h0 Hc0 Hg0 Ha0 H60 Hn0 Hmin Hthreads Hstep True (or_intror I) s1 u Hg1 Hs1 Hcov1 Hon1 Hu)|by apply extend_still]|].
    intros [s2 p] ((I2 & Np & (back & Hb & Hr)) & S2). cbn [fst snd] in *. assert (T2 : turn (n_recon s) (n_recon s2)) by (eapply turn_trans; [exact T1|by apply still_turn]).
    assert (Hgo : safe True (round_loop w E opts0 focal_priors sizes orientations s2 views failed) (fun x => turn (n_recon s) (n_recon x.1.1))).
    { eapply safe_weaken; [apply (IH s2 failed I2 Dv)|].
      - intros x Hx. apply Hb. left. rewrite U1. split; [apply Hv; by right|]. intros ->. done.
      - intros x Hx. by eapply turn_trans. }
    destruct p; [done|exact T2|exact Hgo].
  - eapply safe_weaken; [apply (IH s1 (S failed) I1 Dv)|].
    + intros x Hx. rewrite U1. apply Hv. by right.
    + intros x Hx. by eapply turn_trans.
Qed.
Lemma hybrid_loop_turn fuel : forall s, inv s -> safe True (hybrid_loop w E opts0 focal_priors sizes orientations fuel s) (fun x => turn (n_recon s) (n_recon x.1)).
Proof.
  induction fuel as [|fuel IH]; intros s Hi; [done|]. cbn [hybrid_loop]. destruct (decide _); [by apply still_turn, still_same|].
  pose proof (find_views_safe w E opts vgraph sizes r0 h0 Hc0 Hg0 Ha0 H60 True (or_intror I) s Hi) as Hf. pose proof (find_views_nodup w E sizes s) as Hd.
  destruct (find_views w E sizes s) as [views| | |]; cbn [mbind outcome_bind safe] in *; [|done|done|done].
  eapply safe_bind; [apply safe_and; [apply (round_loop_safe w E opts0 focal_priors sizes orientations err ferr cerr HE r0 h0 Hc0 Hg0 Ha0 H60 Hn0 Hmin Hthreads Hstep True (or_intror I) views s 0 Hi); [by apply Hd|done]|apply (round_loop_turn views s 0 Hi); [by apply Hd|done]]|].
  intros [[s1 ok] n1] [(I1 & _) T1]. cbn [fst snd] in *. destruct ok; cbn [negb]; [|exact T1]. destruct (decide _); [exact T1|].
  eapply safe_weaken; [by apply IH|]. intros x Hx. by eapply turn_trans.
Qed.
Lemma hybrid_from_turn fuel s : inv s -> n_reconstructed s = [] -> n_optimized s = 0%Z ->
  safe True (hybrid_from w pw E opts0 min_two_view graph focal_priors sizes orientations fuel s) (fun x => turn (n_recon s) (n_recon x.1)).
Proof.
  intros Hi Hr Ho. unfold hybrid_from.
  eapply safe_bind; [apply safe_and; [apply (choose_initial_hybrid_safe w pw E opts0 min_two_view graph orientations err ferr cerr HE r0 h0 Hc0 Hg0 Ha0 H60 Hn0 Hmin Hthreads Hstep True Hgraph (or_intror I)); apply Hi|apply choose_initial_still; apply Hi]|].
  intros [s1 ok] [(pairs & Hps & Hch & Hor) S1]. cbn [fst snd] in *.
  assert (I1 : inv s1). { eapply (chosen_inv_hybrid opts0 graph r0 h0 Hc0 Hg0 Ha0 H60 Hmin True Hgraph (or_intror I)); [exact Hi|done|done| |exact Hch]. intros p Hp. destruct (Hps p Hp) as (i & Hp' & _). by exists i. }
  destruct ok; cbn [negb]; [|cbn; by apply still_turn]. eapply safe_bind; [by apply hybrid_loop_turn|]. intros [s2 ok] T2. cbn [fst] in *.
  assert (T : turn (n_recon s) (n_recon s2)) by (eapply turn_trans; [by apply still_turn|exact T2]). destruct ok; exact T.
Qed.
End orient.
