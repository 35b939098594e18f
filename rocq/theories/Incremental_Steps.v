(** Proofs about incremental reconstruction: the steps of the estimator. *)
From stdpp Require Import gmap sorting.
From Coq Require Import Reals QArith_base Qcanon.
From Verif Require Import Base Reconstruction_Model ViewGraph_Model SfmQueries_Model SfmQueries_Spec SfmQueries_Proofs SfmQueries_Props
  TrackEstimator_Model TrackEstimator_Spec TrackEstimator_Props TrackSelection_Model TrackSelection_Props
  VisibilityPyramid_Model VisibilityPyramid_Spec VisibilityPyramid_Props
  BundleAdjust_Model BundleAdjust_Spec BundleAdjust_Proofs BundleAdjust_Setup BundleAdjust_Result BundleAdjust_Props
  Localize_Model Localize_Spec Localize_Proofs Localize_Props Incremental_Model Incremental_Spec Incremental_Proofs Incremental_Under.

Section steps.
Context {F P W : Type}.
Notation recon := (recon F (list R) (list R)).
Notation heap := (gmap N intrinsics).
Notation inc := (inc F).
Implicit Types (r : recon) (h : heap) (s : inc).
Context (w : world F P W) (E : nat -> env F P W) (opts : inc_options) (graph : view_graph two_view) (focal_priors : gset N) (sizes : gmap N (Z * Z)).
Context (err : pose_error (P:=P) (W:=W)) (ferr : focal_error (P:=P) (W:=W)) (cerr : model_type -> F -> list R -> list R -> list R -> R).
Context (HE : forall n, pose_contract err ferr (e_with_orientation (E n)) (e_calibrated (E n)) (e_uncalibrated (E n)) /\ ceres_contract cerr (e_solve (E n))).
Context (r0 : recon) (h0 : heap) (Hc0 : consistent r0) (Hg0 : grouped r0) (Ha0 : allocated r0 h0) (H60 : six r0).
Context (Hn0 : (Z.of_nat (size (dom (rc_tracks r0))) < 2 ^ 31)%Z).
Context (Hmin : (1 <= io_min_inliers opts < 2 ^ 31)%Z) (Hthreads : (1 <= eo_threads (io_triangulation opts))%Z) (Hstep : (1 <= eo_step (io_triangulation opts))%Z).

Definition grid_ok (g : option Z) : Prop := io_subsample opts = true -> default (io_cell_size opts) g <> 0%Z.
Definition good s : Prop := scene r0 h0 (n_recon s) (n_heap s) /\ grid_ok (n_grid s).
Definition same_sets s s' : Prop :=
  n_unlocalized s' = n_unlocalized s /\ n_reconstructed s' = n_reconstructed s /\ n_optimized s' = n_optimized s.
Definition fewer r r' : Prop := forall t, est_track r' t -> est_track r t.
(** Poses, points, flags of tracks and intrinsics may differ. *)
Definition keep s s' : Prop := good s' /\ same_flags (n_recon s) (n_recon s') /\ same_sets s s'.

Lemma good_facts s : good s -> consistent (n_recon s) /\ grouped (n_recon s) /\ allocated (n_recon s) (n_heap s) /\ six (n_recon s) /\
  dom (rc_tracks (n_recon s)) = dom (rc_tracks r0) /\ dom (rc_views (n_recon s)) = dom (rc_views r0).
Proof.
  intros [H _]. destruct (scene_dom _ _ _ _ H) as (D1 & D2 & _). split; [by eapply scene_consistent|]. split; [by eapply scene_grouped|].
  split; [by eapply scene_allocated|]. split; [by eapply scene_six|]. done.
Qed.
Lemma keep_refl s : good s -> keep s s.
Proof. intros H. split; [done|]. split; [intros u; done|]. done. Qed.
Lemma keep_trans s1 s2 s3 : keep s1 s2 -> keep s2 s3 -> keep s1 s3.
Proof.
  intros (A1 & A2 & A3 & A4 & A5) (B1 & B2 & B3 & B4 & B5). split; [done|]. split; [intros u; by rewrite (B2 u)|].
  split; [congruence|]. split; congruence.
Qed.
Lemma fewer_trans r1 r2 r3 : fewer r1 r2 -> fewer r2 r3 -> fewer r1 r3.
Proof. unfold fewer. auto. Qed.
Lemma cleared_fewer r r' ts : tracks_cleared r r' ts -> fewer r r'.
Proof. intros [_ H] t (T & HT & He). rewrite H in HT. apply fmap_Some in HT as (T0 & HT0 & ->). exists T0. split; [done|]. cbn in He. by destruct (decide _). Qed.
Lemma keep_with_recon s r : good s -> scene (n_recon s) (n_heap s) r (n_heap s) -> same_flags (n_recon s) r -> keep s (with_recon s r).
Proof. intros [H1 H2] H3 H4. split; [|done]. split; [|done]. by eapply scene_trans. Qed.
Lemma good_view s u : good s -> is_Some (rc_views r0 !! u) <-> is_Some (rc_views (n_recon s) !! u).
Proof. intros H. destruct (good_facts s H) as (_ & _ & _ & _ & _ & D). by rewrite <- !elem_of_dom, D. Qed.
Lemma sees_tracks s u t : good s -> sees (n_recon s) u t -> is_Some (rc_tracks (n_recon s) !! t).
Proof. intros H Hs. destruct (good_facts s H) as (Hc & _). destruct (proj2 (Hc u t) Hs) as (T & HT & _). eauto. Qed.
Lemma subset_size s (ids : gset N) : good s -> (forall t, t ∈ ids -> is_Some (rc_tracks (n_recon s) !! t)) -> (Z.of_nat (size ids) < 2 ^ 31)%Z.
Proof.
  intros H Hi. destruct (good_facts s H) as (_ & _ & _ & _ & D & _). assert (size ids <= size (dom (rc_tracks r0)))%nat; [|lia].
  apply subseteq_size. intros t Ht. rewrite <- D, elem_of_dom. by apply Hi.
Qed.

(** What the triangulation does to the flags of tracks: new ones are seen by two estimated views. *)
Definition two_views r (t : N) : Prop := exists u1 u2, u1 <> u2 /\ est_view r u1 /\ est_view r u2 /\ sees r u1 t /\ sees r u2 t.
Definition triangulated r r' : Prop := forall t, est_track r' t -> est_track r t \/ two_views r t.

Lemma observations_two (o : order N) r t T : consistent r -> rc_tracks r !! t = Some T -> (2 <= length (observations o r t T))%nat -> two_views r t.
Proof.
  intros Hc HT. unfold observations. assert (Hin : forall u, u ∈ o (elements (t_views T)) -> sees r u t).
  { intros u Hu. rewrite ord_perm, elem_of_elements in Hu. apply Hc. by exists T. }
  assert (Hnd : NoDup (o (elements (t_views T)))) by (rewrite ord_perm; apply NoDup_elements).
  assert (G : forall l, NoDup l -> (forall u, u ∈ l -> sees r u t) -> (1 <= length (omap (observation r t) l))%nat -> exists u, u ∈ l /\ est_view r u).
  { induction l as [|u l IH]; intros D Hl L; [cbn in L; lia|]. cbn in L. destruct (observation r t u) as [x|] eqn:Eo.
    - exists u. split; [by left|]. unfold observation in Eo. destruct (rc_views r !! u) as [v|] eqn:Hv; [|done]. cbn in Eo. destruct (v_est v) eqn:He; [|done]. by exists v.
    - apply NoDup_cons in D as [_ D]. destruct (IH D) as (x & Hx & Hx'); [intros y Hy; apply Hl; by right|done|]. exists x. split; [by right|done]. }
  revert Hnd Hin. generalize (o (elements (t_views T))). induction l as [|u l IH]; intros D Hl L; [cbn in L; lia|]. cbn in L. apply NoDup_cons in D as [Nu D].
  destruct (observation r t u) as [x|] eqn:Eo.
  - cbn in L. destruct (G l D) as (y & Hy & Hy'); [intros y Hy; apply Hl; by right|unfold observation in *; lia|].
    exists u, y. split; [intros ->; done|]. split.
    { unfold observation in Eo. destruct (rc_views r !! u) as [v|] eqn:Hv; [|done]. cbn in Eo. destruct (v_est v) eqn:He; [|done]. by exists v. }
    split; [done|]. split; apply Hl; [by left|by right].
  - apply IH; [done| |done]. intros y Hy. apply Hl. by right.
Qed.

Lemma estimate_safe ub s (ids : gset N) : let e := E (n_tick s) in good s -> (forall t, t ∈ ids -> is_Some (rc_tracks (n_recon s) !! t)) ->
  safe ub (res ← estimate_tracks (w_geometry w (n_heap s)) (io_triangulation opts) (e_order e) ids (e_schedule e) (n_recon s);
           match res with Some (r, _) => Ok (with_recon s r) | None => Hang end)
    (fun s' => keep s s' /\ triangulated (n_recon s) (n_recon s') /\ rc_views (n_recon s') = rc_views (n_recon s) /\ n_heap s' = n_heap s).
Proof.
  intros e Hg Hi. destruct (good_facts s Hg) as (Hc & _). pose proof (subset_size s ids Hg Hi) as Hsz.
  destruct (estimate_tracks_exact F (list R) (list R) (w_geometry w (n_heap s)) (io_triangulation opts) (e_order e) (n_recon s) ids (e_schedule e) Hc Hi Hsz Hthreads Hstep)
    as (res & -> & Hres & _). cbn [mbind outcome_bind]. destruct res as [[r sm]|]; [|done]. cbn [safe].
  destruct (Hres r sm eq_refl) as (A1 & A2 & A3 & _).
  assert (Hsc : scene (n_recon s) (n_heap s) r (n_heap s) /\ same_flags (n_recon s) r).
  { apply set_tracks_scene; [done|]. intros t. destruct (rc_tracks (n_recon s) !! t) as [T|] eqn:HT.
    - destruct (decide (t ∈ ids)) as [Ht|Ht].
      + destruct (t_est T) eqn:He.
        * destruct (A3 t) as [-> _]; [right; by exists T|]. rewrite HT. by constructor.
        * destruct (A2 t T Ht HT He) as (T' & b & -> & _ & _ & Ev & _). by constructor.
      + destruct (A3 t) as [-> _]; [by left|]. rewrite HT. by constructor.
    - destruct (decide (t ∈ ids)) as [Ht|Ht]; [destruct (Hi t Ht); congruence|]. destruct (A3 t) as [-> _]; [by left|]. rewrite HT. by constructor. }
  destruct Hsc as [Hs1 Hs2]. split; [by apply keep_with_recon|]. split; [|split; [cbn; by rewrite A1|done]].
  intros t (T' & HT' & He'). cbn [n_recon with_recon] in HT'. destruct (Classical_Prop.classic (est_track (n_recon s) t)) as [|Hne]; [by left|right].
  destruct (decide (t ∈ ids)) as [Ht|Ht].
  - destruct (Hi t Ht) as [T HT]. assert (He : t_est T = false) by (destruct (t_est T) eqn:He; [exfalso; apply Hne; by exists T|done]).
    destruct (A2 t T Ht HT He) as (T1 & b & HT1 & Hest & Hb & _). rewrite HT1 in HT'. injection HT' as ->. apply (observations_two (e_order e) (n_recon s) t T Hc HT).
    rewrite He' in Hb. subst b. inversion Hest; subst; done.
  - destruct (A3 t) as [K _]; [by left|]. rewrite K in HT'. exfalso. apply Hne. by exists T'.
Qed.

Lemma estimate_structure_safe ub s u : good s -> is_Some (rc_views r0 !! u) -> safe ub (estimate_structure w E opts s u)
    (fun s' => keep s s' /\ triangulated (n_recon s) (n_recon s') /\ rc_views (n_recon s') = rc_views (n_recon s) /\ n_heap s' = n_heap s).
Proof.
  intros Hg Hu. apply (good_view s u Hg) in Hu as [v Hv]. unfold estimate_structure. rewrite Hv. cbn [or_ub mbind outcome_bind].
  apply estimate_safe; [done|]. intros t Ht. rewrite elem_of_list_to_set, ord_perm, elem_of_elements, elem_of_dom in Ht.
  apply (sees_tracks s u t Hg). by exists v.
Qed.
Lemma estimate_everything_safe ub s : good s -> safe ub (estimate_everything w E opts s)
    (fun s' => keep s s' /\ triangulated (n_recon s) (n_recon s') /\ rc_views (n_recon s') = rc_views (n_recon s) /\ n_heap s' = n_heap s).
Proof.
  intros Hg. unfold estimate_everything.
  destruct (estimate_all_tracks_exact F (list R) (list R) (w_geometry w (n_heap s)) (io_triangulation opts) (e_order (E (n_tick s))) (n_recon s)) as (ids & Hids & ->).
  apply estimate_safe; [done|]. intros t Ht. apply Hids in Ht as (u & _ & Hs). by eapply sees_tracks.
Qed.

Lemma remove_outliers_safe ub s (ids : gset N) m : good s -> (forall t, t ∈ ids -> is_Some (rc_tracks (n_recon s) !! t)) ->
  safe ub (remove_outliers w E opts s ids m)
    (fun s' => keep s s' /\ fewer (n_recon s) (n_recon s') /\ rc_views (n_recon s') = rc_views (n_recon s) /\ n_heap s' = n_heap s).
Proof.
  intros Hg Hi. destruct (good_facts s Hg) as (Hc & _). unfold remove_outliers. set (g := w_geometry w (n_heap s)).
  destruct (outlier_tracks_exact F (list R) (list R) (g_depth g) (g_error g) (w_point_ray w) m (eo_cos_min (io_triangulation opts)) (e_order (E (n_tick s))) ids (n_recon s) Hc Hi) as (r' & ts & -> & Hcl & _).
  cbn [mbind outcome_bind safe]. destruct (tracks_cleared_scene _ (n_heap s) _ _ Hcl) as [H1 H2]. split; [by apply keep_with_recon|]. split; [by eapply cleared_fewer|].
  split; [|done]. destruct Hcl as [-> _]. done.
Qed.

Lemma adjust_safe ub s (views tracks : gset N) : good s -> safe ub (adjust E opts s views tracks)
  (fun x => keep s x.1 /\ fewer (n_recon s) (n_recon x.1)).
Proof.
  intros Hg. destruct (good_facts s Hg) as (Hc & Hgr & Ha & _). unfold adjust. set (e := E (n_tick s)). destruct (HE (n_tick s)) as [_ Hs]. fold e in Hs.
  set (vs := e_order e (elements views)). set (ts := e_order e (elements tracks)).
  destruct (bundle_adjust_partial (e_ba_orders e) (n_recon s) (n_heap s) (io_ba opts) (e_solve e) vs ts) as [[[r h] sm]| | |] eqn:Eb.
  - cbn [mbind outcome_bind safe]. destruct (adjust_changes_only F cerr (e_solve e) (e_ba_orders e) (n_recon s) (n_heap s) (io_ba opts) vs ts r h sm Hc Hgr Ha Hs Eb) as [Hf _].
    destruct (frame_scene _ _ _ _ _ _ _ Hf) as [H1 H2]. cbn [fst]. split.
    + split; [|done]. destruct Hg as [G1 G2]. split; [by eapply scene_trans|done].
    + intros t (T' & HT' & He). destruct Hf as (_ & _ & Ht & _). specialize (Ht t). cbn in HT'. rewrite HT' in Ht. inversion Ht as [T T1 HT E1 E2|]; subst. exists T. split; [done|]. destruct HT as (<- & _). done.
  - done.
  - exfalso. destruct (adjust_returns_partial F cerr (e_solve e) (e_ba_orders e) (n_recon s) (n_heap s) (io_ba opts) vs ts Hc Hgr Ha Hs) as [A B].
    destruct (Classical_Prop.classic (adjustable (io_ba opts) vs ts (n_recon s) (n_heap s))) as [K|K]; [destruct (A K) as (? & ? & ? & ?); congruence|rewrite (B K) in Eb; done].
  - done.
Qed.

Lemma select_grid_ok (st st' : option Z) : io_subsample opts = true -> grid_ok st -> st' = st \/ st' = Some (default (io_cell_size opts) st) -> grid_ok st'.
Proof. intros Hs Hg [->| ->]; [done|]. intros _. cbn. by apply Hg. Qed.

Lemma full_adjustment_safe ub s : good s -> safe ub (full_adjustment w E opts s)
  (fun x => let s' := x.1 in good s' /\ same_flags (n_recon s) (n_recon s') /\ fewer (n_recon s) (n_recon s') /\
     n_unlocalized s' = n_unlocalized s /\ n_reconstructed s' = n_reconstructed s /\ n_optimized s' = Z.of_nat (length (n_reconstructed s))).
Proof.
  intros Hg. unfold full_adjustment. set (e := E (n_tick s)).
  eapply (safe_bind ub _ _ (fun x => keep s x.1 /\ fewer (n_recon s) (n_recon x.1))).
  - destruct (io_subsample opts) eqn:Hsub.
    + destruct (good_facts s Hg) as (Hc & _). pose proof (proj2 Hg Hsub) as Hne.
      destruct (selection_coverage_partial F (list R) (list R) (g_error (w_geometry w (n_heap s))) (w_position w) (e_order e) (e_cells e) (n_recon s) (estimated_views (e_order e) (n_recon s))
        (io_track_length opts) (io_cell_size opts) (io_min_tracks opts) (n_grid s) ∅ Hc) as (st' & chosen & Es & _ & _ & _ & _ & Hst); [|done|].
      { intros u (v & Hv & _)%estimated_views_lemma. by exists v. }
      unfold select_tracks. rewrite Es. cbn [mbind outcome_bind safe fst].
      destruct (set_tracks_in_views_ok (e_order e) (n_reconstructed s) chosen (n_recon s)) as (ts & Hcl & _).
      destruct (tracks_cleared_scene _ (n_heap s) _ _ Hcl) as [H1 H2]. split; [|by eapply cleared_fewer].
      split; [|done]. split; [eapply scene_trans; [apply Hg|done]|]. cbn. eapply select_grid_ok; [done|apply Hg|done].
    + cbn [safe fst]. split; [|intros t; done]. split; [|done]. done.
  - intros [s1 tracks] [Hk Hf]. cbn [fst] in *. eapply safe_bind; [apply (adjust_safe ub s1); apply Hk|]. intros [s2 ok] [Hk2 Hf2]. cbn [fst] in *.
    set (s3 := with_views s2 (n_unlocalized s2) (n_reconstructed s2) (Z.of_nat (length (n_reconstructed s2)))).
    assert (Hg3 : good s3) by apply Hk2. eapply safe_bind; [apply (remove_outliers_safe ub s3); [done|]|].
    { intros t Ht. by apply elem_of_dom. }
    intros s4 ((Hg4 & Hfl4 & Hu4 & Hr4 & Ho4) & Hf4 & _). cbn [safe fst]. split; [done|]. destruct Hk as (_ & Hfl1 & Hu1 & Hr1 & Ho1). destruct Hk2 as (_ & Hfl2 & Hu2 & Hr2 & Ho2).
    split; [intros u; rewrite (Hfl4 u); cbn; by rewrite (Hfl2 u), (Hfl1 u)|]. split; [eapply fewer_trans; [exact Hf|eapply fewer_trans; [exact Hf2|exact Hf4]]|].
    rewrite Hu4, Hr4, Ho4. cbn. rewrite Hu2, Hr2, Hu1, Hr1. done.
Qed.

Lemma tracks_in_views_safe ub (o : order N) s (views : gset N) : good s -> (forall u, u ∈ views -> is_Some (rc_views r0 !! u)) ->
  safe ub (tracks_in_views o (n_recon s) views) (fun ts => forall t, t ∈ ts -> is_Some (rc_tracks (n_recon s) !! t)).
Proof.
  intros Hg Hv. unfold tracks_in_views. apply (safe_steps ub _ (fun ts : gset N => forall t, t ∈ ts -> is_Some (rc_tracks (n_recon s) !! t))); [by intros t []%elem_of_empty|].
  intros ts u Hu Hts. rewrite ord_perm, elem_of_elements in Hu. apply Hv in Hu. apply (good_view s u Hg) in Hu as [v Hu]. rewrite Hu. cbn [or_ub mbind outcome_bind safe].
  intros t. rewrite elem_of_union, elem_of_list_to_set, ord_perm, elem_of_elements, elem_of_dom. intros [Ht|Ht]; [|by apply Hts]. apply (sees_tracks s u t Hg). by exists v.
Qed.

Lemma keep_track s s' t : good s -> good s' -> is_Some (rc_tracks (n_recon s) !! t) -> is_Some (rc_tracks (n_recon s') !! t).
Proof.
  intros H1 H2. destruct (good_facts s H1) as (_ & _ & _ & _ & D1 & _). destruct (good_facts s' H2) as (_ & _ & _ & _ & D2 & _). rewrite <- !elem_of_dom. by rewrite D1, D2.
Qed.

Lemma partial_adjustment_safe ub s : good s -> (forall u, u ∈ n_reconstructed s -> is_Some (rc_views r0 !! u)) -> safe ub (partial_adjustment w E opts s)
  (fun x => keep s x.1 /\ fewer (n_recon s) (n_recon x.1)).
Proof.
  intros Hg Hrec. unfold partial_adjustment. set (e := E (n_tick s)). set (k := Z.to_nat _). set (views := list_to_set _ : gset N).
  assert (Hviews : forall u, u ∈ views -> is_Some (rc_views r0 !! u)).
  { intros u Hu. apply elem_of_list_to_set in Hu. apply Hrec. eapply elem_of_submseteq; [exact Hu|]. apply sublist_submseteq, sublist_drop. }
  eapply (safe_bind ub _ _ (fun x => keep s x.1 /\ fewer (n_recon s) (n_recon x.1) /\ forall t, t ∈ x.2 -> is_Some (rc_tracks (n_recon s) !! t))).
  - destruct (io_subsample opts) eqn:Hsub.
    + destruct (good_facts s Hg) as (Hc & _). pose proof (proj2 Hg Hsub) as Hne.
      destruct (selection_coverage_partial F (list R) (list R) (g_error (w_geometry w (n_heap s))) (w_position w) (e_order e) (e_cells e) (n_recon s) views
        (io_track_length opts) (io_cell_size opts) (io_min_tracks opts) (n_grid s) ∅ Hc) as (st' & chosen & Es & _ & Hch & _ & _ & Hst); [|done|].
      { intros u Hu. apply (good_view s u Hg). by apply Hviews. }
      rewrite Es. cbn [mbind outcome_bind safe fst snd].
      destruct (set_tracks_in_views_ok (e_order e) (e_order e (elements views)) chosen (n_recon s)) as (ts & Hcl & _).
      destruct (tracks_cleared_scene _ (n_heap s) _ _ Hcl) as [H1 H2]. split; [|split; [by eapply cleared_fewer|]].
      * split; [|done]. split; [eapply scene_trans; [apply Hg|done]|]. cbn. eapply select_grid_ok; [done|apply Hg|done].
      * intros t Ht. destruct (Hch t Ht) as [[]%elem_of_empty|[(T & HT & _) _]]. by exists T.
    + eapply safe_bind; [apply (tracks_in_views_safe ub (e_order e) s views Hg Hviews)|]. intros ts Hts. cbn [safe fst snd].
      split; [|split; [intros t; done|done]]. split; [|done]. done.
  - intros [s1 tracks] (Hk & Hf & Ht). cbn [fst snd] in *. eapply safe_bind; [apply (adjust_safe ub s1); apply Hk|]. intros [s2 ok] [Hk2 Hf2]. cbn [fst] in *.
    eapply safe_bind; [apply (remove_outliers_safe ub s2); [apply Hk2|]|].
    { intros t Htt. apply (keep_track s s2); [done|apply Hk2|by apply Ht]. }
    intros s3 (Hk3 & Hf3 & _). cbn [safe fst]. split; [eapply keep_trans; [exact Hk|eapply keep_trans; [exact Hk2|exact Hk3]]|].
    eapply fewer_trans; [exact Hf|eapply fewer_trans; [exact Hf2|exact Hf3]].
Qed.

(** The invariant of the estimator. *)
Context (ub : Prop).
Definition graph_views : gset N := vg_view_ids graph ∩ dom (rc_views r0).
Definition sets_ok s : Prop :=
  n_unlocalized s ⊆ graph_views /\ (forall u, u ∈ n_reconstructed s -> u ∈ graph_views) /\ NoDup (n_reconstructed s) /\
  (forall u, u ∈ n_reconstructed s -> u ∉ n_unlocalized s) /\ (n_optimized s <= Z.of_nat (length (n_reconstructed s)))%Z.
Definition covered s : Prop := forall u, u ∈ graph_views -> u ∈ n_unlocalized s \/ u ∈ n_reconstructed s.
Definition only_graph s : Prop := forall u, est_view (n_recon s) u -> u ∈ graph_views \/ est_view r0 u.
Definition inv s : Prop := good s /\ sets_ok s /\ (covered s \/ ub) /\ only_graph s.

Lemma keep_inv s s' : keep s s' -> inv s -> inv s'.
Proof.
  intros (A & B & C1 & C2 & C3) (_ & D1 & D2 & D3). split; [done|]. unfold sets_ok, covered, only_graph. rewrite C1, C2, C3. split; [done|]. split; [done|].
  intros u Hu. apply D3. by apply (B u).
Qed.
Lemma graph_views_view u : u ∈ graph_views -> is_Some (rc_views r0 !! u).
Proof. unfold graph_views. rewrite elem_of_intersection, elem_of_dom. by intros [_ ?]. Qed.

Lemma flags_good s r us ts : good s -> flags_cleared (n_recon s) r us ts -> scene r0 h0 r (n_heap s).
Proof. intros [G _] H. eapply scene_trans; [exact G|]. by eapply flags_scene. Qed.

Lemma set_underconstrained_safe s : inv s -> safe ub (set_underconstrained E graph s)
  (fun s' => inv s' /\ n_unlocalized s ⊆ n_unlocalized s' /\ (forall u, est_view (n_recon s') u -> est_view (n_recon s) u) /\ fewer (n_recon s) (n_recon s')).
Proof.
  intros (Hg & (S1 & S2 & S3 & S4 & S5) & Hcov & Hon). destruct (good_facts s Hg) as (Hc & _).
  destruct (set_underconstrained_cases E graph s Hc S3 S4) as (r' & us & ts & Hf & A1 & A2 & A3 & A4 & A5 & [(s' & -> & B1 & B2 & B3 & B4 & B5 & B6)|(-> & B1 & u & (B2 & B3 & v & B4 & B5) & B6)]).
  - cbn [safe]. pose proof (flags_good s r' us ts Hg Hf) as Hsc.
    assert (Hv : forall u v, rc_views r' !! u = Some v -> is_Some (rc_views r0 !! u)).
    { intros u v Hv. destruct (scene_view _ _ _ _ u v Hsc Hv) as (v0 & ? & _). by exists v0. }
    assert (Hsub : n_unlocalized s ⊆ n_unlocalized s').
    { destruct B6 as [[-> _]|(_ & _ & K & _)]; [done|]. intros u Hu. apply K. by left. }
    split; [|split; [done|split]].
    + split; [|split; [|split]].
      * split; [by rewrite B1, B2|]. rewrite B3. apply Hg.
      * split; [|split; [|split; [|split]]].
        -- destruct B6 as [[-> _]|(_ & _ & K & _)]; [done|]. intros u Hu. apply K in Hu as [Hu|(K1 & _ & v & Kv & _)]; [by apply S1|].
           apply elem_of_intersection. split; [done|]. apply elem_of_dom. by apply (Hv u v).
        -- intros u Hu. rewrite B5 in Hu. apply elem_of_list_filter in Hu as [_ Hu]. by apply S2.
        -- rewrite B5. by apply NoDup_filter.
        -- intros u Hu. rewrite B5 in Hu. by apply elem_of_list_filter in Hu as [? _].
        -- rewrite B4. lia.
      * destruct Hcov as [Hcov|]; [left|by right]. intros u Hu. destruct (Hcov u Hu) as [K|K]; [left; by apply Hsub|].
        destruct (decide (u ∈ n_unlocalized s')) as [|N]; [by left|right]. rewrite B5. apply elem_of_list_filter. done.
      * intros u Hu. rewrite B1 in Hu. apply (flags_est _ _ _ _ u Hf) in Hu as [Hu _]. by apply Hon.
    + intros u Hu. rewrite B1 in Hu. by apply (flags_est _ _ _ _ u Hf) in Hu as [Hu _].
    + intros t Ht. rewrite B1 in Ht. by apply (flags_est_track _ _ _ _ t Hf) in Ht as [Ht _].
  - cbn [safe]. destruct Hcov as [Hcov|]; [|done]. exfalso. pose proof (flags_good s r' us ts Hg Hf) as Hsc. destruct (scene_view _ _ _ _ u v Hsc B4) as (v0 & Hv0 & _).
    destruct (Hcov u); [|done|done]. apply elem_of_intersection. split; [done|]. apply elem_of_dom. by exists v0.
Qed.

(** InitializeCamerasFromTwoViewInfo. *)
Lemma set_view_posed r u v est d : rc_views r !! u = Some v -> posed r (set_view r u est d) u est d.
Proof. intros Hv. by apply (posed_set_view r u v est d). Qed.
Lemma set_focal_safe h p f : safe ub (set_focal h p f) (fun h' => forall q, option_Forall2 (fun i i' => i_type i' = i_type i /\ length (i_params i') = length (i_params i)) (h !! q) (h' !! q)).
Proof.
  unfold set_focal. destruct (Rlt_dec 0 f); [|done]. cbn [safe]. intros q. destruct (decide (q = p)) as [->|Nq].
  - rewrite lookup_alter. destruct (h !! p); constructor. cbn. by rewrite insert_length.
  - rewrite lookup_alter_ne by done. apply heap_refl.
Qed.
Lemma same_heap_scene s r h' : good s -> scene (n_recon s) (n_heap s) r h' -> good (with_heap s r h').
Proof. intros [G1 G2] H. split; [by eapply scene_trans|done]. Qed.

Lemma initialize_safe s p info : good s -> p.1 <> p.2 -> (is_Some (rc_views r0 !! p.1) /\ is_Some (rc_views r0 !! p.2) \/ ub) ->
  safe ub (initialize_cameras s p info) (fun s' => good s' /\ same_sets s s' /\ rc_tracks (n_recon s') = rc_tracks (n_recon s) /\
    (forall u, est_view (n_recon s') u <-> u = p.1 \/ u = p.2 \/ est_view (n_recon s) u) /\
    (forall d, pose_is (n_recon s') p.1 d <-> pose_is (n_recon s) p.1 d) /\
    (forall d, pose_is (n_recon s') p.2 d <-> d = vec3 (tv_position info) ++ vec3 (tv_rotation info)) /\
    is_Some (rc_views r0 !! p.1) /\ is_Some (rc_views r0 !! p.2)).
Proof.
  intros Hg Hne Hex. unfold initialize_cameras. destruct (good_facts s Hg) as (_ & _ & _ & H6 & _).
  destruct (rc_views (n_recon s) !! p.1) as [v1|] eqn:H1.
  2:{ cbn. destruct Hex as [[K _]|]; [|done]. apply (good_view s p.1 Hg) in K as [? ?]. congruence. }
  destruct (rc_views (n_recon s) !! p.2) as [v2|] eqn:H2.
  2:{ cbn. destruct Hex as [[_ K]|]; [|done]. apply (good_view s p.2 Hg) in K as [? ?]. congruence. }
  cbn [or_ub mbind outcome_bind]. eapply safe_bind; [apply set_focal_safe|]. intros h1 Hh1. eapply safe_bind; [apply set_focal_safe|]. intros h2 Hh2. cbn [safe].
  set (d2 := set_position _ _).
  assert (Ed2 : d2 = vec3 (tv_position info) ++ vec3 (tv_rotation info)).
  { unfold d2. destruct (pose_of_six (vec3 (tv_position info)) (vec3 (tv_rotation info)) (v_data v2)) as [K _]; [done|by apply (H6 p.2)|]. exact K. }
  set (r1 := set_view (n_recon s) p.1 true (v_data v1)). pose proof (set_view_posed _ _ _ true (v_data v1) H1) as P1. fold r1 in P1.
  assert (H2' : rc_views r1 !! p.2 = Some v2) by (destruct P1 as (_ & P1 & _); rewrite P1 by done; done).
  set (r2 := set_view r1 p.2 true d2). pose proof (set_view_posed _ _ _ true d2 H2') as P2. fold r2 in P2.
  assert (Hs1 : scene (n_recon s) (n_heap s) r1 h1) by (by eapply (posed_scene _ _ _ _ p.1 v1 true (v_data v1))).
  assert (Hs2 : scene r1 h1 r2 h2). { eapply (posed_scene _ _ _ _ p.2 v2 true d2); [done| |done|done]. rewrite Ed2, (H6 _ _ H2). done. }
  split; [apply same_heap_scene; [done|]; by eapply scene_trans|]. split; [done|]. cbn [n_recon with_heap].
  split; [done|]. split; [|split; [|split]].
  - intros u. rewrite (posed_est _ _ _ _ _ _ u H2' P2), (posed_est _ _ _ _ _ _ u H1 P1). destruct (decide (u = p.2)), (decide (u = p.1)); tauto.
  - intros d. unfold pose_is. destruct P2 as (_ & P2 & _). rewrite P2 by done. destruct P1 as (_ & _ & P1). rewrite (P1 v1 H1), H1. split; intros (v & [= <-] & K); eexists; (split; [done|]); done.
  - intros d. unfold pose_is. destruct P2 as (_ & _ & P2). rewrite (P2 v2 H2'), <- Ed2. split; [intros (v & [= <-] & K); done|]. intros ->. eexists. split; [done|]. done.
  - split; apply (good_view s _ Hg); eauto.
Qed.

(** ChooseInitialViewPair. *)
Definition many_tracks r (n : Z) : Prop := exists X : gset N, (n < Z.of_nat (size X))%Z /\ forall t, t ∈ X -> est_track r t.
Definition chosen_pair s s' (p : N * N) : Prop :=
  n_unlocalized s' = n_unlocalized s ∖ {[p.1]} ∖ {[p.2]} /\ n_reconstructed s' = n_reconstructed s ++ [p.1; p.2] /\
  n_optimized s' = Z.of_nat (length (n_reconstructed s)) /\
  (forall u, est_view (n_recon s') u <-> u = p.1 \/ u = p.2) /\ many_tracks (n_recon s') kMinNumInitialTracks /\
  (forall t, est_track (n_recon s') t -> sees (n_recon s') p.1 t /\ sees (n_recon s') p.2 t) /\
  is_Some (rc_views r0 !! p.1) /\ is_Some (rc_views r0 !! p.2).
Definition no_pair s s' (pairs : list (N * N)) : Prop :=
  n_unlocalized s' = n_unlocalized s /\ n_reconstructed s' = n_reconstructed s /\
  (n_optimized s' = n_optimized s \/ n_optimized s' = Z.of_nat (length (n_reconstructed s))) /\
  (forall u, est_view (n_recon s') u -> est_view (n_recon s) u \/ exists p, p ∈ pairs /\ (u = p.1 \/ u = p.2) /\ is_Some (rc_views r0 !! u)).
Definition chosen s s' (ok : bool) (pairs : list (N * N)) : Prop :=
  good s' /\ if ok then exists p, p ∈ pairs /\ chosen_pair s s' p else no_pair s s' pairs.

Definition pair_ok (p : N * N) : Prop :=
  p.1 <> p.2 /\ is_Some (vg_edges graph !! view_id_pair p.1 p.2) /\ (is_Some (rc_views r0 !! p.1) /\ is_Some (rc_views r0 !! p.2) \/ ub).

Lemma chosen_later s s1 s' ok p pairs : n_unlocalized s1 = n_unlocalized s -> n_reconstructed s1 = n_reconstructed s ->
  n_optimized s1 = n_optimized s \/ n_optimized s1 = Z.of_nat (length (n_reconstructed s)) ->
  (forall u, est_view (n_recon s1) u -> (u = p.1 \/ u = p.2) /\ is_Some (rc_views r0 !! u)) ->
  chosen s1 s' ok pairs -> chosen s s' ok (p :: pairs).
Proof.
  intros A B C D [G H]. split; [done|]. destruct ok.
  - destruct H as (q & Hq & H1 & H2 & H3 & H4). exists q. split; [by right|]. unfold chosen_pair. rewrite H1, H2, H3, A, B. done.
  - destruct H as (H1 & H2 & H3 & H4). split; [congruence|]. split; [congruence|]. split; [destruct H3 as [H3|H3]; [rewrite H3; done|right; congruence]|].
    intros u Hu. right. destruct (H4 u Hu) as [K|(q & Hq & K)].
    + exists p. split; [by left|]. by apply D.
    + exists q. split; [by right|done].
Qed.

Lemma choose_loop_safe pairs : forall s, good s -> Forall pair_ok pairs -> safe ub (choose_loop w E opts graph s pairs) (fun x => chosen s x.1 x.2 pairs).
Proof.
  induction pairs as [|p pairs IH]; intros s Hg Hps.
  { cbn. split; [done|]. split; [done|]. split; [done|]. split; [by left|]. auto. }
  apply Forall_cons in Hps as [(Hne & [info Hi] & Hex) Hps]. cbn [choose_loop].
  destruct (set_unestimated_ok (e_order (E (n_tick s))) (n_recon s) (n_heap s)) as (U1 & U2 & U3 & _). set (r1 := set_unestimated _ _) in *.
  set (s1 := with_recon s r1). assert (Hg1 : good s1). { destruct Hg as [G1 G2]. split; [by eapply scene_trans|done]. }
  rewrite Hi. cbn [or_ub mbind outcome_bind]. eapply safe_bind; [apply (initialize_safe s1 p info); [done|done|exact Hex]|].
  intros s2 (Hg2 & (A1 & A2 & A3) & A4 & A5 & _ & _ & Hex'). eapply safe_bind; [apply (estimate_structure_safe ub s2 p.1); [done|apply Hex']|].
  intros s3 ((Hg3 & F3 & B1 & B2 & B3) & Htri & _).
  assert (E2 : forall u, est_view (n_recon s2) u <-> u = p.1 \/ u = p.2). { intros u. rewrite A5. split; [intros [?|[?|K]]; auto; by apply U2 in K|]. tauto. }
  assert (E3 : forall u, est_view (n_recon s3) u <-> u = p.1 \/ u = p.2) by (intros u; rewrite (F3 u); apply E2).
  assert (Hsee : forall t, est_track (n_recon s3) t -> sees (n_recon s3) p.1 t /\ sees (n_recon s3) p.2 t).
  { intros t Ht. apply Htri in Ht as [Ht|(u1 & u2 & Hn & V1 & V2 & S1 & S2)].
    - exfalso. apply (U3 t). unfold est_track in *. by rewrite A4 in Ht.
    - assert (Hs : forall u, sees (n_recon s3) u t <-> sees (n_recon s2) u t).
      { intros u. rewrite (scene_sees _ _ _ _ u t (proj1 Hg3)). by rewrite (scene_sees _ _ _ _ u t (proj1 Hg2)). }
      rewrite !Hs. apply E2 in V1 as [->| ->], V2 as [->| ->]; done. }
  assert (Hlater : forall s4, good s4 -> same_flags (n_recon s3) (n_recon s4) -> n_unlocalized s4 = n_unlocalized s -> n_reconstructed s4 = n_reconstructed s ->
    n_optimized s4 = n_optimized s \/ n_optimized s4 = Z.of_nat (length (n_reconstructed s)) ->
    safe ub (choose_loop w E opts graph s4 pairs) (fun x => chosen s x.1 x.2 (p :: pairs))).
  { intros s4 Hg4 F4 C1 C2 C3. eapply safe_weaken; [by apply IH|]. intros [s5 ok] H5. eapply (chosen_later s s4); [done|done|done| |exact H5].
    intros u Hu. apply (F4 u), E3 in Hu. split; [done|]. destruct Hex' as [? ?]. by destruct Hu as [->| ->]. }
  assert (K1 : n_unlocalized s3 = n_unlocalized s) by (rewrite B1, A1; done). assert (K2 : n_reconstructed s3 = n_reconstructed s) by (rewrite B2, A2; done).
  assert (K3 : n_optimized s3 = n_optimized s) by (rewrite B3, A3; done).
  destruct (decide _) as [_|_]; [apply Hlater; auto; intros u; done|].
  eapply safe_bind; [by apply (full_adjustment_safe ub s3)|]. intros [s4 ok] (Hg4 & F4 & Few & C1 & C2 & C3). cbn [fst] in *.
  destruct ok; cbn [negb]; [|apply Hlater; [done|done|congruence|congruence|right; congruence]].
  destruct (decide _) as [Hmany|_]; [|apply Hlater; [done|done|congruence|congruence|right; congruence]].
  cbn [safe fst snd]. split; [done|]. exists p. split; [by left|]. unfold chosen_pair. cbn [n_unlocalized n_reconstructed n_optimized n_recon with_views].
  split; [by rewrite C1, K1|]. split; [by rewrite C2, K2|]. split; [by rewrite C3, K2|]. split; [intros u; rewrite (F4 u); apply E3|]. split; [|split; [|done]].
  - eexists. split; [exact Hmany|]. intros t Ht. by apply estimated_tracks_lemma in Ht.
  - intros t Ht. apply Few in Ht. assert (Hs : forall u, sees (n_recon s4) u t <-> sees (n_recon s3) u t).
    { intros u. rewrite (scene_sees _ _ _ _ u t (proj1 Hg4)). by rewrite (scene_sees _ _ _ _ u t (proj1 Hg3)). }
    rewrite !Hs. by apply Hsee.
Qed.

(** FindViewsToLocalize. *)
Definition point_of (f : F) : Q * Q := (this (w_position w f).1, this (w_position w f).2).
Definition est_points r (v : view F (list R)) (l : list N) : list (Q * Q) :=
  omap (fun t => match rc_tracks r !! t with Some T => if t_est T then point_of <$> v_feats v !! t else None | None => None end) l.
Lemma pyramid_steps r v l : (forall t, t ∈ l -> is_Some (rc_tracks r !! t) /\ is_Some (v_feats v !! t)) -> forall p n,
  run_steps (pyramid_step w r v) (p, n) l = (p' ← run_steps vp_add p (est_points r v l); Ok (p', (n + length (est_points r v l))%nat)).
Proof.
  induction l as [|t l IH]; intros Hl p n; [cbn; by rewrite Nat.add_0_r|]. destruct (Hl t) as [[T HT] [f Hf]]; [by left|].
  assert (Hl' : forall t, t ∈ l -> is_Some (rc_tracks r !! t) /\ is_Some (v_feats v !! t)) by (intros x Hx; apply Hl; by right).
  cbn [run_steps]. unfold pyramid_step at 2. cbn [fst snd]. unfold est_points. cbn [omap list_omap]. rewrite HT, Hf. cbn [or_ub mbind outcome_bind]. destruct (t_est T); cbn [fmap option_fmap option_map].
  - cbn [run_steps]. change (vp_add p (this (w_position w f).1, this (w_position w f).2)) with (vp_add p (point_of f)). destruct (vp_add p (point_of f)) as [p1| | |]; cbn [mbind outcome_bind]; [|done|done|done].
    rewrite (IH Hl'). unfold est_points. cbn [length]. by rewrite Nat.add_succ_r.
  - cbn [mbind outcome_bind]. rewrite (IH Hl'). done.
Qed.
Definition image_size (u : N) : Z * Z := default (0, 0)%Z (sizes !! u).
Lemma score_view_cases (o : order N) r u v : consistent r -> rc_views r !! u = Some v ->
  let pts := est_points r v (o (elements (dom (v_feats v)))) in
  let size := image_size u in
  if decide (0 < size.1 /\ 0 < size.2)%Z then
    Forall (fun p => representable 6 size.1 p.1 /\ representable 6 size.2 p.2) pts ->
    score_view w sizes o r u = Ok (if decide (30 <= length pts)%nat then Some (score 6 size.1 size.2 pts, u) else None)
  else score_view w sizes o r u = CheckFail.
Proof.
  intros Hc Hv pts size. unfold score_view. rewrite Hv. cbn [or_ub mbind outcome_bind]. cbv zeta. change (default (0, 0)%Z (sizes !! u)) with size. unfold kNumPyramidLevels. destruct (decide _) as [[Hw Hh]|Hn].
  - intros Hr. destruct (visibility_pyramid_in_range 6 size.1 size.2 pts) as (p0 & p & H1 & H2 & _); [lia|done|done|done|].
    pose proof (visibility_pyramid_partial 6 size.1 size.2 pts) as Hs. unfold pyramid_score in Hs. change (Z.of_nat 6) with 6%Z in *. rewrite H1 in Hs |- *. cbn [mbind outcome_bind] in Hs |- *. rewrite H2 in Hs. cbn [mbind outcome_bind] in Hs.
    rewrite pyramid_steps.
    + fold pts. rewrite H2. cbn [mbind outcome_bind plus]. unfold kMinNumObserved3dPoints. destruct (decide _); [|done]. rewrite Hs; [done|lia|done|done|done].
    + intros t Ht. rewrite ord_perm, elem_of_elements, elem_of_dom in Ht. split; [|done]. destruct (proj2 (Hc u t)) as (T & HT & _); [by exists v|]. by exists T.
  - assert (K : vp_new size.1 size.2 6 = CheckFail); [|by rewrite K]. unfold vp_new. assert (S6 : exists z, shift1 6 = Ok z) by (eexists; vm_compute; reflexivity). destruct S6 as [z ->]. cbn [mbind outcome_bind].
    unfold check. destruct (bool_decide (0 < size.1)%Z) eqn:B1; [|done]. apply bool_decide_eq_true in B1. cbn [mbind outcome_bind]. destruct (bool_decide (0 < size.2)%Z) eqn:B2; [|done]. apply bool_decide_eq_true in B2. exfalso. by apply Hn.
Qed.

Context (Hfeat : features_ok (w_position w) image_size graph r0 \/ ub).
Lemma features_representable s u v pts l : good s -> u ∈ graph_views -> rc_views (n_recon s) !! u = Some v -> pts = est_points (n_recon s) v l ->
  Forall (fun p => representable 6 (image_size u).1 p.1 /\ representable 6 (image_size u).2 p.2) pts \/ ub.
Proof.
  intros Hg Hu Hv ->. destruct Hfeat as [Hf|]; [left|by right]. apply Forall_forall. intros q Hq. unfold est_points in Hq. apply elem_of_list_omap in Hq as (t & _ & Hq).
  destruct (rc_tracks _ !! t) as [T|]; [|done]. destruct (t_est T); [|done]. destruct (v_feats v !! t) as [f|] eqn:Ef; [|done]. injection Hq as <-.
  destruct (scene_view _ _ _ _ u v (proj1 Hg) Hv) as (v0 & Hv0 & _ & Hfe & _). apply (Hf u v0 t f); [|done|by rewrite <- Hfe]. unfold graph_views in Hu. by apply elem_of_intersection in Hu as [? _].
Qed.
Lemma find_views_safe s : inv s -> safe ub (find_views w E sizes s) (fun l => forall u, u ∈ l -> u ∈ n_unlocalized s).
Proof.
  intros (Hg & (S1 & _) & _). unfold find_views. destruct (good_facts s Hg) as (Hc & _).
  eapply (safe_bind ub _ _ (fun l : list (Z * N) => forall x, x ∈ l -> x.2 ∈ n_unlocalized s)).
  - apply safe_steps; [intros x Hx; by apply elem_of_nil in Hx|]. intros l u Hu Hl. rewrite ord_perm, elem_of_elements in Hu. pose proof (S1 u Hu) as HuG.
    pose proof (graph_views_view u HuG) as Hu0. apply (good_view s u Hg) in Hu0 as [v Hv]. pose proof (score_view_cases (e_order (E (n_tick s))) (n_recon s) u v Hc Hv) as Hsc. cbv zeta in Hsc.
    destruct (decide _) in Hsc; [|by rewrite Hsc]. destruct (features_representable s u v _ (e_order (E (n_tick s)) (elements (dom (v_feats v)))) Hg HuG Hv eq_refl) as [Hr|Hub]; [rewrite (Hsc Hr)|].
    + cbn [mbind outcome_bind safe]. destruct (decide _); [|done]. intros x [Hx|Hx]%elem_of_app; [by apply Hl|]. apply elem_of_list_singleton in Hx as ->. done.
    + unfold score_view. rewrite Hv. cbn [or_ub mbind outcome_bind]. destruct (vp_new _ _ _); cbn [mbind outcome_bind safe]; [|done|done|done].
      destruct (run_steps _ _ _) as [[p n]| | |]; cbn [mbind outcome_bind safe]; [|done|done|done]. destruct (decide (kMinNumObserved3dPoints <= n)%nat); [|cbn [mbind outcome_bind safe]; exact Hl].
      destruct (vp_score p); cbn [mbind outcome_bind safe]; [|done|done|done]. intros x [Hx|Hx]%elem_of_app; [by apply Hl|]. apply elem_of_list_singleton in Hx as ->. done.
  - intros scores Hs. cbn [safe]. intros u Hu. apply elem_of_list_fmap in Hu as (x & -> & Hx). rewrite merge_sort_Permutation in Hx. by apply Hs.
Qed.

(** A view has been localized: the rest of the round. *)
Definition extended s s' (u : N) : Prop :=
  exists back : gset N, (forall x, x ∈ n_unlocalized s' <-> (x ∈ n_unlocalized s /\ x <> u) \/ x ∈ back) /\
    n_reconstructed s' = filter (fun x => x ∉ back) (n_reconstructed s ++ [u]).
Lemma filter_ext_in (A B : gset N) (l : list N) : (forall x, x ∈ l -> x ∈ A <-> x ∈ B) -> filter (fun x => x ∉ A) l = filter (fun x => x ∉ B) l.
Proof.
  induction l as [|x l IH]; intros H; [done|]. rewrite !filter_cons, IH by (intros y Hy; apply H; by right). assert (Hx := H x ltac:(by left)).
  destruct (decide (x ∉ A)), (decide (x ∉ B)); tauto.
Qed.

Lemma extend_safe s u : good s -> sets_ok s -> (covered s \/ ub) -> only_graph s -> u ∈ n_unlocalized s -> safe ub (extend w E opts graph s u)
  (fun x => inv x.1 /\ x.2 <> NoneLocalized /\ extended s x.1 u).
Proof.
  intros Hg (S1 & S2 & S3 & S4 & S5) Hcov Hon Hu. unfold extend. set (s1 := with_views s _ _ _). pose proof (S1 u Hu) as HuG. pose proof (graph_views_view u HuG) as Hu0.
  assert (Hg1 : good s1) by exact Hg.
  assert (I1 : inv s1).
  { split; [done|]. split; [|split; [|done]].
    - split; [intros x Hx; cbn [n_unlocalized s1 with_views] in Hx; apply elem_of_difference in Hx as [Hx _]; by apply S1|]. cbn [n_unlocalized n_reconstructed n_optimized s1 with_views]. split; [|split; [|split]].
      + intros x [Hx|Hx]%elem_of_app; [by apply S2|]. apply elem_of_list_singleton in Hx as ->. done.
      + apply NoDup_app. split; [done|]. split; [|apply NoDup_singleton]. intros x Hx Hx'. apply elem_of_list_singleton in Hx' as ->. by apply (S4 u).
      + intros x [Hx|Hx]%elem_of_app Hx'; apply elem_of_difference in Hx' as [K1 K2]; [by apply (S4 x)|]. apply elem_of_list_singleton in Hx as ->. by apply K2, elem_of_singleton.
      + rewrite app_length. cbn. lia.
    - destruct Hcov as [Hcov|]; [left|by right]. intros x Hx. cbn [n_unlocalized n_reconstructed s1 with_views]. destruct (Hcov x Hx) as [K|K].
      + destruct (decide (x = u)) as [->|N]; [right; apply elem_of_app; right; by apply elem_of_list_singleton|left; by apply elem_of_difference; rewrite elem_of_singleton].
      + right. apply elem_of_app. by left. }
  change (n_recon s) with (n_recon s1). destruct (proj1 (good_view s1 u Hg1) Hu0) as [v Hv]. cbn [n_recon s1 with_views] in Hv |- *. rewrite Hv. cbn [or_ub mbind outcome_bind].
  eapply safe_bind; [apply (remove_outliers_safe ub s1); [done|]|].
  { intros t Ht. apply elem_of_list_to_set in Ht. rewrite ord_perm, elem_of_elements, elem_of_dom in Ht. apply (sees_tracks s1 u t Hg1). by exists v. }
  intros s2 (Hk2 & _). pose proof (keep_inv _ _ Hk2 I1) as I2.
  eapply (safe_bind ub _ _ (fun x => inv x.1 /\ n_unlocalized x.1 = n_unlocalized s1 /\ n_reconstructed x.1 = n_reconstructed s1)).
  - destruct Hk2 as (Hg2 & _ & U2 & R2 & O2). destruct (growth_below _ _ _).
    + eapply safe_bind; [by apply (estimate_structure_safe ub s2 u)|]. intros s3 (Hk3 & _). pose proof (keep_inv _ _ Hk3 I2) as I3.
      eapply safe_weaken; [apply (partial_adjustment_safe ub s3); [apply I3|]|].
      { intros x Hx. apply graph_views_view. by apply I3. }
      intros [s4 ok] [Hk4 _]. cbn [fst] in *. split; [by eapply keep_inv|]. destruct Hk3 as (_ & _ & U3 & R3 & _), Hk4 as (_ & _ & U4 & R4 & _). split; congruence.
    + eapply safe_bind; [by apply (estimate_everything_safe ub s2)|]. intros s3 (Hk3 & _). pose proof (keep_inv _ _ Hk3 I2) as I3.
      eapply safe_weaken; [apply (full_adjustment_safe ub s3); apply I3|]. intros [s4 ok] (Hg4 & F4 & _ & U4 & R4 & O4). cbn [fst] in *.
      destruct I3 as (_ & (T1 & T2 & T3 & T4 & T5) & C3 & Og3). destruct Hk3 as (_ & _ & U3 & R3 & _). split; [|split; congruence]. split; [done|]. unfold sets_ok, covered, only_graph. rewrite U4, R4, O4.
      split; [split; [done|]; split; [done|]; split; [done|]; split; [done|]; lia|]. split; [done|]. intros x Hx. apply Og3. by apply (F4 x).
  - intros [s4 ok] (I4 & U4 & R4). cbn [fst] in *. clear Hk2 I2 s2. destruct I4 as (Hg4 & (T1 & T2 & T3 & T4 & T5) & C4 & Og4). destruct (good_facts s4 Hg4) as (Hc4 & _).
    pose proof (set_underconstrained_safe s4 (conj Hg4 (conj (conj T1 (conj T2 (conj T3 (conj T4 T5)))) (conj C4 Og4)))) as Hs.
    destruct (set_underconstrained_cases E graph s4 Hc4 T3 T4) as (r' & us & ts & _ & _ & _ & _ & _ & _ & [(s5 & E5 & _ & _ & _ & _ & B5 & B6)|(E5 & _)]); rewrite E5 in Hs |- *; cbn [mbind outcome_bind safe fst snd] in Hs |- *; [|done].
    destruct Hs as (I5 & Hsub & _). split; [done|]. split; [destruct ok; done|]. exists (n_unlocalized s5 ∖ n_unlocalized s4). split.
    + intros x. rewrite elem_of_difference. assert (K : x ∈ n_unlocalized s4 <-> x ∈ n_unlocalized s /\ x <> u). { rewrite U4. cbn. rewrite elem_of_difference, elem_of_singleton. done. }
      rewrite <- K. clear -Hsub. destruct (decide (x ∈ n_unlocalized s4)) as [H|H]; split; intros K; [by left|by apply Hsub|by right|by destruct K as [K|[K _]]].
    + rewrite B5, R4. cbn [s1 n_reconstructed with_views]. apply filter_ext_in. intros x Hx. rewrite elem_of_difference. split; [|tauto]. intros K. split; [done|]. apply T4. rewrite R4. done.
Qed.

Lemma localize_safe s u : let e := E (n_tick s) in good s -> is_Some (rc_views r0 !! u) ->
  exists ok inl r h, localize (w_unproject w) (w_center w) (w_hnorm w) (e_with_orientation e) (e_calibrated e) (e_uncalibrated e)
                         (e_order e) (e_ba_orders e) (e_solve e) focal_priors (localization_options opts) (image_size u).1 (image_size u).2
                         (n_recon s) (n_heap s) u [] = Ok (ok, inl, r, h) /\
    scene (n_recon s) (n_heap s) r h /\ rc_tracks r = rc_tracks (n_recon s) /\ (ok = true -> est_view r u) /\
    (forall x, x <> u -> rc_views r !! x = rc_views (n_recon s) !! x) /\ (forall x, est_view r x -> x = u \/ est_view (n_recon s) x).
Proof.
  intros e Hg Hu. destruct (good_facts s Hg) as (Hc & Hgr & Ha & H6 & _). apply (good_view s u Hg) in Hu as [v Hv]. destruct (HE (n_tick s)) as [Hp Hs].
  destruct (localize_changes_only (w_unproject w) (w_center w) (w_hnorm w) (e_with_orientation e) (e_calibrated e) (e_uncalibrated e) err ferr cerr (e_order e) (e_ba_orders e) (e_solve e)
    focal_priors (localization_options opts) (image_size u).1 (image_size u).2 (n_recon s) (n_heap s) u v [] Hp Hs Hc Hgr Ha H6 Hv) as (ok & inl & r & h & est & d & HL & Hps & Hd & Hest & _ & Hh1 & Hh2).
  { exact Hmin. }
  exists ok, inl, r, h. split; [exact HL|]. split; [|split; [|split; [|split]]].
  - eapply (posed_scene _ _ _ _ u v est d); [done|by rewrite Hd, (H6 u v Hv)|done|]. intros p. destruct (decide (p = v_intr v)) as [->|Np]; [|rewrite Hh1 by done; apply heap_refl].
    destruct (Ha u v Hv) as [i Hi]. destruct (Hh2 i Hi) as (i' & Hi' & Hty & Hlen & _). rewrite Hi, Hi'. by constructor.
  - destruct Hps as (-> & _). done.
  - intros ->. apply (posed_est _ _ _ _ _ _ u Hv Hps). left. split; [done|]. destruct est; [done|]. by discriminate Hest.
  - destruct Hps as (_ & Hw & _). done.
  - intros x Hx. apply (posed_est _ _ _ _ _ _ x Hv Hps) in Hx as [[-> _]|[_ ?]]; auto.
Qed.

Lemma localize_loop_safe views : forall s, inv s -> (forall u, u ∈ views -> u ∈ n_unlocalized s) ->
  safe ub (localize_loop w E opts graph focal_priors sizes s views) (fun x => inv x.1 /\
    match x.2 with
    | NoneLocalized => n_unlocalized x.1 = n_unlocalized s /\ n_reconstructed x.1 = n_reconstructed s
    | _ => exists u, u ∈ views /\ extended s x.1 u
    end).
Proof.
  induction views as [|u views IH]; intros s Hi Hv; [done|]. cbn [localize_loop]. destruct Hi as (Hg & Hs & Hcov & Hon). assert (Hu : u ∈ n_unlocalized s) by (apply Hv; by left).
  assert (HuG : u ∈ graph_views) by (destruct Hs as [K _]; by apply K). destruct (localize_safe s u Hg (graph_views_view u HuG)) as (ok & inl & r & h & HL & Hsc & _ & _ & _ & Hest). unfold image_size in HL. rewrite HL. cbn [mbind outcome_bind].
  set (s1 := with_heap s r h). assert (Hg1 : good s1) by (by apply same_heap_scene). assert (Hon1 : only_graph s1). { intros x Hx. destruct (Hest x Hx) as [->|K]; [by left|by apply Hon]. }
  destruct ok.
  - eapply safe_weaken; [by apply (extend_safe s1 u)|]. intros [s2 p] (I2 & Np & Hx). cbn [fst snd] in *. split; [done|]. destruct p; [done| |]; exists u; (split; [by left|done]).
  - eapply safe_weaken; [apply (IH s1); [done|intros x Hx; apply Hv; by right]|]. intros [s2 p] (I2 & Hx). cbn [fst snd] in *. split; [done|]. destruct p; [done| |]; destruct Hx as (x & Hx1 & Hx2); exists x; (split; [by right|done]).
Qed.

Lemma growth_loop_safe fuel : forall s, inv s -> safe ub (growth_loop w E opts graph focal_priors sizes fuel s) (fun x => inv x.1).
Proof.
  induction fuel as [|fuel IH]; intros s Hi; [done|]. cbn [growth_loop]. destruct (decide _); [done|]. eapply safe_bind; [by apply find_views_safe|]. intros views Hv.
  eapply safe_bind; [by apply localize_loop_safe|]. intros [s1 p] [I1 _]. cbn [fst snd] in *. destruct p; [done|done|]. by apply IH.
Qed.

(** OrderViewPairsByInitializationCriterion. *)
Definition order_ok (n : Z) : Prop := forall p i, vg_edges graph !! p = Some i -> (n < tv_verified i)%Z -> is_Some (rc_views r0 !! p.1) /\ is_Some (rc_views r0 !! p.2).
Lemma order_pairs_elem (o : order (N * N * two_view)) n p : p ∈ order_pairs graph o n <-> exists i, vg_edges graph !! p = Some i /\ (n < tv_verified i)%Z.
Proof.
  unfold order_pairs. rewrite elem_of_list_fmap. split.
  - intros ((c & q) & -> & Hc). rewrite merge_sort_Permutation, elem_of_list_omap in Hc. destruct Hc as ([q' i] & Hq & Hc). rewrite ord_perm, elem_of_map_to_list in Hq. cbn [fst snd] in Hc.
    destruct (decide _); [|done]. injection Hc as <- <-. by exists i.
  - intros (i & Hi & Hn). exists (tv_homography i, (- tv_verified i)%Z, p). split; [done|]. rewrite merge_sort_Permutation, elem_of_list_omap. exists (p, i).
    rewrite ord_perm, elem_of_map_to_list. split; [done|]. cbn [fst snd]. by rewrite decide_True.
Qed.

Context (Hgraph : forall p, is_Some (vg_edges graph !! p) -> (p.1 < p.2)%N /\ p.1 ∈ vg_view_ids graph /\ p.2 ∈ vg_view_ids graph).
Context (Hpairs : (forall p i, vg_edges graph !! p = Some i -> (kMinNumInitialTracks < tv_verified i)%Z -> is_Some (rc_views r0 !! p.1) /\ is_Some (rc_views r0 !! p.2)) \/ ub).

Lemma ordered_pairs_ok (o : order (N * N * two_view)) : Forall pair_ok (order_pairs graph o kMinNumInitialTracks).
Proof.
  apply Forall_forall. intros p Hp. apply order_pairs_elem in Hp as (i & Hi & Hn). destruct (Hgraph p) as (Hlt & _); [by exists i|]. split; [lia|]. split.
  - unfold view_id_pair. rewrite decide_True by done. destruct p as [a b]. cbn. by exists i.
  - destruct Hpairs as [K|]; [left; by apply (K p i)|by right].
Qed.

Lemma choose_initial_safe s : good s -> safe ub (choose_initial w E opts graph s) (fun x => chosen s x.1 x.2 (order_pairs graph (e_edges (E (n_tick s))) kMinNumInitialTracks)).
Proof. intros Hg. unfold choose_initial. apply choose_loop_safe; [done|]. apply ordered_pairs_ok. Qed.

Lemma pair_graph p (o : order (N * N * two_view)) : p ∈ order_pairs graph o kMinNumInitialTracks -> p.1 <> p.2 /\ p.1 ∈ vg_view_ids graph /\ p.2 ∈ vg_view_ids graph.
Proof. intros Hp. apply order_pairs_elem in Hp as (i & Hi & Hn). destruct (Hgraph p) as (Hlt & K); [by exists i|]. split; [lia|done]. Qed.

Lemma chosen_inv s s' ok (o : order (N * N * two_view)) : inv s -> n_reconstructed s = [] -> n_optimized s = 0%Z ->
  chosen s s' ok (order_pairs graph o kMinNumInitialTracks) -> inv s'.
Proof.
  intros (Hg & (S1 & S2 & S3 & S4 & S5) & Hcov & Hon) Hr Ho [Hg' H]. split; [done|]. destruct ok.
  - destruct H as (p & Hp & H1 & H2 & H3 & H4 & _ & _ & H5 & H6). apply pair_graph in Hp as (Hne & G1 & G2). rewrite Hr in H2. cbn [app] in H2. rewrite Hr in H3. cbn in H3.
    assert (P1 : p.1 ∈ graph_views) by (apply elem_of_intersection; split; [done|by apply elem_of_dom]). assert (P2 : p.2 ∈ graph_views) by (apply elem_of_intersection; split; [done|by apply elem_of_dom]).
    assert (Hin : forall u, u ∈ n_unlocalized s' <-> u ∈ n_unlocalized s /\ u <> p.1 /\ u <> p.2).
    { intros u. rewrite H1, !elem_of_difference, !elem_of_singleton. tauto. }
    assert (Hrec : forall u, u ∈ n_reconstructed s' <-> u = p.1 \/ u = p.2).
    { intros u. rewrite H2, !elem_of_cons. split; [intros [?|[?|K]]; auto; by apply elem_of_nil in K|]. tauto. }
    split; [|split].
    + split; [|split; [|split; [|split]]].
      * intros u Hu. apply Hin in Hu as [Hu _]. by apply S1.
      * intros u Hu. apply Hrec in Hu as [->| ->]; done.
      * rewrite H2. apply NoDup_cons. split; [|apply NoDup_singleton]. intros K. by apply elem_of_list_singleton in K.
      * intros u Hu. rewrite Hin. apply Hrec in Hu. tauto.
      * rewrite H3. lia.
    + destruct Hcov as [Hcov|]; [left|by right]. intros u Hu. destruct (Hcov u Hu) as [K|K]; [|rewrite Hr in K; by apply elem_of_nil in K].
      rewrite Hin, Hrec. destruct (decide (u = p.1)), (decide (u = p.2)); tauto.
    + intros u Hu. apply H4 in Hu as [->| ->]; by left.
  - destruct H as (H1 & H2 & H3 & H4). unfold sets_ok, covered, only_graph. rewrite H1, H2. split; [|split; [done|]].
    + split; [done|]. split; [done|]. split; [done|]. split; [done|]. destruct H3 as [->| ->]; [done|lia].
    + intros u Hu. destruct (H4 u Hu) as [K|(p & Hp & K & K')]; [by apply Hon|]. left. apply pair_graph in Hp as (_ & G1 & G2). apply elem_of_intersection. split; [destruct K as [->| ->]; done|]. by apply elem_of_dom.
Qed.

Lemma estimate_from_safe fuel s : inv s -> n_reconstructed s = [] -> n_optimized s = 0%Z -> safe ub (estimate_from w E opts graph focal_priors sizes fuel s)
  (fun x => inv x.1 /\ if is_success x.2 then (forall u, u ∈ is_views x.2 <-> est_view (n_recon x.1) u) /\ (forall t, t ∈ is_tracks x.2 <-> est_track (n_recon x.1) t)
                       else is_views x.2 = ∅ /\ is_tracks x.2 = ∅).
Proof.
  intros Hi Hr Ho. unfold estimate_from.
  eapply (safe_bind ub _ _ (fun x => inv x.1)).
  - destruct (decide _); [|done]. eapply safe_weaken; [apply choose_initial_safe; apply Hi|]. intros [s1 ok] Hc. cbn [fst snd] in *. by eapply chosen_inv.
  - intros [s1 ok] I1. cbn [fst] in I1. destruct ok; cbn [negb]; [|done]. eapply safe_bind; [by apply growth_loop_safe|]. intros [s2 ok] I2. cbn [fst] in I2. destruct ok; cbn [negb]; [|done].
    cbn [safe fst snd is_success is_views is_tracks]. split; [done|]. split; intros x; [apply estimated_views_lemma|apply estimated_tracks_lemma].
Qed.
End steps.
