(** C150-C154: hybrid reconstruction. *)
From stdpp Require Import gmap sorting strings.
From Coq Require Import Reals QArith_base Qreduction Qcanon Lra.
From Verif Require Import Base Reconstruction_Model ViewGraph_Model ViewGraph_Spec ViewGraph_Proofs SfmQueries_Model SfmQueries_Spec SfmQueries_Proofs SfmQueries_Props
  TrackEstimator_Model TrackEstimator_Spec TrackEstimator_Props TrackSelection_Model TrackSelection_Props
  VisibilityPyramid_Model VisibilityPyramid_Spec VisibilityPyramid_Props
  BundleAdjust_Model BundleAdjust_Spec BundleAdjust_Proofs BundleAdjust_Setup BundleAdjust_Result BundleAdjust_Props
  Localize_Model Localize_Spec Localize_Proofs Localize_Props Priors_Model Priors_Spec Priors_Props
  Incremental_Model Incremental_Spec Incremental_Proofs Incremental_Under Incremental_Steps Incremental_Props IncrementalCases_Props
  Hybrid_Model Hybrid_Spec Hybrid_Proofs.

Section props.
Context {F P W : Type}.
Notation recon := (recon F (list R) (list R)).
Implicit Types (r : recon) (h : gmap N intrinsics) (s : inc F) (w : world F P W) (pw : pair_world F) (E : nat -> env F P W) (opts : inc_options) (priors : N -> prior).

(** C150: the orientations of the rotation estimation are set in the views that are not estimated, and nothing else is
    changed. *)
Lemma orientation_steps (l : list (N * (R * R * R))) : forall r, NoDup (fst <$> l) -> oriented_views (list_to_map l) r (foldl orientation_step r l).
Proof.
  induction l as [|[u o] l IH]; intros r D.
  { split; [by destruct r|]. intros u. cbn [list_to_map foldl]. destruct (rc_views r !! u); cbn [fmap option_fmap option_map]; [|done]. change (list_to_map [] : gmap N (R * R * R)) with (∅ : gmap N (R * R * R)). by rewrite lookup_empty. }
  cbn in D. apply NoDup_cons in D as [Nu D]. cbn [foldl]. destruct (IH (orientation_step r (u, o)) D) as [I1 I2]. set (r' := foldl _ _ l) in *.
  assert (Hs : orientation_step r (u, o) = set_views r (rc_views (orientation_step r (u, o)))).
  { unfold orientation_step. cbn [fst snd]. destruct (rc_views r !! u) as [v|]; [|by destruct r]. destruct (v_est v); [by destruct r|done]. }
  split; [rewrite I1, Hs; done|]. intros x. rewrite I2. unfold orientation_step. cbn [fst snd list_to_map foldr].
  assert (Hl : (list_to_map l : gmap N (R * R * R)) !! u = None) by (by apply not_elem_of_list_to_map).
  destruct (decide (x = u)) as [->|Nx].
  - rewrite Hl. destruct (rc_views r !! u) as [v|] eqn:Hv.
    + destruct (v_est v) eqn:Ev; [rewrite Hv; cbn [fmap option_fmap option_map]; by rewrite lookup_insert, Ev|].
      unfold set_view. cbn [rc_views set_views]. rewrite lookup_alter, Hv. cbn [fmap option_fmap option_map]. rewrite lookup_insert, Ev. done.
    + by rewrite Hv.
  - assert (K : rc_views (orientation_step r (u, o)) !! x = rc_views r !! x).
    { unfold orientation_step. cbn [fst snd]. destruct (rc_views r !! u) as [v|] eqn:Hv; [|done]. destruct (v_est v) eqn:Ev; [done|]. unfold set_view. cbn [rc_views set_views]. by rewrite lookup_alter_ne. }
    unfold orientation_step in K. cbn [fst snd] in K. rewrite K. destruct (rc_views r !! x); cbn [fmap option_fmap option_map]; [|done]. by rewrite lookup_insert_ne.
Qed.
Theorem hybrid_orientations : forall orientations (oo : order (N * (R * R * R))) r, oriented_views orientations r (set_orientations orientations oo r).
Proof.
  intros orientations oo r. unfold set_orientations. assert (D : NoDup (fst <$> oo (map_to_list orientations))) by (rewrite ord_perm; apply NoDup_fst_map_to_list).
  pose proof (orientation_steps _ r D) as H. replace (list_to_map (oo (map_to_list orientations)) : gmap N (R * R * R)) with orientations in H; [exact H|].
  rewrite <- (list_to_map_to_list orientations) at 1. apply list_to_map_proper; [apply NoDup_fst_map_to_list|]. by rewrite ord_perm.
Qed.
Lemma oriented_scene orientations r r' h : six r -> oriented_views orientations r r' -> scene r h r' h /\ same_flags r r' /\ rc_tracks r' = rc_tracks r.
Proof.
  intros H6 [E V]. split; [|split].
  - apply set_views_scene; [done| |intros p; apply heap_refl]. intros u. rewrite V. destruct (rc_views r !! u) as [v|] eqn:Hv; cbn; constructor.
    destruct (orientations !! u); [|done]. destruct (v_est v); [done|]. cbn. split; [done|]. split; [done|]. split; [done|]. rewrite app_length, take_length, (H6 u v Hv). done.
  - intros u. unfold est_view. rewrite V. destruct (rc_views r !! u) as [v|]; cbn; [|done]. split; intros (x & [= <-] & K); eexists; (split; [done|]); destruct (orientations !! u); destruct (v_est v) eqn:Ev; cbn in *; congruence.
  - by rewrite E.
Qed.

(** The run as a whole. *)
Lemma hybrid_safe w pw E opts min_two_view (ops : list (vg_op two_view)) priors og ov tree rotations oo grid fuel r h sizes (ub : Prop) : let graph := (vg_run vg_empty ops).1 in
  environment_ok E -> options_ok opts grid -> input_ok r h priors ->
  pairs_present graph r \/ ub -> all_features_fit (w_position w) priors r \/ ub -> (forall u, ~ est_view r u) \/ ub ->
  safe ub (estimate_hybrid w pw E opts min_two_view graph priors og ov tree rotations oo grid fuel r h sizes)
    (fun x => let r' := n_recon x.1.1 in same_observations r r' /\ consistent r' /\ grouped r' /\ allocated r' (n_heap x.1.1) /\ six r' /\
      if is_success x.1.2
      then (forall u, u ∈ is_views x.1.2 <-> est_view r' u) /\ (forall t, t ∈ is_tracks x.1.2 <-> est_track r' t) /\
        exists orientations p i, rotations = Some orientations /\ vg_edges graph !! p = Some i /\ (100 < tv_verified i)%Z /\ some_orientation orientations p /\
          forall z, est_view r z -> z <> p.1 -> z <> p.2 -> ~ est_view r' z
      else is_views x.1.2 = ∅ /\ is_tracks x.1.2 = ∅).
Proof.
  intros graph (err & ferr & cerr & HE) (O1 & O2 & O3 & O4) (Hc & Hg & Ha & Hs & Hcr & H6 & Hn & Hp) Hpairs Hfeat Hfresh.
  unfold estimate_hybrid. match goal with |- context [check (?a && ?b)] => destruct (a && b) end; cbn [check mbind outcome_bind]; [|done].
  destruct (priors_set_groups og ov priors r h sizes Hg Ha Hs Hcr Hp) as (r1 & h1 & s1 & -> & Hsame & Hg1 & Ha1 & _ & _ & Hset & _). cbn [mbind outcome_bind].
  destruct (same_but_facts r r1 Hsame) as (D1 & D2 & F1 & C1 & S1 & T1). pose proof (C1 Hc) as Hc1. pose proof (S1 H6) as H61.
  assert (Hbase : forall r2, scene r1 h1 r2 h1 -> same_observations r r2 /\ consistent r2 /\ grouped r2 /\ allocated r2 h1 /\ six r2).
  { intros r2 Hsc. split; [eapply observations_trans; [by apply same_but_observations|by eapply scene_observations]|].
    split; [by eapply scene_consistent|]. split; [by eapply scene_grouped|]. split; [by eapply scene_allocated|]. by eapply scene_six. }
  destruct tree; cbn [check mbind outcome_bind]; [|done]. destruct rotations as [orientations|].
  2:{ cbn [safe fst snd is_success is_views is_tracks n_recon n_heap]. destruct (Hbase r1 (scene_refl _ _)) as (B1 & B2 & B3 & B4 & B5). done. }
  destruct (oriented_scene orientations r1 _ h1 H61 (hybrid_orientations orientations oo r1)) as (Hsc & Hfl & Htr). set (r2 := set_orientations orientations oo r1) in *.
  destruct (Hbase r2 Hsc) as (B1 & B2 & B3 & B4 & B5).
  destruct (decide _); [cbn [safe fst snd is_success is_views is_tracks n_recon n_heap]; done|].
  set (s := Inc r2 h1 (unestimated_views r) [] 0 grid 0). destruct (scene_dom _ _ _ _ Hsc) as (E1 & E2 & _).
  assert (HU : forall u, u ∈ unestimated_views r <-> is_Some (rc_views r !! u) /\ ~ est_view r u).
  { intros u. unfold unestimated_views. rewrite elem_of_filter, elem_of_dom. unfold est_view. destruct (rc_views r !! u) as [v|]; cbn.
    - destruct (v_est v) eqn:Ev.
      + split; [intros [? _]; done|]. intros (_ & K). exfalso. apply K. by exists v.
      + split; [intros [_ ?]; split; [done|]; intros (v' & [= <-] & ?); congruence|]. by intros (? & _).
    - split; [intros [? _]; done|]. intros ([? ?] & _). done. }
  assert (Hinv : inv (constant_orientations opts) (views_graph r2) r2 h1 ub s).
  { split; [|split; [|split]].
    - split; [apply scene_refl|]. intros K. by apply O4.
    - split; [|split; [|split; [|split]]]; cbn; [|by intros u Hu%elem_of_nil|constructor|by intros u Hu%elem_of_nil|lia].
      intros u Hu. apply HU in Hu as (K2 & _). apply (proj2 (all_views opts r2 O1 u)). rewrite <- elem_of_dom, E2, D1, elem_of_dom. done.
    - destruct Hfresh as [Hf|]; [left|by right]. intros u Hu. left. cbn. apply HU. apply (proj1 (all_views opts r2 O1 u)) in Hu. rewrite <- elem_of_dom, E2, D1, elem_of_dom in Hu. split; [done|]. apply Hf.
    - intros u (v & Hu & _). left. apply (proj2 (all_views opts r2 O1 u)). by exists v. }
  assert (Hfeat' : features_ok (w_position w) (image_size s1) (views_graph r2) r2 \/ ub).
  { destruct Hfeat as [Hf|]; [left|by right]. intros u v2 t f Hu Hv2 Hft. destruct (scene_view _ _ _ _ u v2 Hsc Hv2) as (v1 & Hv1 & _ & Hfe & _). rewrite Hfe in Hft. destruct (T1 u t f) as (v & Hv & Hft'); [by exists v1|].
    destruct Hg as (G1 & G2 & _). destruct (proj1 (G1 u)) as [c Hcu]; [by exists v|]. destruct (proj2 (G2 c u) Hcu) as (X & HX & _). destruct (Hset c) as (rep & R1 & _ & R2); [by exists X|].
    destruct (R2 u Hcu) as (Esz & _). unfold image_size. rewrite Esz. cbn. apply (Hf u v t f rep c); done. }
  eapply safe_bind.
  - apply (hybrid_from_safe w pw E opts min_two_view graph _ s1 orientations err ferr cerr HE r2 h1 B2 B3 B4 B5); [by rewrite E1, D2|done|done|done| | |exact Hfeat'|exact Hinv|done|done].
    + intros p Hp'. by apply (graph_edges ops).
    + destruct Hpairs as [K|]; [left|by right]. intros p Hp'. rewrite <- !elem_of_dom, E2, D1, !elem_of_dom. by apply K.
  - intros [s' sm] (Hi & Hsm). cbn [safe fst snd] in *. destruct Hi as ((Hsc' & Hgr) & _ & _ & _). split; [eapply observations_trans; [exact B1|by eapply scene_observations]|].
    split; [by eapply scene_consistent|]. split; [by eapply scene_grouped|]. split; [by eapply scene_allocated|]. split; [by eapply scene_six|]. destruct (is_success sm); [|done].
    destruct Hsm as (A1 & A2 & p & i & A3 & A4 & A5 & A6). split; [done|]. split; [done|]. exists orientations, p, i. split; [done|]. split; [done|]. split; [exact A4|]. split; [exact A5|].
    intros z Hz N1 N2. apply A6; [|cbn; intros K; by apply HU in K as [_ K]|done|done]. destruct Hz as (v & Hz & _). rewrite <- elem_of_dom, E2, D1, elem_of_dom. by exists v.
Qed.

(** C151: whatever the robust estimators, the nonlinear solver, the thread schedules and the iteration orders do, a run
    that returns has changed only poses, points, estimated flags and intrinsics; the summary lists exactly the estimated
    views and tracks, or nothing after a failure; and on success the reconstruction was started from a pair of the graph
    with more than 100 verified matches and with a known orientation. *)
Theorem hybrid_frame : forall w pw E opts min_two_view (ops : list (vg_op two_view)) priors og ov tree rotations oo grid fuel r h sizes s sm sizes',
  let graph := (vg_run vg_empty ops).1 in
  environment_ok E -> options_ok opts grid -> input_ok r h priors ->
  estimate_hybrid w pw E opts min_two_view graph priors og ov tree rotations oo grid fuel r h sizes = Ok (s, sm, sizes') ->
  let r' := n_recon s in
  same_observations r r' /\ consistent r' /\ grouped r' /\ allocated r' (n_heap s) /\ six r' /\
  if is_success sm
  then (forall u, u ∈ is_views sm <-> est_view r' u) /\ (forall t, t ∈ is_tracks sm <-> est_track r' t) /\
    exists orientations p i, rotations = Some orientations /\ vg_edges graph !! p = Some i /\ (100 < tv_verified i)%Z /\ some_orientation orientations p
  else is_views sm = ∅ /\ is_tracks sm = ∅.
Proof.
  intros w pw E opts mt ops priors og ov tree rotations oo grid fuel r h sizes s sm sizes' graph HE HO HI Hrun.
  pose proof (hybrid_safe w pw E opts mt ops priors og ov tree rotations oo grid fuel r h sizes True HE HO HI (or_intror I) (or_intror I) (or_intror I)) as H. fold graph in H. rewrite Hrun in H. cbn [safe fst snd] in H.
  destruct H as (A1 & A2 & A3 & A4 & A5 & A6). cbv zeta. split; [exact A1|]. split; [exact A2|]. split; [exact A3|]. split; [exact A4|]. split; [exact A5|]. clear Hrun. destruct (is_success sm); [|exact A6].
  destruct A6 as (B1 & B2 & o & p & i & B3 & B4 & B5 & B6 & _). split; [exact B1|]. split; [exact B2|]. exists o, p, i. done.
Qed.

(** C152, the part that holds: if no view is estimated before, the pairs of the graph consist of views of the
    reconstruction, and the features fit in the visibility pyramid, nothing undefined happens. *)
Theorem hybrid_no_undefined_partial : forall w pw E opts min_two_view (ops : list (vg_op two_view)) priors og ov tree rotations oo grid fuel r h sizes,
  let graph := (vg_run vg_empty ops).1 in
  environment_ok E -> options_ok opts grid -> input_ok r h priors ->
  pairs_present graph r -> all_features_fit (w_position w) priors r -> (forall u, ~ est_view r u) ->
  estimate_hybrid w pw E opts min_two_view graph priors og ov tree rotations oo grid fuel r h sizes <> UB.
Proof.
  intros w pw E opts mt ops priors og ov tree rotations oo grid fuel r h sizes graph HE HO HI Hp Hf Hfr K.
  pose proof (hybrid_safe w pw E opts mt ops priors og ov tree rotations oo grid fuel r h sizes False HE HO HI (or_introl Hp) (or_introl Hf) (or_introl Hfr)) as H. fold graph in H. rewrite K in H. exact H.
Qed.

(** C153, refuted: views that were estimated before are not kept.  Whenever the run succeeds, every one of them that is
    not in the initial pair has become unestimated, and has not been localized again. *)
Theorem hybrid_estimated_views_refuted : forall w pw E opts min_two_view (ops : list (vg_op two_view)) priors og ov tree rotations oo grid fuel r h sizes s sm sizes',
  let graph := (vg_run vg_empty ops).1 in
  environment_ok E -> options_ok opts grid -> input_ok r h priors ->
  estimate_hybrid w pw E opts min_two_view graph priors og ov tree rotations oo grid fuel r h sizes = Ok (s, sm, sizes') -> is_success sm = true ->
  exists a b, forall z, est_view r z -> z <> a -> z <> b -> ~ est_view (n_recon s) z /\ z ∉ is_views sm.
Proof.
  intros w pw E opts mt ops priors og ov tree rotations oo grid fuel r h sizes s sm sizes' graph HE HO HI Hrun Hok.
  pose proof (hybrid_safe w pw E opts mt ops priors og ov tree rotations oo grid fuel r h sizes True HE HO HI (or_intror I) (or_intror I) (or_intror I)) as H. fold graph in H. rewrite Hrun in H. cbn [safe fst snd] in H.
  clear Hrun. rewrite Hok in H. destruct H as (_ & _ & _ & _ & _ & B1 & _ & o & p & i & _ & _ & _ & _ & B6). exists p.1, p.2. intros z Hz N1 N2. pose proof (B6 z Hz N1 N2) as K. split; [exact K|]. rewrite B1. exact K.
Qed.

(** C154: the initial pair.  On success exactly the two views of an edge with more than 100 verified matches are estimated,
    the orientation of one of them is known, and more than 100 tracks are estimated, each seen by both views. *)
Theorem hybrid_initial_pair : forall w pw E opts min_two_view (ops : list (vg_op two_view)) orientations s s',
  let graph := (vg_run vg_empty ops).1 in
  environment_ok E -> options_ok opts (n_grid s) -> consistent (n_recon s) -> grouped (n_recon s) -> allocated (n_recon s) (n_heap s) -> six (n_recon s) ->
  (Z.of_nat (size (dom (rc_tracks (n_recon s)))) < 2 ^ 31)%Z ->
  choose_initial_hybrid w pw E opts min_two_view graph orientations s = Ok (s', true) ->
  let r' := n_recon s' in
  same_observations (n_recon s) r' /\
  exists p i, vg_edges graph !! p = Some i /\ (100 < tv_verified i)%Z /\ some_orientation orientations p /\ (forall u, est_view r' u <-> u = p.1 \/ u = p.2) /\
    (exists X : gset N, (100 < Z.of_nat (size X))%Z /\ forall t, t ∈ X <-> est_track r' t) /\
    (forall t, est_track r' t -> sees r' p.1 t /\ sees r' p.2 t) /\
    n_unlocalized s' = n_unlocalized s ∖ {[p.1; p.2]} /\ n_reconstructed s' = n_reconstructed s ++ [p.1; p.2].
Proof.
  intros w pw E opts mt ops orientations s s' graph (err & ferr & cerr & HE) (O1 & O2 & O3 & O4) Hc Hg Ha H6 Hn Hrun.
  assert (Hgood : good (constant_orientations opts) (n_recon s) (n_heap s) s). { split; [apply scene_refl|]. intros K. by apply O4. }
  assert (Hgr : forall p, is_Some (vg_edges graph !! p) -> (p.1 < p.2)%N) by (intros p Hp'; by apply (graph_edges ops)).
  pose proof (choose_initial_hybrid_safe w pw E opts mt graph orientations err ferr cerr HE (n_recon s) (n_heap s) Hc Hg Ha H6 Hn O1 O2 O3 True Hgr (or_intror I) s Hgood) as H. rewrite Hrun in H. cbn [safe fst snd] in H.
  destruct H as (pairs & Hps & [[Hsc _] (p & Hp & U & L & _ & Hest & (X & HX & HX') & Hsee & _)] & Hor). split; [by eapply scene_observations|]. destruct (Hps p Hp) as (i & Hi & Hv).
  exists p, i. split; [done|]. split; [done|]. split; [|split; [done|split; [|split; [done|split; [|done]]]]].
  - destruct (Hor eq_refl) as (q & _ & Q1 & Q2). rewrite L in Q1. apply app_inv_head in Q1. destruct p as [a b], q as [c d]. cbn in Q1. injection Q1 as -> ->. exact Q2.
  - exists (estimated_tracks ord_id (n_recon s')). split; [|intros t; apply estimated_tracks_lemma]. unfold kMinNumInitialTracks in HX. eapply Z.lt_le_trans; [exact HX|]. apply inj_le, subseteq_size.
    intros t Ht. apply estimated_tracks_lemma. by apply HX'.
  - rewrite U. apply set_eq. intros u. rewrite !elem_of_difference, elem_of_union, !elem_of_singleton. tauto.
Qed.
(** The candidates are exactly the pairs with more matches than the limit, each once, best first. *)
Theorem hybrid_pair_order : forall pw E (graph : view_graph two_view) orientations s n l,
  consistent (n_recon s) -> grouped (n_recon s) -> allocated (n_recon s) (n_heap s) -> six (n_recon s) ->
  order_pairs_hybrid (P:=P) (W:=W) pw E graph orientations s n = Ok l ->
  NoDup l /\ (forall p, p ∈ l <-> exists i, vg_edges graph !! p = Some i /\ (n < tv_verified i)%Z) /\
  forall (k k' : nat) p q i j, (k < k')%nat -> l !! k = Some p -> l !! k' = Some q -> vg_edges graph !! p = Some i -> vg_edges graph !! q = Some j ->
    exists a b, pair_angle (pw_angle pw (n_heap s)) orientations (n_recon s) p a /\ pair_angle (pw_angle pw (n_heap s)) orientations (n_recon s) q b /\
      better_seed (a, tv_verified i, p) (b, tv_verified j, q).
Proof.
  intros pw E graph orientations s n l Hc Hg Ha H6 Hrun.
  assert (Hgood : good (constant_orientations easy_options) (n_recon s) (n_heap s) s). { split; [apply scene_refl|]. intros K. discriminate K. }
  pose proof (order_hybrid_safe pw E easy_options graph orientations (n_recon s) (n_heap s) Hc Hg Ha H6 True (or_intror I) s n Hgood) as H. rewrite Hrun in H. cbn [safe] in H.
  destruct H as (m & -> & Hnd & Hsc & Hall). clear Hrun. split; [by rewrite merge_sort_Permutation|].
  assert (Hang : forall c, c ∈ m -> exists i, vg_edges graph !! c.2 = Some i /\ (n < tv_verified i)%Z /\ c.1.2 = (- tv_verified i)%Z /\ pair_angle (pw_angle pw (n_heap s)) orientations (n_recon s) c.2 (- c.1.1)%Z).
  { intros c Hin. destruct (Hsc c Hin) as (i & A1 & A2 & A3 & A4). exists i. split; [done|]. split; [done|]. split; [done|]. destruct A4 as [([K1 K2] & A4)|(K & A4)]; [left|right; split; [done|]; rewrite A4; done].
    split; [done|]. split; [done|]. unfold triangulation_angle in A4. destruct (find_common_tracks _ _ _); [|discriminate A4|discriminate A4|discriminate A4]. cbn [mbind outcome_bind] in A4.
    destruct (rc_views (n_recon s) !! c.2.1) as [v1|]; [|discriminate A4]. destruct (rc_views (n_recon s) !! c.2.2) as [v2|]; [|discriminate A4]. cbn [or_ub mbind outcome_bind] in A4. injection A4 as A4. by exists v1, v2. }
  split.
  - intros p. rewrite merge_sort_Permutation. split.
    + intros Hp. apply elem_of_list_fmap in Hp as (c & -> & Hin). destruct (Hang c Hin) as (i & A1 & A2 & _). by exists i.
    + intros (i & A1 & A2). by apply (Hall p i).
  - intros k k' p q i j Hk Hp Hq Hi Hj. rewrite list_lookup_fmap in Hp, Hq. apply fmap_Some in Hp as (c & Hcc & ->), Hq as (d & Hd & ->). change (merge_sort candidate_le m !! k = Some c) in Hcc. change (merge_sort candidate_le m !! k' = Some d) in Hd.
    assert (Hs : StronglySorted candidate_le (merge_sort candidate_le m)). { apply StronglySorted_merge_sort; [exact candidate_trans|exact candidate_total]. }
    pose proof (sorted_lookup _ _ k k' c d Hs Hk Hcc Hd) as Hle.
    assert (Hne : c.2 <> d.2).
    { intros K. assert (NoDup (merge_sort candidate_le m).*2) as Hn2 by (by rewrite merge_sort_Permutation). assert (k = k'); [|lia].
      apply (NoDup_lookup (merge_sort candidate_le m).*2 k k' c.2 Hn2); [apply (lookup_snd _ _ _ Hcc)|rewrite K; apply (lookup_snd _ _ _ Hd)]. }
    assert (Hin : c ∈ m /\ d ∈ m). { rewrite <- (merge_sort_Permutation candidate_le m). split; by eapply elem_of_list_lookup_2. }
    destruct Hin as [Hin1 Hin2]. apply Hang in Hin1 as (i' & Hi' & _ & A2 & A3), Hin2 as (j' & Hj' & _ & B2 & B3). assert (i' = i) as -> by congruence. assert (j' = j) as -> by congruence.
    exists (- c.1.1)%Z, (- d.1.1)%Z. split; [done|]. split; [done|].
    unfold better_seed. cbn [fst snd]. unfold candidate_le in Hle. rewrite A2, B2 in Hle. destruct c as [[c1 c2] [c3 c4]], d as [[d1 d2] [d3 d4]]. cbn [fst snd] in *.
    assert (c3 <> d3 \/ c4 <> d4). { destruct (decide (c3 = d3)), (decide (c4 = d4)); subst; auto. } lia.
Qed.
(** C153, the part that holds: they are kept if the run fails before an initial pair is tried. *)
Theorem hybrid_estimated_views_partial : forall w pw E opts min_two_view (ops : list (vg_op two_view)) priors og ov tree rotations oo grid fuel r h sizes s sm sizes',
  let graph := (vg_run vg_empty ops).1 in
  input_ok r h priors -> rotations = None \/ rotations = Some ∅ \/ (forall p i, vg_edges graph !! p = Some i -> (tv_verified i <= 100)%Z) ->
  estimate_hybrid w pw E opts min_two_view graph priors og ov tree rotations oo grid fuel r h sizes = Ok (s, sm, sizes') ->
  is_success sm = false /\ (forall u, est_view (n_recon s) u <-> est_view r u) /\ (forall t, est_track (n_recon s) t <-> est_track r t).
Proof.
  intros w pw E opts mt ops priors og ov tree rotations oo grid fuel r h sizes s sm sizes' graph (Hc & Hg & Ha & Hs & Hcr & H6 & Hn & Hp) Hno.
  unfold estimate_hybrid. match goal with |- context [check (?a && ?b)] => destruct (a && b) end; cbn [check mbind outcome_bind]; [|intros K; discriminate K].
  destruct (priors_set_groups og ov priors r h sizes Hg Ha Hs Hcr Hp) as (r1 & h1 & s1 & -> & Hsame & Hg1 & Ha1 & _). cbn [mbind outcome_bind].
  destruct (same_but_facts r r1 Hsame) as (D1 & D2 & F1 & C1 & S1 & T1). pose proof (C1 Hc) as Hc1. pose proof (S1 H6) as H61.
  assert (Ht : rc_tracks r1 = rc_tracks r) by (by destruct Hsame as (_ & _ & _ & _ & A5 & _)).
  destruct tree; cbn [check mbind outcome_bind]; [|intros K; discriminate K]. destruct rotations as [orientations|].
  2:{ intros K. injection K as <- <- <-. cbn [is_success n_recon]. split; [done|]. split; [exact F1|]. intros t. unfold est_track. by rewrite Ht. }
  destruct (oriented_scene orientations r1 _ h1 H61 (hybrid_orientations orientations oo r1)) as (Hsc & Hfl & Htr). set (r2 := set_orientations orientations oo r1) in *.
  assert (Hend : (forall u, est_view r2 u <-> est_view r u) /\ (forall t, est_track r2 t <-> est_track r t)). { split; [intros u; specialize (Hfl u); specialize (F1 u); tauto|]. intros t. unfold est_track. by rewrite Htr, Ht. }
  destruct (decide _) as [|Hne]; [intros K; injection K as <- <- <-; cbn [is_success n_recon]; split; [done|exact Hend]|].
  assert (Hlow : forall p i, vg_edges graph !! p = Some i -> (tv_verified i <= 100)%Z). { destruct Hno as [K|[K|K]]; [discriminate K| |exact K]. injection K as K. done. }
  unfold hybrid_from, choose_initial_hybrid. set (s0 := Inc r2 _ _ _ _ _ _). destruct (order_pairs_hybrid pw E graph orientations s0 kMinNumInitialTracks) as [l| | |] eqn:El; cbn [mbind outcome_bind]; [|intros K; discriminate K|intros K; discriminate K|intros K; discriminate K].
  destruct (hybrid_pair_order pw E graph orientations s0 _ l (scene_consistent _ _ _ _ Hsc Hc1) (scene_grouped _ _ _ _ Hsc Hg1) (scene_allocated _ _ _ _ Hsc Ha1) (scene_six _ _ _ _ Hsc H61) El) as (_ & Hl & _). clear El.
  destruct l as [|p l]; [|exfalso; destruct (proj1 (Hl p)) as (i & Hi & Hv); [by left|]; apply Hlow in Hi; unfold kMinNumInitialTracks in Hv; lia].
  cbn [choose_loop_hybrid mbind outcome_bind negb]. intros K. injection K as <- <- <-. cbn [is_success n_recon]. split; [done|exact Hend].
Qed.
End props.
Print Assumptions hybrid_orientations.
Print Assumptions hybrid_frame.
Print Assumptions hybrid_no_undefined_partial.
Print Assumptions hybrid_estimated_views_refuted.
Print Assumptions hybrid_estimated_views_partial.
Print Assumptions hybrid_initial_pair.
Print Assumptions hybrid_pair_order.

(** Concrete cases: the angle of a pair is the number of tracks that its first view sees, and the relative position of a pair
    is found with 1000 inliers. *)
Definition near_pair : pair_world N :=
  PairWorld (fun _ v1 _ => Z.of_nat (size (dom (v_feats v1)))) (fun _ p => p) (fun _ _ _ _ => Some ((1, 0, 0)%R, 1000%Z)).
Definition two_orientations : gmap N (R * R * R) := {[0%N := (0, 0, 0)%R; 1%N := (0, 1, 0)%R]}.
Notation sample_run ops rotations r := (estimate_hybrid flat_world near_pair (fun _ => @still_env N unit unit) easy_options 30 (vg_run vg_empty ops).1
  (fun _ => plain_prior) ord_id (fun _ => ord_id) true (Some rotations) ord_id None 1 r scene_heap ∅).

(** C151, C153: a successful run.  The views 0 and 1 share 101 tracks; the views 2 and 3 were estimated before. *)
Example hybrid_sample : exists r s sm sizes, input_ok r scene_heap (fun _ => plain_prior) /\ environment_ok (fun _ => @still_env N unit unit) /\ options_ok easy_options None /\
  sample_run (graph_ops 101) two_orientations r = Ok (s, sm, sizes) /\ is_success sm = true /\ elements (is_views sm) = [0; 1]%N /\ size (is_tracks sm) = 101%nat /\
  est_view r 2 /\ est_view r 3.
Proof.
  destruct (scene_exists (many 101) [false; false; true; true] false (fun r => (v_est <$> rc_views r !! 2%N = Some true /\ v_est <$> rc_views r !! 3%N = Some true) /\
    match sample_run (graph_ops 101) two_orientations r with
    Ok (s, sm, _) => is_success sm = true /\ elements (is_views sm) = [0; 1]%N /\ size (is_tracks sm) = 101%nat | _ => False end)) as (r & _ & H1 & [H2 H3] & H4).
  - vm_compute. reflexivity.
  - vm_compute. repeat split.
  - apply fmap_Some in H2 as (v2 & V2 & K2), H3 as (v3 & V3 & K3). exists r. destruct (sample_run (graph_ops 101) two_orientations r) as [[[s sm] sizes]| | |] eqn:E; [|destruct H4|destruct H4|destruct H4]. clear E. exists s, sm, sizes. split; [exact H1|]. split; [apply still_ok|]. split; [apply easy_ok|].
    split; [reflexivity|]. destruct H4 as (A1 & A2 & A3). split; [exact A1|]. split; [exact A2|]. split; [exact A3|]. split; [exists v2; split; [exact V2|symmetry; exact K2]|exists v3; split; [exact V3|symmetry; exact K3]].
Qed.

(** C152, refuted: a pair of the graph with a view that is not in the reconstruction is dereferenced. *)
Theorem hybrid_missing_view_refuted : exists r, input_ok r scene_heap (fun _ => plain_prior) /\ environment_ok (fun _ => @still_env N unit unit) /\ options_ok easy_options None /\
  (forall u, ~ est_view r u) /\ sample_run [VAddEdge 0 9 (info 101)]%N two_orientations r = UB.
Proof.
  destruct (scene_exists (many 101) [false; false; false; false] false (fun r => forallb (fun x => negb (v_est x.2)) (map_to_list (rc_views r)) = true /\ sample_run [VAddEdge 0 9 (info 101)]%N two_orientations r = UB)) as (r & _ & H1 & H2 & H3).
  - vm_compute. reflexivity.
  - vm_compute. repeat split.
  - exists r. split; [exact H1|]. split; [apply still_ok|]. split; [apply easy_ok|]. split; [|exact H3]. clear H3. intros u (v & Hv & Ev). rewrite forallb_forall in H2. specialize (H2 (u, v)). cbn [snd] in H2. rewrite Ev in H2. discriminate H2.
    apply elem_of_list_In, elem_of_map_to_list. exact Hv.
Qed.
Print Assumptions hybrid_missing_view_refuted.

(** C152: the hypotheses of the theorem are met. *)
Example hybrid_no_undefined_sample : exists r, input_ok r scene_heap (fun _ => plain_prior) /\ pairs_present (graph_of 101) r /\
  all_features_fit (w_position flat_world) (fun _ => plain_prior) r /\ (forall u, ~ est_view r u) /\ (exists u t, sees r u t).
Proof.
  destruct (scene_exists (many 101) [false; false; false; false] false (fun r => (elements (dom (rc_views r)) = [0; 1; 3; 2]%N /\ fresh r))) as (r & _ & H1 & D & H2).
  - vm_compute. reflexivity.
  - vm_compute. repeat split.
  - assert (D' : forall u, u ∈ [0; 1; 3; 2]%N -> is_Some (rc_views r !! u)). { intros u Hu. rewrite <- D in Hu. by apply elem_of_dom, elem_of_elements. }
    exists r. split; [exact H1|]. clear H1. split; [|split; [|split]].
    + intros p [i Hi]. assert (K : (p, i) ∈ map_to_list (vg_edges (graph_of 101))) by (by apply elem_of_map_to_list).
      assert (K' : forallb (fun e : N * N * two_view => bool_decide (e.1.1 ∈ [0; 1; 3; 2]%N) && bool_decide (e.1.2 ∈ [0; 1; 3; 2]%N)) (map_to_list (vg_edges (graph_of 101))) = true) by (vm_compute; reflexivity).
      rewrite forallb_forall in K'. apply elem_of_list_In, K' in K. apply andb_true_iff in K as [K1 K2]. apply bool_decide_eq_true in K1, K2. split; apply D'; assumption.
    + intros u v t f x c _ _ _ _. split; exact small_fits.
    + destruct H2 as (H2 & _). intros u (v & Hv & He). rewrite forallb_forall in H2. specialize (H2 (u, v)). rewrite <- elem_of_list_In, elem_of_map_to_list in H2. specialize (H2 Hv). cbn [snd] in H2. by rewrite He in H2.
    + destruct H2 as (_ & H3 & _). apply fmap_Some in H3 as (v0 & V0 & K0). exists 0%N, 0%N, v0. split; [exact V0|]. by exists 7%N.
Qed.

(** C154: an initial pair is found; the view 1 of the pair has no known orientation. *)
Definition one_orientation : gmap N (R * R * R) := {[0%N := (0, 0, 0)%R]}.
Example hybrid_initial_pair_sample : exists r s', let s := Inc r scene_heap {[0; 1; 2; 3]}%N [] 0 None 0 in
  environment_ok (fun _ => @still_env N unit unit) /\ options_ok easy_options None /\ input_ok r scene_heap (fun _ => plain_prior) /\
  choose_initial_hybrid flat_world near_pair (fun _ => @still_env N unit unit) easy_options 30 (graph_of 101) one_orientation s = Ok (s', true) /\
  elements (n_unlocalized s') = [3; 2]%N /\ n_reconstructed s' = [0; 1]%N.
Proof.
  destruct (scene_exists (many 101) [false; false; false; false] false (fun r => match choose_initial_hybrid flat_world near_pair (fun _ => @still_env N unit unit) easy_options 30 (graph_of 101) one_orientation (Inc r scene_heap {[0; 1; 2; 3]}%N [] 0 None 0) with
    Ok (s', true) => elements (n_unlocalized s') = [3; 2]%N /\ n_reconstructed s' = [0; 1]%N | _ => False end)) as (r & _ & H1 & H2).
  - vm_compute. reflexivity.
  - vm_compute. repeat split.
  - exists r. cbv zeta. destruct (choose_initial_hybrid _ _ _ _ _ _ _ _) as [[s' ok]| | |]; [|destruct H2|destruct H2|destruct H2]. destruct ok; [|destruct H2]. exists s'. split; [apply still_ok|]. split; [apply easy_ok|]. split; [exact H1|]. split; [reflexivity|]. exact H2.
Qed.

(** The pair (0, 1), with both orientations known and a large angle, comes first; then more matches; ties by ids. *)
Example hybrid_pair_order_sample : exists r, input_ok r scene_heap (fun _ => plain_prior) /\
  order_pairs_hybrid near_pair (fun _ => @still_env N unit unit) (vg_run vg_empty [VAddEdge 1 2 (info 200); VAddEdge 0 2 (info 300); VAddEdge 0 1 (info 150); VAddEdge 0 3 (info 200); VAddEdge 2 3 (info 100)]%N).1
    two_orientations (Inc r scene_heap ∅ [] 0 None 0) 100 = Ok [(0, 1); (0, 2); (0, 3); (1, 2)]%N.
Proof.
  destruct (scene_exists (many 4) [false; false; false; false] false (fun r => order_pairs_hybrid near_pair (fun _ => @still_env N unit unit) (vg_run vg_empty [VAddEdge 1 2 (info 200); VAddEdge 0 2 (info 300); VAddEdge 0 1 (info 150); VAddEdge 0 3 (info 200); VAddEdge 2 3 (info 100)]%N).1
    two_orientations (Inc r scene_heap ∅ [] 0 None 0) 100 = Ok [(0, 1); (0, 2); (0, 3); (1, 2)]%N)) as (r & _ & H1 & H2).
  - vm_compute. reflexivity.
  - vm_compute. repeat split.
  - exists r. split; [exact H1|exact H2].
Qed.

(** C150: view 0 gets the orientation, view 1, which is estimated, does not. *)
Example hybrid_orientations_sample : exists (r : recon N (list R) (list R)) v0 v1, input_ok r scene_heap (fun _ => plain_prior) /\
  rc_views (set_orientations two_orientations ord_id r) !! 0%N = Some v0 /\ rc_views (set_orientations {[0%N := (1, 2, 3)%R; 1%N := (0, 1, 0)%R]} ord_id r) !! 1%N = Some v1 /\
  v_est v0 = false /\ v_est v1 = true /\ rc_views r !! 1%N = Some v1.
Proof.
  destruct (scene_exists (many 2) [false; true; false; false] false (fun r => v_est <$> rc_views r !! 0%N = Some false /\ v_est <$> rc_views r !! 1%N = Some true)) as (r & _ & H1 & H2 & H3).
  - vm_compute. reflexivity.
  - vm_compute. repeat split.
  - apply fmap_Some in H2 as (v0 & V0 & K0), H3 as (v1 & V1 & K1). destruct (hybrid_orientations two_orientations ord_id r) as [_ A], (hybrid_orientations {[0%N := (1, 2, 3)%R; 1%N := (0, 1, 0)%R]} ord_id r) as [_ B].
    exists r, (View (v_name v0) false (v_intr v0) (take 3 (v_data v0) ++ [0; 0; 0]%R) (v_feats v0)), v1. split; [exact H1|]. clear H1. split; [rewrite A, V0; cbn [fmap option_fmap option_map]; unfold two_orientations; rewrite lookup_insert, <- K0; reflexivity|].
    split; [rewrite B, V1; cbn [fmap option_fmap option_map]; rewrite lookup_insert_ne by done; rewrite lookup_singleton, <- K1; reflexivity|]. split; [reflexivity|]. split; [symmetry; exact K1|exact V1].
Qed.

(** C153: a run that fails with 100 matches, where the views 2 and 3 stay estimated. *)
Example hybrid_failed_sample : exists r s sm sizes, input_ok r scene_heap (fun _ => plain_prior) /\ (forall p i, vg_edges (vg_run vg_empty (graph_ops 100)).1 !! p = Some i -> (tv_verified i <= 100)%Z) /\
  sample_run (graph_ops 100) two_orientations r = Ok (s, sm, sizes) /\ est_view r 2.
Proof.
  destruct (scene_exists (many 101) [false; false; true; true] false (fun r => v_est <$> rc_views r !! 2%N = Some true /\
    match sample_run (graph_ops 100) two_orientations r with Ok (s, sm, _) => True | _ => False end)) as (r & _ & H1 & H2 & H4).
  - vm_compute. reflexivity.
  - vm_compute. repeat split.
  - apply fmap_Some in H2 as (v2 & V2 & K2). exists r. destruct (sample_run (graph_ops 100) two_orientations r) as [[[s sm] sizes]| | |]; [|destruct H4|destruct H4|destruct H4]. exists s, sm, sizes. split; [exact H1|]. split; [|split; [reflexivity|exists v2; split; [exact V2|symmetry; exact K2]]].
    intros p i Hi. assert (K : (p, i) ∈ map_to_list (vg_edges (vg_run vg_empty (graph_ops 100)).1)) by (by apply elem_of_map_to_list).
    assert (K' : forallb (fun e : N * N * two_view => bool_decide (tv_verified e.2 <= 100)%Z) (map_to_list (vg_edges (vg_run vg_empty (graph_ops 100)).1)) = true) by (vm_compute; reflexivity).
    rewrite forallb_forall in K'. apply elem_of_list_In, K' in K. by apply bool_decide_eq_true in K.
Qed.
