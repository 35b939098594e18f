(** C103-C108: incremental reconstruction. *)
From stdpp Require Import gmap sorting.
From Coq Require Import Reals QArith_base Qreduction Qcanon Lra.
From Verif Require Import Base Reconstruction_Model ViewGraph_Model ViewGraph_Spec ViewGraph_Proofs SfmQueries_Model SfmQueries_Spec SfmQueries_Proofs SfmQueries_Props
  TrackEstimator_Model TrackEstimator_Spec TrackEstimator_Props TrackSelection_Model TrackSelection_Props
  VisibilityPyramid_Model VisibilityPyramid_Spec VisibilityPyramid_Props
  BundleAdjust_Model BundleAdjust_Spec BundleAdjust_Proofs BundleAdjust_Setup BundleAdjust_Result BundleAdjust_Props
  Localize_Model Localize_Spec Localize_Proofs Localize_Props Priors_Model Priors_Spec Priors_Props
  Incremental_Model Incremental_Spec Incremental_Proofs Incremental_Under Incremental_Steps.

Section props.
Context {F P W : Type}.
Notation recon := (recon F (list R) (list R)).
Implicit Types (r : recon) (h : gmap N intrinsics) (s : inc F) (w : world F P W) (E : nat -> env F P W) (opts : inc_options) (graph : view_graph two_view) (priors : N -> prior).

(** Every graph made by the interface of ViewGraph. *)
Lemma graph_edges (ops : list (vg_op two_view)) : let graph := (vg_run vg_empty ops).1 in
  forall p, is_Some (vg_edges graph !! p) -> (p.1 < p.2)%N /\ p.1 ∈ vg_view_ids graph /\ p.2 ∈ vg_view_ids graph.
Proof.
  intros graph [a b] [i Hi]. destruct (vrel_run ops vg_empty ag_empty vrel_empty) as [(Hd & _ & He & Hs) _]. fold graph in Hd, He. rewrite He in Hi. destruct (decide (a < b)%N) as [Hlt|]; [|done]. cbn [fst snd].
  split; [done|]. unfold vg_view_ids. rewrite Hd. destruct Hs as (Hsym & _ & Hin). split; [apply (Hin a b); by exists i|]. apply (Hin b a). rewrite Hsym. by exists i.
Qed.

Lemma same_but_observations r r' : same_but_intrinsics r r' -> same_observations r r'.
Proof.
  intros (A1 & A2 & A3 & A4 & A5 & A6 & A7 & A8). split; [done|]. split; [done|]. split; [done|]. split; [done|]. split; [done|]. split; [done|]. split.
  - intros u. destruct (A8 u) as [v v' (? & _ & _ & ?)|]; by constructor.
  - intros t. rewrite A5. destruct (rc_tracks r !! t); by constructor.
Qed.
Lemma same_but_facts r r' : same_but_intrinsics r r' -> dom (rc_views r') = dom (rc_views r) /\ dom (rc_tracks r') = dom (rc_tracks r) /\
  (forall u, est_view r' u <-> est_view r u) /\ (consistent r -> consistent r') /\ (six r -> six r') /\
  (forall u t f, (exists v, rc_views r' !! u = Some v /\ v_feats v !! t = Some f) -> exists v, rc_views r !! u = Some v /\ v_feats v !! t = Some f).
Proof.
  intros (A1 & A2 & A3 & A4 & A5 & A6 & A7 & A8). split; [|split; [by rewrite A5|split; [|split; [|split]]]].
  - apply set_eq. intros u. rewrite !elem_of_dom. destruct (A8 u); split; intros [? ?]; eauto; done.
  - intros u. unfold est_view. destruct (A8 u) as [v v' (_ & He & _)|]; [|done]. split; intros (x & [= <-] & K); eexists; (split; [done|]); congruence.
  - intros Hc u t. rewrite A5, (Hc u t). destruct (A8 u) as [v v' (_ & _ & _ & Hf)|]; [|done]. split; intros (x & [= <-] & K); eexists; (split; [done|]); [by rewrite Hf|by rewrite <- Hf].
  - intros H6 u v' Hv. specialize (A8 u). rewrite Hv in A8. inversion A8 as [v x (_ & _ & Hd & _) Hx|]; subst. rewrite Hd. by apply (H6 u).
  - intros u t f (v' & Hv & Hf). specialize (A8 u). rewrite Hv in A8. inversion A8 as [v x (_ & _ & _ & Hd) Hx|]; subst. exists v. split; [done|]. by rewrite <- Hd.
Qed.
Lemma observations_trans r r1 r2 : same_observations r r1 -> same_observations r1 r2 -> same_observations r r2.
Proof.
  intros (A1 & A2 & A3 & A4 & A5 & A6 & A7 & A8) (B1 & B2 & B3 & B4 & B5 & B6 & B7 & B8). split; [congruence|]. split; [congruence|]. split; [congruence|]. split; [congruence|]. split; [congruence|]. split; [congruence|]. split.
  - intros u. specialize (A7 u). specialize (B7 u). destruct A7 as [v v' (K1 & K2)|]; inversion B7 as [x y (L1 & L2) E1 E2|]; subst; constructor. split; congruence.
  - intros t. specialize (A8 t). specialize (B8 t). destruct A8 as [v v' K1|]; inversion B8 as [x y L1 E1 E2|]; subst; constructor. congruence.
Qed.
Lemma scene_observations r h r' h' : scene r h r' h' -> same_observations r r'.
Proof.
  intros (A1 & A2 & A3 & A4 & A5 & A6 & _ & A7 & A8 & _). split; [done|]. split; [done|]. split; [done|]. split; [done|]. split; [done|]. split; [done|]. split; [|done].
  intros u. destruct (A7 u) as [v v' (? & ? & _)|]; by constructor.
Qed.

(** The run as a whole. *)
Lemma run_safe w E opts (ops : list (vg_op two_view)) priors og ov grid fuel r h sizes (ub : Prop) : let graph := (vg_run vg_empty ops).1 in
  environment_ok E -> options_ok opts grid -> input_ok r h priors ->
  pairs_exist graph r 100 \/ ub -> features_fit (w_position w) priors graph r \/ ub -> (forall u, u ∈ vg_view_ids graph -> ~ est_view r u) \/ ub ->
  safe ub (estimate_incrementally w E opts graph priors og ov grid fuel r h sizes)
    (fun x => let r' := n_recon x.1.1 in same_observations r r' /\ consistent r' /\ grouped r' /\ allocated r' (n_heap x.1.1) /\ six r' /\
      (forall u, est_view r' u -> u ∈ vg_view_ids graph \/ est_view r u) /\
      if is_success x.1.2 then (forall u, u ∈ is_views x.1.2 <-> est_view r' u) /\ (forall t, t ∈ is_tracks x.1.2 <-> est_track r' t)
      else is_views x.1.2 = ∅ /\ is_tracks x.1.2 = ∅).
Proof.
  intros graph (err & ferr & cerr & HE) (O1 & O2 & O3 & O4) (Hc & Hg & Ha & Hs & Hcr & H6 & Hn & Hp) Hpairs Hfeat Hfresh.
  unfold estimate_incrementally, check. match goal with |- context [if ?b then _ else _] => destruct b end; cbn [mbind outcome_bind]; [|done].
  destruct (priors_set_groups og ov priors r h sizes Hg Ha Hs Hcr Hp) as (r1 & h1 & s1 & -> & Hsame & Hg1 & Ha1 & _ & _ & Hset & _). cbn [mbind outcome_bind].
  destruct (same_but_facts r r1 Hsame) as (D1 & D2 & F1 & C1 & S1 & T1). pose proof (C1 Hc) as Hc1. pose proof (S1 H6) as H61.
  set (s := Inc r1 h1 (initial_unlocalized graph r) [] 0 grid 0).
  assert (HU : forall u, u ∈ initial_unlocalized graph r <-> u ∈ vg_view_ids graph /\ is_Some (rc_views r !! u) /\ ~ est_view r u).
  { intros u. unfold initial_unlocalized. rewrite elem_of_filter. unfold est_view. destruct (rc_views r !! u) as [v|]; cbn.
    - destruct (v_est v) eqn:Ev.
      + split; [intros [? _]; done|]. intros (_ & _ & K). exfalso. apply K. by exists v.
      + split; [intros [_ ?]; split; [done|]; split; [by exists v|]; intros (v' & [= <-] & ?); congruence|]. by intros (? & _).
    - split; [intros [? _]; done|]. intros (_ & [? ?] & _). done. }
  assert (Hinv : inv opts graph r1 h1 ub s).
  { split; [|split; [|split]].
    - split; [apply scene_refl|]. intros K. by apply O4.
    - split; [|split; [|split; [|split]]]; cbn; [|by intros u Hu%elem_of_nil|constructor|by intros u Hu%elem_of_nil|lia].
      intros u Hu. apply HU in Hu as (K1 & K2 & _). unfold graph_views. apply elem_of_intersection. split; [done|]. rewrite D1. by apply elem_of_dom.
    - destruct Hfresh as [Hf|]; [left|by right]. intros u Hu. left. cbn. apply HU. unfold graph_views in Hu. apply elem_of_intersection in Hu as [K1 K2]. rewrite D1 in K2. apply elem_of_dom in K2. split; [done|]. split; [done|]. by apply Hf.
    - intros u Hu. by right. }
  assert (Hfeat' : features_ok (w_position w) (image_size s1) graph r1 \/ ub).
  { destruct Hfeat as [Hf|]; [left|by right]. intros u v1 t f Hu Hv1 Hft. destruct (T1 u t f) as (v & Hv & Hft'); [by exists v1|].
    destruct Hg as (G1 & G2 & _). destruct (proj1 (G1 u)) as [c Hcu]; [by exists v|]. destruct (proj2 (G2 c u) Hcu) as (X & HX & _). destruct (Hset c) as (rep & R1 & _ & R2); [by exists X|].
    destruct (R2 u Hcu) as (Esz & _). unfold image_size. rewrite Esz. cbn. apply (Hf u v t f rep c); done. }
  eapply safe_bind.
  - apply (estimate_from_safe w E opts graph _ s1 err ferr cerr HE r1 h1 Hc1 Hg1 Ha1 H61); [by rewrite D2|done|done|done|exact Hfeat'|apply graph_edges| |exact Hinv|done|done].
    destruct Hpairs as [K|]; [left|by right]. intros p i Hi Hv. rewrite <- !elem_of_dom, D1, !elem_of_dom. by apply (K p i).
  - intros [s' sm] (Hi & Hsm). cbn [safe fst snd] in *. destruct Hi as ((Hsc & Hgr) & _ & _ & Hon). split; [eapply observations_trans; [by apply same_but_observations|by eapply scene_observations]|].
    split; [by eapply scene_consistent|]. split; [by eapply scene_grouped|]. split; [by eapply scene_allocated|]. split; [by eapply scene_six|]. split; [|done].
    intros u Hu. destruct (Hon u Hu) as [K|K]; [left; unfold graph_views in K; by apply elem_of_intersection in K as [? _]|right; by apply F1].
Qed.

(** C103: whatever the robust estimators, the nonlinear solver, the thread schedules and the iteration orders do, a run
    that returns has changed only poses, points, estimated flags and intrinsics: names, features, tracks and groups stay,
    and the reconstruction is as consistent as before.  Only views of the view graph become estimated, and the summary
    lists exactly the estimated views and tracks, or nothing after a failure. *)
Theorem incremental_frame : forall w E opts (ops : list (vg_op two_view)) priors og ov grid fuel r h sizes s sm sizes',
  let graph := (vg_run vg_empty ops).1 in
  environment_ok E -> options_ok opts grid -> input_ok r h priors ->
  estimate_incrementally w E opts graph priors og ov grid fuel r h sizes = Ok (s, sm, sizes') ->
  let r' := n_recon s in
  same_observations r r' /\ consistent r' /\ grouped r' /\ allocated r' (n_heap s) /\ six r' /\
  (forall u, est_view r' u -> u ∈ vg_view_ids graph \/ est_view r u) /\
  if is_success sm then (forall u, u ∈ is_views sm <-> est_view r' u) /\ (forall t, t ∈ is_tracks sm <-> est_track r' t)
  else is_views sm = ∅ /\ is_tracks sm = ∅.
Proof.
  intros w E opts ops priors og ov grid fuel r h sizes s sm sizes' graph HE HO HI Hrun.
  pose proof (run_safe w E opts ops priors og ov grid fuel r h sizes True HE HO HI (or_intror I) (or_intror I) (or_intror I)) as H. fold graph in H. rewrite Hrun in H. exact H.
Qed.

(** C104, the part that holds: if no view of the view graph is estimated before, the pairs of the graph with more than 100
    verified matches consist of views of the reconstruction, and the features fit in the visibility pyramid, nothing
    undefined happens. *)
Theorem incremental_no_undefined_partial : forall w E opts (ops : list (vg_op two_view)) priors og ov grid fuel r h sizes,
  let graph := (vg_run vg_empty ops).1 in
  environment_ok E -> options_ok opts grid -> input_ok r h priors ->
  pairs_exist graph r 100 -> features_fit (w_position w) priors graph r -> (forall u, u ∈ vg_view_ids graph -> ~ est_view r u) ->
  estimate_incrementally w E opts graph priors og ov grid fuel r h sizes <> UB.
Proof.
  intros w E opts ops priors og ov grid fuel r h sizes graph HE HO HI Hp Hf Hfr K.
  pose proof (run_safe w E opts ops priors og ov grid fuel r h sizes False HE HO HI (or_introl Hp) (or_introl Hf) (or_introl Hfr)) as H. fold graph in H. rewrite K in H. exact H.
Qed.

(** C105: the initial pair.  On success the pair is an edge of the graph with more than 100 verified matches, exactly its
    two views are estimated, more than 100 tracks are estimated and each of them is seen by both views. *)
Theorem initial_pair : forall w E opts (ops : list (vg_op two_view)) s s',
  let graph := (vg_run vg_empty ops).1 in
  environment_ok E -> options_ok opts (n_grid s) -> consistent (n_recon s) -> grouped (n_recon s) -> allocated (n_recon s) (n_heap s) -> six (n_recon s) ->
  (Z.of_nat (size (dom (rc_tracks (n_recon s)))) < 2 ^ 31)%Z ->
  choose_initial w E opts graph s = Ok (s', true) ->
  let r' := n_recon s' in
  same_observations (n_recon s) r' /\
  exists p i, vg_edges graph !! p = Some i /\ (100 < tv_verified i)%Z /\ (forall u, est_view r' u <-> u = p.1 \/ u = p.2) /\
    (exists X : gset N, (100 < Z.of_nat (size X))%Z /\ forall t, t ∈ X <-> est_track r' t) /\
    (forall t, est_track r' t -> sees r' p.1 t /\ sees r' p.2 t) /\
    n_unlocalized s' = n_unlocalized s ∖ {[p.1; p.2]} /\ n_reconstructed s' = n_reconstructed s ++ [p.1; p.2].
Proof.
  intros w E opts ops s s' graph (err & ferr & cerr & HE) (O1 & O2 & O3 & O4) Hc Hg Ha H6 Hn Hrun.
  assert (Hgood : good opts (n_recon s) (n_heap s) s). { split; [apply scene_refl|]. intros K. by apply O4. }
  pose proof (choose_initial_safe w E opts graph err ferr cerr HE (n_recon s) (n_heap s) Hc Hg Ha H6 Hn O1 O2 O3 True (graph_edges ops) (or_intror I) s Hgood) as H. rewrite Hrun in H. cbn [safe fst snd] in H.
  destruct H as [[Hsc _] (p & Hp & U & L & _ & Hest & (X & HX & HX') & Hsee & _)]. split; [by eapply scene_observations|]. apply (order_pairs_elem graph) in Hp as (i & Hi & Hv).
  exists p, i. split; [done|]. split; [done|]. split; [done|]. split; [|split; [done|split; [|done]]].
  - exists (estimated_tracks ord_id (n_recon s')). split; [|intros t; apply estimated_tracks_lemma]. unfold kMinNumInitialTracks in HX. eapply Z.lt_le_trans; [exact HX|]. apply inj_le, subseteq_size.
    intros t Ht. apply estimated_tracks_lemma. by apply HX'.
  - rewrite U. apply set_eq. intros u. rewrite !elem_of_difference, elem_of_union, !elem_of_singleton. tauto.
Qed.

(** The cameras of a candidate pair: the second one gets the relative pose; the pose of the first one is what it was. *)
Theorem initial_cameras_partial : forall s p info s', p.1 <> p.2 -> six (n_recon s) ->
  initialize_cameras s p info = Ok s' ->
  (forall d, pose_is (n_recon s') p.1 d <-> pose_is (n_recon s) p.1 d) /\
  (forall d, pose_is (n_recon s') p.2 d <-> d = vec3 (tv_position info) ++ vec3 (tv_rotation info)) /\
  (forall u, u <> p.1 -> u <> p.2 -> rc_views (n_recon s') !! u = rc_views (n_recon s) !! u) /\ rc_tracks (n_recon s') = rc_tracks (n_recon s) /\
  est_view (n_recon s') p.1 /\ est_view (n_recon s') p.2.
Proof.
  intros s p info s' Hne H6. unfold initialize_cameras.
  destruct (rc_views (n_recon s) !! p.1) as [v1|] eqn:H1; [|done]. destruct (rc_views (n_recon s) !! p.2) as [v2|] eqn:H2; [|done]. cbn [or_ub mbind outcome_bind].
  destruct (set_focal _ _ (tv_focal1 info)) as [h1| | |]; cbn [mbind outcome_bind]; [|done|done|done]. destruct (set_focal _ _ (tv_focal2 info)) as [h2| | |]; cbn [mbind outcome_bind]; [|done|done|done].
  destruct (pose_of_six (vec3 (tv_position info)) (vec3 (tv_rotation info)) (v_data v2)) as [-> _]; [done|by apply (H6 p.2)|]. set (d2 := vec3 (tv_position info) ++ vec3 (tv_rotation info)). intros [= <-]. cbn [n_recon with_heap].
  set (r1 := set_view (n_recon s) p.1 true (v_data v1)). destruct (posed_set_view (n_recon s) p.1 v1 true (v_data v1) H1) as (_ & P1 & P1'). fold r1 in P1, P1'.
  assert (H2' : rc_views r1 !! p.2 = Some v2) by (rewrite P1 by done; done).
  destruct (posed_set_view r1 p.2 v2 true d2 H2') as (_ & P2 & P2'). unfold pose_is, est_view. rewrite (P2 p.1 Hne), (P1' v1 H1), (P2' v2 H2'), H1.
  split; [|split; [|split; [|split; [done|]]]].
  - intros d. split; intros (v & [= <-] & K); eexists; (split; [done|]); done.
  - intros d. split; [intros (v & [= <-] & K); done|]. intros ->. eexists. split; [done|]. done.
  - intros u N1 N2. rewrite P2, P1 by done. done.
  - split; eexists; (split; [done|]); done.
Qed.

(** The relative pose assumes that the first camera is at the origin and not rotated.  After a candidate that was given up
    for too few tracks this is false: the next candidate that starts with the second view of the one before keeps that
    camera where the candidate before has put it. *)
Theorem initial_cameras_refuted : forall w E opts s p i q j (o : order N) s1 s2 s3,
  p.1 <> p.2 -> q.1 <> q.2 -> q.1 = p.2 -> six (n_recon s) ->
  environment_ok E -> options_ok opts (n_grid s) -> consistent (n_recon s) -> grouped (n_recon s) -> allocated (n_recon s) (n_heap s) ->
  (Z.of_nat (size (dom (rc_tracks (n_recon s)))) < 2 ^ 31)%Z ->
  initialize_cameras s p i = Ok s1 -> estimate_structure w E opts s1 p.1 = Ok s2 ->
  initialize_cameras (with_recon s2 (set_unestimated o (n_recon s2))) q j = Ok s3 ->
  pose_is (n_recon s3) q.1 (vec3 (tv_position i) ++ vec3 (tv_rotation i)).
Proof.
  intros w E opts s p i q j o s1 s2 s3 Hp Hq Hpq H6 (err & ferr & cerr & HE) (O1 & O2 & O3 & O4) Hc Hg Ha Hn R1 R2 R3.
  assert (Hgood : good opts (n_recon s) (n_heap s) s). { split; [apply scene_refl|]. intros K. by apply O4. }
  pose proof (initialize_safe opts (n_recon s) (n_heap s) Hc Hg Ha H6 O1 True s p i Hgood Hp (or_intror I)) as S1. rewrite R1 in S1. cbn [safe] in S1. destruct S1 as (G1 & _ & _ & _ & _ & P2 & X1 & _).
  pose proof (estimate_structure_safe w E opts (n_recon s) (n_heap s) Hc Hg Ha H6 Hn O2 O3 True s1 p.1 G1 X1) as S2. rewrite R2 in S2. cbn [safe] in S2. destruct S2 as ((G2 & _) & _ & V2 & _).
  destruct (set_unestimated_ok o (n_recon s2) (n_heap s2)) as (U1 & _ & _ & U4). set (s2' := with_recon s2 (set_unestimated o (n_recon s2))) in *.
  assert (H62 : six (n_recon s2')). { eapply scene_six; [exact U1|]. by eapply scene_six; [exact (proj1 G2)|]. }
  destruct (initial_cameras_partial s2' q j s3 Hq H62 R3) as (K & _). apply K. apply U4. unfold pose_is. rewrite V2, Hpq. by apply P2.
Qed.

(** C106: the candidates for the initial pair are exactly the pairs of the graph with more verified matches than the limit,
    each once, best first, whatever the iteration order of the graph is. *)
Lemma candidate_total a b : candidate_le a b \/ candidate_le b a.
Proof. unfold candidate_le. destruct a as [[a1 a2] [a3 a4]], b as [[b1 b2] [b3 b4]]. cbn. lia. Qed.
Lemma candidate_trans a b c : candidate_le a b -> candidate_le b c -> candidate_le a c.
Proof. unfold candidate_le. destruct a as [[a1 a2] [a3 a4]], b as [[b1 b2] [b3 b4]], c as [[c1 c2] [c3 c4]]. cbn. lia. Qed.
Lemma sorted_lookup {A} (Rel : A -> A -> Prop) (l : list A) (i j : nat) a b : StronglySorted Rel l -> (i < j)%nat -> l !! i = Some a -> l !! j = Some b -> Rel a b.
Proof.
  intros Hs. revert i j. induction Hs as [|x l Hs IH Hx]; intros i j Hij Ha Hb; [done|]. destruct i as [|i], j as [|j]; [lia| |lia|].
  - cbn in Ha, Hb. injection Ha as <-. rewrite list.Forall_forall in Hx. apply Hx. by eapply elem_of_list_lookup_2.
  - cbn in Ha, Hb. by apply (IH i j); [lia| |].
Qed.
Lemma lookup_snd {A B} (l : list (A * B)) (k : nat) x : l !! k = Some x -> l.*2 !! k = Some x.2.
Proof. intros H. by rewrite list_lookup_fmap, H. Qed.
Theorem initial_pair_order : forall graph (o : order (N * N * two_view)) n, let l := order_pairs graph o n in
  NoDup l /\ (forall p, p ∈ l <-> exists i, vg_edges graph !! p = Some i /\ (n < tv_verified i)%Z) /\
  forall (k k' : nat) p q i j, (k < k')%nat -> l !! k = Some p -> l !! k' = Some q -> vg_edges graph !! p = Some i -> vg_edges graph !! q = Some j ->
    better_pair (p, i) (q, j).
Proof.
  intros graph o n l. unfold l, order_pairs. set (f := fun e : N * N * two_view => _ : option candidate). set (m := omap f (o (map_to_list (vg_edges graph)))).
  assert (Hm : forall c, c ∈ m -> exists i, vg_edges graph !! c.2 = Some i /\ c.1.1 = tv_homography i /\ c.1.2 = (- tv_verified i)%Z).
  { intros c Hc. unfold m in Hc. apply elem_of_list_omap in Hc as ([q i] & Hq & Hf). rewrite ord_perm, elem_of_map_to_list in Hq. unfold f in Hf. cbn [fst snd] in Hf.
    destruct (decide _); [|done]. injection Hf as <-. by exists i. }
  assert (Hnd : NoDup m.*2).
  { unfold m. assert (K : NoDup (o (map_to_list (vg_edges graph))).*1) by (rewrite ord_perm; apply NoDup_fst_map_to_list). revert K. generalize (o (map_to_list (vg_edges graph))) as l0.
    induction l0 as [|[q i] l0 IH]; intros K; [constructor|]. cbn in K. apply NoDup_cons in K as [K1 K2]. cbn [omap list_omap]. unfold f at 1. cbn [fst snd]. destruct (decide _); [|by apply IH].
    cbn. apply NoDup_cons. split; [|by apply IH]. intros Hin. apply K1. apply elem_of_list_fmap in Hin as (c & -> & Hc). apply elem_of_list_omap in Hc as ([q' i'] & Hq & Hf). unfold f in Hf. cbn [fst snd] in Hf.
    destruct (decide _); [|done]. injection Hf as <-. cbn. apply elem_of_list_fmap. exists (q', i'). done. }
  split; [by rewrite merge_sort_Permutation|]. split.
  - intros p. apply (order_pairs_elem graph o n p).
  - intros k k' p q i j Hk Hp Hq Hi Hj. rewrite list_lookup_fmap in Hp, Hq. apply fmap_Some in Hp as (c & Hc & ->), Hq as (d & Hd & ->). change (merge_sort candidate_le m !! k = Some c) in Hc. change (merge_sort candidate_le m !! k' = Some d) in Hd.
    assert (Hs : StronglySorted candidate_le (merge_sort candidate_le m)). { apply StronglySorted_merge_sort; [exact candidate_trans|exact candidate_total]. }
    pose proof (sorted_lookup _ _ k k' c d Hs Hk Hc Hd) as Hle.
    assert (Hne : c.2 <> d.2).
    { intros K. assert (NoDup (merge_sort candidate_le m).*2) as Hn2 by (by rewrite merge_sort_Permutation). assert (k = k'); [|lia].
      apply (NoDup_lookup (merge_sort candidate_le m).*2 k k' c.2 Hn2); [apply (lookup_snd _ _ _ Hc)|rewrite K; apply (lookup_snd _ _ _ Hd)]. }
    assert (Hin : c ∈ m /\ d ∈ m). { rewrite <- (merge_sort_Permutation candidate_le m). split; by eapply elem_of_list_lookup_2. }
    destruct Hin as [Hin1 Hin2]. apply Hm in Hin1 as (i' & Hi' & A1 & A2), Hin2 as (j' & Hj' & B1 & B2). assert (i' = i) as -> by congruence. assert (j' = j) as -> by congruence.
    unfold better_pair. cbn [fst snd]. unfold candidate_le in Hle. rewrite A1, A2, B1, B2 in Hle. destruct c as [cc [c3 c4]], d as [dd [d3 d4]]. cbn [fst snd] in *.
    assert (c3 <> d3 \/ c4 <> d4). { destruct (decide (c3 = d3)), (decide (c4 = d4)); subst; auto. } lia.
Qed.

(** The views to localize next: exactly the views that are not localized and see at least 30 estimated tracks, each once,
    by decreasing visibility score of these observations (C39), and by decreasing id. *)
Lemma estimated_points_perm (position : F -> Qc * Qc) r u l l' : estimated_points position r u l -> estimated_points position r u l' -> l ≡ₚ l'.
Proof.
  intros (v & ts & Hv & N1 & H1 & ->) (v' & ts' & Hv' & N2 & H2 & ->). assert (v' = v) as -> by congruence.
  assert (K : ts ≡ₚ ts'). { apply NoDup_Permutation; [done|done|]. intros t. by rewrite H1, H2. } by rewrite K.
Qed.
Lemma score_perm n x y l l' : l ≡ₚ l' -> score n x y l = score n x y l'.
Proof. intros H. induction n as [|n IH]; [done|]. cbn [score]. rewrite IH. unfold occupied. f_equal. f_equal. f_equal. f_equal. apply set_eq. intros c. rewrite !elem_of_list_to_set. by rewrite H. Qed.
Lemma est_points_spec w r u v (o : order N) : rc_views r !! u = Some v -> estimated_points (w_position w) r u (est_points w r v (o (elements (dom (v_feats v))))).
Proof.
  intros Hv. set (l := o (elements (dom (v_feats v)))). exists v, (filter (fun t => (t_est <$> rc_tracks r !! t) = Some true) l). split; [done|]. split; [|split].
  - apply NoDup_filter. unfold l. rewrite ord_perm. apply NoDup_elements.
  - intros t. rewrite elem_of_list_filter. unfold l. rewrite ord_perm, elem_of_elements, elem_of_dom. unfold est_track. split.
    + intros [K1 K2]. split; [done|]. apply fmap_Some in K1 as (T & ? & ?). by exists T.
    + intros (K1 & T & HT & He). split; [|done]. rewrite HT. cbn. congruence.
  - generalize l as l0. induction l0 as [|t l0 IH]; [done|]. unfold est_points in *. cbn [omap list_omap]. rewrite filter_cons. destruct (decide ((t_est <$> rc_tracks r !! t) = Some true)) as [K|K].
    + apply fmap_Some in K as (T & HT & He). rewrite HT, <- He. cbn [omap list_omap]. rewrite IH. by destruct (v_feats v !! t).
    + destruct (rc_tracks r !! t) as [T|] eqn:ET in |- *; [|exact IH]. destruct (t_est T) eqn:Ee; [|exact IH]. exfalso. apply K. rewrite ET. cbn. congruence.
Qed.
Lemma score_total a b : score_ge a b \/ score_ge b a.
Proof. unfold score_ge. destruct a, b. cbn. lia. Qed.
Lemma score_trans a b c : score_ge a b -> score_ge b c -> score_ge a c.
Proof. unfold score_ge. destruct a, b, c. cbn. lia. Qed.

Theorem next_views_order : forall w E sizes s l, consistent (n_recon s) ->
  (forall u, u ∈ n_unlocalized s -> is_Some (rc_views (n_recon s) !! u)) ->
  let size u := default (0, 0)%Z (sizes !! u) in
  (forall u v t f, u ∈ n_unlocalized s -> rc_views (n_recon s) !! u = Some v -> v_feats v !! t = Some f ->
     representable 6 (size u).1 (this (w_position w f).1) /\ representable 6 (size u).2 (this (w_position w f).2)) ->
  find_views w E sizes s = Ok l ->
  NoDup l /\
  (forall u, u ∈ l <-> u ∈ n_unlocalized s /\ exists pts, estimated_points (w_position w) (n_recon s) u pts /\ (30 <= length pts)%nat) /\
  forall (k k' : nat) u x pts pts', (k < k')%nat -> l !! k = Some u -> l !! k' = Some x ->
    estimated_points (w_position w) (n_recon s) u pts -> estimated_points (w_position w) (n_recon s) x pts' ->
    let a := score 6 (size u).1 (size u).2 pts in let b := score 6 (size x).1 (size x).2 pts' in
    (b < a)%Z \/ a = b /\ (x < u)%N.
Proof.
  intros w E sizes s l Hc Hex size Hrep Hrun. unfold find_views in Hrun. set (o := e_order (E (n_tick s))) in *. set (r := n_recon s) in *.
  set (step := fun (l : list (Z * N)) u => _) in Hrun.
  set (val := fun u => match rc_views r !! u with
      | Some v => let pts := est_points w r v (o (elements (dom (v_feats v)))) in if decide ((30 <= length pts)%nat) then Some (score 6 (size u).1 (size u).2 pts, u) else None
      | None => None end).
  assert (Hstep : forall l0 acc l1, (forall u, u ∈ l0 -> u ∈ n_unlocalized s) -> run_steps step acc l0 = Ok l1 -> l1 = acc ++ omap val l0).
  { induction l0 as [|u l0 IH]; intros acc l1 Hin Hr; [injection Hr as <-; by rewrite app_nil_r|]. cbn [run_steps] in Hr. unfold step in Hr. cbv beta in Hr.
    assert (Hu : u ∈ n_unlocalized s) by (apply Hin; by left). destruct (Hex u Hu) as [v Hv]. pose proof (score_view_cases w sizes r o r u v Hc Hv) as Hs. cbv zeta in Hs.
    destruct (decide _) in Hs; [|rewrite Hs in Hr; done]. rewrite Hs in Hr.
    - cbn [mbind outcome_bind] in Hr. apply IH in Hr; [|intros x Hx; apply Hin; by right]. rewrite Hr. cbn [omap list_omap]. unfold val at 2. fold r in Hv. rewrite Hv. cbv zeta. unfold image_size. fold (size u). destruct (decide _); [by rewrite <- app_assoc|done].
    - apply Forall_forall. intros q Hq. unfold est_points in Hq. apply elem_of_list_omap in Hq as (t & _ & Hq). destruct (rc_tracks _ !! t) as [T|]; [|done]. destruct (t_est T); [|done].
      destruct (v_feats v !! t) as [f|] eqn:Ef; [|done]. injection Hq as <-. apply (Hrep u v t f); done. }
  destruct (run_steps step [] _) as [sc| | |] eqn:Esc; [|done|done|done]. cbn [mbind outcome_bind] in Hrun. injection Hrun as <-.
  apply Hstep in Esc; [|intros u Hu; rewrite ord_perm, elem_of_elements in Hu; done]. cbn [app] in Esc. set (L := o (elements (n_unlocalized s))) in Esc.
  assert (HL : NoDup L) by (unfold L; rewrite ord_perm; apply NoDup_elements).
  assert (Hval : forall u y, val u = Some y -> y.2 = u /\ exists pts, estimated_points (w_position w) r u pts /\ (30 <= length pts)%nat /\ y.1 = score 6 (size u).1 (size u).2 pts).
  { intros u y. unfold val. destruct (rc_views r !! u) as [v|] eqn:Hv; [|done]. cbv zeta. destruct (decide _); [|done]. intros [= <-]. split; [done|]. eexists. split; [by apply est_points_spec|]. done. }
  assert (Hnd : NoDup sc.*2).
  { rewrite Esc. clear -HL Hval. induction L as [|u L IH]; [constructor|]. apply NoDup_cons in HL as [Hu HL]. cbn [omap list_omap]. destruct (val u) as [y|] eqn:Ey; [|by apply IH].
    cbn. apply NoDup_cons. split; [|by apply IH]. destruct (Hval u y Ey) as [-> _]. intros K. apply Hu. apply elem_of_list_fmap in K as (z & -> & Hz). apply elem_of_list_omap in Hz as (x & Hx & Hz). by destruct (Hval x z Hz) as [-> _]. }
  split; [by rewrite merge_sort_Permutation|]. split.
  - intros u. rewrite merge_sort_Permutation, elem_of_list_fmap. split.
    + intros (y & -> & Hy). rewrite Esc in Hy. apply elem_of_list_omap in Hy as (x & Hx & Hy). destruct (Hval x y Hy) as (-> & pts & K1 & K2 & _). unfold L in Hx. rewrite ord_perm, elem_of_elements in Hx. split; [done|]. by exists pts.
    + intros (Hu & pts & K1 & K2). destruct (Hex u Hu) as [v Hv]. fold r in Hv. pose proof (est_points_spec w r u v o Hv) as K3. pose proof (estimated_points_perm _ _ _ _ _ K1 K3) as K4.
      exists (score 6 (size u).1 (size u).2 (est_points w r v (o (elements (dom (v_feats v))))), u). split; [done|]. rewrite Esc. apply elem_of_list_omap. exists u. split; [unfold L; by rewrite ord_perm, elem_of_elements|].
      unfold val. rewrite Hv. cbv zeta. rewrite decide_True; [done|]. rewrite <- K4. done.
  - intros k k' u x pts pts' Hk Hu Hx Pu Px. rewrite list_lookup_fmap in Hu, Hx. apply fmap_Some in Hu as (y & Hy & ->), Hx as (z & Hz & ->).
    assert (Hs : StronglySorted score_ge (merge_sort score_ge sc)). { apply StronglySorted_merge_sort; [exact score_trans|exact score_total]. }
    pose proof (sorted_lookup _ _ k k' y z Hs Hk Hy Hz) as Hge.
    assert (Hne : y.2 <> z.2).
    { intros K. assert (NoDup (merge_sort score_ge sc).*2) as Hn2 by (by rewrite merge_sort_Permutation). assert (k = k'); [|lia].
      apply (NoDup_lookup (merge_sort score_ge sc).*2 k k' y.2 Hn2); [apply (lookup_snd _ _ _ Hy)|rewrite K; apply (lookup_snd _ _ _ Hz)]. }
    assert (Hin : y ∈ sc /\ z ∈ sc). { rewrite <- (merge_sort_Permutation score_ge sc). split; by eapply elem_of_list_lookup_2. }
    destruct Hin as [Hin1 Hin2]. rewrite Esc in Hin1, Hin2. apply elem_of_list_omap in Hin1 as (u1 & _ & Hv1), Hin2 as (x1 & _ & Hv2). destruct (Hval _ _ Hv1) as (E1 & q1 & Q1 & _ & S1), (Hval _ _ Hv2) as (E2 & q2 & Q2 & _ & S2).
    rewrite <- E1 in Q1, S1. rewrite <- E2 in Q2, S2. rewrite (score_perm _ _ _ _ _ (estimated_points_perm _ _ _ _ _ Pu Q1)), (score_perm _ _ _ _ _ (estimated_points_perm _ _ _ _ _ Px Q2)), <- S1, <- S2.
    unfold score_ge in Hge. cbv zeta. lia.
Qed.

(** C107, the part that holds: SetUnderconstrainedAsUnestimated only clears estimated flags; afterwards every estimated
    track is seen by at least two estimated views; a well constrained part of the scene is kept as it is; the estimated
    views see at least three estimated tracks if no track had to be cleared. *)
Theorem underconstrained_partial : forall E graph s s', consistent (n_recon s) -> NoDup (n_reconstructed s) ->
  (forall u, u ∈ n_reconstructed s -> u ∉ n_unlocalized s) ->
  set_underconstrained E graph s = Ok s' ->
  let r' := n_recon s' in
  exists us ts, flags_cleared (n_recon s) r' us ts /\ n_heap s' = n_heap s /\
    (forall t, est_track r' t -> seen_by r' 2 t) /\
    (forall V T, well_constrained (n_recon s) V T -> well_constrained r' V T) /\
    (ts = ∅ -> forall u, est_view r' u -> sees_many r' 3 u) /\
    (** views are put back to the views to localize, and out of the reconstructed ones, all or none *)
    ((n_unlocalized s' = n_unlocalized s /\ n_reconstructed s' = n_reconstructed s /\ n_optimized s' = n_optimized s) \/
     (us <> ∅ /\ (forall u, est_view r' u -> sees_many r' 3 u) /\
      (forall u, u ∈ n_unlocalized s' <-> u ∈ n_unlocalized s \/ (u ∈ vg_view_ids graph /\ is_Some (rc_views r' !! u) /\ ~ est_view r' u)) /\
      n_reconstructed s' = filter (fun u => u ∉ n_unlocalized s') (n_reconstructed s) /\
      n_optimized s' = (n_optimized s - (Z.of_nat (length (n_reconstructed s)) - Z.of_nat (length (n_reconstructed s'))))%Z)).
Proof.
  intros E graph s s' Hc Hd Hu Hrun r'. destruct (set_underconstrained_cases E graph s Hc Hd Hu) as (r1 & us & ts & Hf & A1 & A2 & A3 & A4 & A5 & [(s1 & E1 & B1 & B2 & B3 & B4 & B5 & B6)|(E1 & _)]); [|congruence].
  assert (s1 = s') as -> by congruence. assert (r' = r1) as -> by done. exists us, ts. split; [done|]. split; [done|]. split; [done|]. split; [done|]. split; [done|].
  destruct B6 as [[K1 K2]|(K1 & K2 & K3 & K4)]; [left; split; [done|]; split; [done|]; rewrite B4, K2; lia|right]. split; [done|]. split; [done|]. split; [|done].
  intros u. rewrite K3. split.
  - intros [K|(L1 & L2 & v & L3 & L4)]; [by left|right]. split; [done|]. split; [by exists v|]. intros (v' & ? & ?). congruence.
  - intros [K|(L1 & [v L2] & L3)]; [by left|]. destruct (decide (u ∈ n_unlocalized s)) as [|N]; [by left|right]. split; [done|]. split; [done|]. exists v. split; [done|]. destruct (v_est v) eqn:Ev; [|done]. exfalso. apply L3. by exists v.
Qed.

(** C108: one round that has localized a view: exactly this view leaves the views to localize, and views may be put back;
    the reconstructed views stay in order. *)
Definition round w E opts graph focal_priors sizes s s' : Prop :=
  exists views p, find_views w E sizes s = Ok views /\ localize_loop w E opts graph focal_priors sizes s views = Ok (s', p) /\ p <> NoneLocalized.
(** The state of the estimator: views to localize and reconstructed views are disjoint views of the graph. *)
Definition state_ok graph opts s : Prop :=
  consistent (n_recon s) /\ grouped (n_recon s) /\ allocated (n_recon s) (n_heap s) /\ six (n_recon s) /\ options_ok opts (n_grid s) /\
  (Z.of_nat (size (dom (rc_tracks (n_recon s)))) < 2 ^ 31)%Z /\
  (forall u, u ∈ n_unlocalized s \/ u ∈ n_reconstructed s -> u ∈ vg_view_ids graph /\ is_Some (rc_views (n_recon s) !! u)) /\
  NoDup (n_reconstructed s) /\ (forall u, u ∈ n_reconstructed s -> u ∉ n_unlocalized s) /\ (n_optimized s <= Z.of_nat (length (n_reconstructed s)))%Z.

Lemma state_inv graph opts s : state_ok graph opts s -> inv opts graph (n_recon s) (n_heap s) True s.
Proof.
  intros (Hc & Hg & Ha & H6 & (O1 & O2 & O3 & O4) & Hn & Hin & Hd & Hdis & Ho). split; [|split; [|split; [by right|intros u Hu; by right]]].
  - split; [apply scene_refl|]. intros K. by apply O4.
  - assert (K : forall u, u ∈ n_unlocalized s \/ u ∈ n_reconstructed s -> u ∈ graph_views graph (n_recon s)). { intros u Hu. destruct (Hin u Hu) as [K1 K2]. apply elem_of_intersection. split; [done|]. by apply elem_of_dom. }
    split; [intros u Hu; apply K; by left|]. split; [intros u Hu; apply K; by right|]. done.
Qed.
Lemma inv_state graph opts r0 h0 s : inv opts graph r0 h0 True s -> consistent r0 -> grouped r0 -> allocated r0 h0 -> six r0 -> (exists g, options_ok opts g) ->
  (Z.of_nat (size (dom (rc_tracks r0))) < 2 ^ 31)%Z -> state_ok graph opts s.
Proof.
  intros ((Hsc & Hgr) & (S1 & S2 & S3 & S4 & S5) & _) Hc Hg Ha H6 (g & O1 & O2 & O3 & O4) Hn. destruct (scene_dom _ _ _ _ Hsc) as (D1 & D2 & _).
  split; [by eapply scene_consistent|]. split; [by eapply scene_grouped|]. split; [by eapply scene_allocated|]. split; [by eapply scene_six|].
  split; [split; [done|]; split; [done|]; split; [done|]; intros K; split; [by apply Hgr|by apply O4]|]. split; [by rewrite D1|]. split; [|done].
  intros u Hu. assert (K : u ∈ graph_views graph r0) by (destruct Hu as [Hu|Hu]; [by apply S1|by apply S2]). unfold graph_views in K. apply elem_of_intersection in K as [K1 K2]. split; [done|]. apply elem_of_dom. by rewrite D2.
Qed.

Theorem round_bookkeeping : forall w E opts graph focal_priors sizes s s', environment_ok E -> state_ok graph opts s ->
  round w E opts graph focal_priors sizes s s' ->
  state_ok graph opts s' /\ same_observations (n_recon s) (n_recon s') /\
  exists u (back : gset N), u ∈ n_unlocalized s /\ (forall x, x ∈ n_unlocalized s' <-> (x ∈ n_unlocalized s /\ x <> u) \/ x ∈ back) /\
    n_reconstructed s' = filter (fun x => x ∉ back) (n_reconstructed s ++ [u]).
Proof.
  intros w E opts graph focal_priors sizes s s' (err & ferr & cerr & HE) Hst (views & p & Hf & Hl & Hp). pose proof (state_inv _ _ _ Hst) as Hi.
  destruct Hst as (Hc & Hg & Ha & H6 & HO & Hn & _). destruct HO as (O1 & O2 & O3 & O4).
  pose proof (find_views_safe w E opts graph sizes (n_recon s) (n_heap s) Hc Hg Ha H6 True (or_intror I) s Hi) as H1. rewrite Hf in H1. cbn [safe] in H1.
  pose proof (localize_loop_safe w E opts graph focal_priors sizes err ferr cerr HE (n_recon s) (n_heap s) Hc Hg Ha H6 Hn O1 O2 O3 True (or_intror I) views s Hi H1) as H2. rewrite Hl in H2. cbn [safe fst snd] in H2.
  destruct H2 as [Hi' H2]. split; [eapply inv_state; [exact Hi'|done|done|done|done| |done]|].
  { exists (n_grid s). done. }
  split; [eapply scene_observations; apply Hi'|]. destruct p; [done| |]; destruct H2 as (u & Hu & back & K1 & K2); exists u, back; (split; [by apply H1|]; split; [exact K1|exact K2]).
Qed.

(** The number of rounds: as long as every round leaves one more view reconstructed, there are at most as many rounds as views
    to localize at the start. *)
Inductive rounds w E opts graph focal_priors sizes : nat -> inc F -> inc F -> Prop :=
| rounds_none s : rounds w E opts graph focal_priors sizes 0 s s
| rounds_more n s s1 s2 : round w E opts graph focal_priors sizes s s1 -> length (n_reconstructed s1) = S (length (n_reconstructed s)) ->
    rounds w E opts graph focal_priors sizes n s1 s2 -> rounds w E opts graph focal_priors sizes (S n) s s2.
Lemma filter_length_all (U : gset N) (l : list N) : length (filter (fun x => x ∉ U) l) = length l -> forall x, x ∈ l -> x ∉ U.
Proof.
  induction l as [|y l IH]; intros H x Hx; [by apply elem_of_nil in Hx|]. rewrite filter_cons in H. pose proof (filter_length (fun x => x ∉ U) l) as Hle. destruct (decide (y ∉ U)) as [Hy|Hy]; cbn in H; [|lia].
  apply elem_of_cons in Hx as [->|Hx]; [done|]. apply IH; [lia|done].
Qed.
Theorem rounds_bounded_partial : forall w E opts graph focal_priors sizes n s s', environment_ok E -> state_ok graph opts s ->
  (forall u, u ∈ vg_view_ids graph -> is_Some (rc_views (n_recon s) !! u) -> u ∈ n_unlocalized s \/ u ∈ n_reconstructed s) ->
  rounds w E opts graph focal_priors sizes n s s' -> (n <= size (n_unlocalized s))%nat.
Proof.
  intros w E opts graph focal_priors sizes n s s' HE Hst Hcov Hr. revert Hst Hcov. induction Hr as [|n s s1 s2 H1 Hlen Hr IH]; intros Hst Hcov; [lia|].
  destruct (round_bookkeeping _ _ _ _ _ _ _ _ HE Hst H1) as (Hst1 & Hobs & u & back & Hu & HU & HR).
  assert (Hlen2 : length (filter (fun x => x ∉ back) (n_reconstructed s ++ [u])) = length (n_reconstructed s ++ [u])). { rewrite <- HR, Hlen, app_length. cbn. lia. }
  pose proof (filter_length_all _ _ Hlen2) as Hnb. assert (HR' : n_reconstructed s1 = n_reconstructed s ++ [u]) by (rewrite HR; by apply filter_all).
  assert (Hback : forall x, x ∈ n_unlocalized s1 -> x ∈ n_unlocalized s /\ x <> u).
  { intros x Hx. pose proof Hx as Hx'. apply HU in Hx as [?|Hb]; [done|]. destruct Hst1 as (_ & _ & _ & _ & _ & _ & Hin1 & _). destruct (Hin1 x (or_introl Hx')) as [G1 G2].
    destruct (Hcov x G1) as [K|K].
    - destruct Hobs as (_ & _ & _ & _ & _ & _ & Hv & _). destruct G2 as [v G2]. specialize (Hv x). rewrite G2 in Hv. inversion Hv; subst. eauto.
    - split; [done|]. intros ->. apply (Hnb u); [apply elem_of_app; right; by apply elem_of_list_singleton|done].
    - exfalso. apply (Hnb x); [apply elem_of_app; by left|done]. }
  assert (size (n_unlocalized s1) < size (n_unlocalized s))%nat.
  { apply fin_sets.subset_size. split; [intros x Hx; by apply Hback|]. intros K. apply K in Hu. by apply Hback in Hu as [_ ?]. }
  enough (n <= size (n_unlocalized s1))%nat by lia. apply IH; [done|]. intros x G1 [v G2].
  assert (G2' : is_Some (rc_views (n_recon s) !! x)). { destruct Hobs as (_ & _ & _ & _ & _ & _ & Hv & _). specialize (Hv x). rewrite G2 in Hv. inversion Hv; subst. eauto. }
  rewrite HR'. destruct (Hcov x G1 G2') as [K|K]; [|right; apply elem_of_app; by left]. destruct (decide (x = u)) as [->|N]; [right; apply elem_of_app; right; by apply elem_of_list_singleton|left; apply HU; by left].
Qed.
End props.

(** The test that decides between partial and full bundle adjustment: exact while the number of optimized views is positive. *)
Theorem growth_test_partial : forall reconstructed optimized limit, (0 <= optimized <= reconstructed)%Z -> (reconstructed < 2 ^ 63)%Z ->
  (growth_below reconstructed optimized limit = true <->
   (0 < optimized)%Z /\ (Q2Qc (100 # 1) * Q2Qc ((reconstructed - optimized) # 1) / Q2Qc (optimized # 1) < limit)%Qc).
Proof.
  intros a b limit H1 H2. unfold growth_below. destruct (decide (b = 0)%Z) as [->|N]; [split; [done|]; intros [? _]; lia|]. rewrite Z.mod_small by lia. rewrite bool_decide_eq_true. split; [intros K; split; [lia|done]|]. by intros [_ ?].
Qed.
(** With a negative number it always chooses partial bundle adjustment (with a limit that is not negative, as required). *)
Theorem growth_test_refuted : forall reconstructed optimized limit, (0 <= reconstructed)%Z -> (optimized < 0)%Z -> (reconstructed - optimized < 2 ^ 63)%Z -> (0 <= limit)%Qc ->
  growth_below reconstructed optimized limit = true.
Proof.
  intros a b limit H1 H2 H3 H4. unfold growth_below. rewrite decide_False by lia. rewrite bool_decide_eq_true. eapply Qclt_le_trans; [|exact H4]. rewrite Z.mod_small by lia.
  destruct b as [|b|b]; [lia|lia|]. destruct (a - Z.neg b)%Z as [|x|x] eqn:Ex; [lia| |lia]. unfold Qclt. unfold Qcdiv, Qcmult, Qcinv, Q2Qc. cbn [this].
  rewrite !Qred_correct. unfold Qinv. cbn [Qnum Qden]. unfold Qlt, Qmult. cbn [Qnum Qden]. lia.
Qed.
Print Assumptions incremental_frame.
Print Assumptions incremental_no_undefined_partial.
Print Assumptions initial_pair.
Print Assumptions initial_cameras_partial.
Print Assumptions initial_cameras_refuted.
Print Assumptions initial_pair_order.
Print Assumptions next_views_order.
Print Assumptions underconstrained_partial.
Print Assumptions round_bookkeeping.
Print Assumptions rounds_bounded_partial.
Print Assumptions growth_test_partial.
Print Assumptions growth_test_refuted.
