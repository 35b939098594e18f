(** Proofs about hybrid reconstruction. *)
From stdpp Require Import gmap sorting.
From Coq Require Import Reals QArith_base Qcanon.
From Verif Require Import Base Reconstruction_Model ViewGraph_Model SfmQueries_Model SfmQueries_Spec SfmQueries_Proofs SfmQueries_Props
  TrackEstimator_Model TrackEstimator_Spec TrackEstimator_Props TrackSelection_Model TrackSelection_Props
  VisibilityPyramid_Model VisibilityPyramid_Spec VisibilityPyramid_Props
  BundleAdjust_Model BundleAdjust_Spec BundleAdjust_Proofs BundleAdjust_Setup BundleAdjust_Result BundleAdjust_Props
  Localize_Model Localize_Spec Localize_Proofs Localize_Props Priors_Model Incremental_Model Incremental_Spec Incremental_Proofs Incremental_Under Incremental_Steps
  Hybrid_Model.

Lemma safe_and {A} ub (x : outcome A) (Q R : A -> Prop) : safe ub x Q -> safe ub x R -> safe ub x (fun a => Q a /\ R a).
Proof. destruct x; cbn; auto. Qed.

Section hybrid.
Context {F P W : Type}.
Notation recon := (recon F (list R) (list R)).
Notation heap := (gmap N intrinsics).
Notation inc := (inc F).
Implicit Types (r : recon) (h : heap) (s : inc).
Context (w : world F P W) (pw : pair_world F) (E : nat -> env F P W) (opts0 : inc_options) (min_two_view : Z) (graph : view_graph two_view)
  (focal_priors : gset N) (sizes : gmap N (Z * Z)) (orientations : gmap N (R * R * R)).
Notation opts := (constant_orientations opts0).
Context (err : pose_error (P:=P) (W:=W)) (ferr : focal_error (P:=P) (W:=W)) (cerr : model_type -> F -> list R -> list R -> list R -> R).
Context (HE : forall n, pose_contract err ferr (e_with_orientation (E n)) (e_calibrated (E n)) (e_uncalibrated (E n)) /\ ceres_contract cerr (e_solve (E n))).
Context (r0 : recon) (h0 : heap) (Hc0 : consistent r0) (Hg0 : grouped r0) (Ha0 : allocated r0 h0) (H60 : six r0).
Context (Hn0 : (Z.of_nat (size (dom (rc_tracks r0))) < 2 ^ 31)%Z).
Context (Hmin : (1 <= io_min_inliers opts < 2 ^ 31)%Z) (Hthreads : (1 <= eo_threads (io_triangulation opts))%Z) (Hstep : (1 <= eo_step (io_triangulation opts))%Z).
Context (ub : Prop).
Notation good := (good opts r0 h0).
Notation vgraph := (views_graph r0).
Notation inv := (inv opts vgraph r0 h0 ub).

Lemma views_graph_ids r : vg_view_ids (views_graph r) = dom (rc_views r).
Proof. unfold vg_view_ids, views_graph. cbn. apply dom_gset_to_gmap. Qed.
Lemma all_views u : u ∈ graph_views vgraph r0 <-> is_Some (rc_views r0 !! u).
Proof. unfold graph_views. rewrite views_graph_ids, elem_of_intersection, elem_of_dom. tauto. Qed.
Lemma views_graph_same s : good s -> views_graph (n_recon s) = vgraph.
Proof. intros Hg. destruct (good_facts opts r0 h0 Hc0 Hg0 Ha0 H60 s Hg) as (_ & _ & _ & _ & _ & D). unfold views_graph. by rewrite D. Qed.

(** The two ways to initialize the cameras of a pair. *)
Definition oriented (p : N * N) : Prop := is_Some (orientations !! p.1) \/ is_Some (orientations !! p.2).
Definition initialized s s' (ok : bool) (p : N * N) : Prop :=
  good s' /\ same_sets s s' /\ rc_tracks (n_recon s') = rc_tracks (n_recon s) /\
  (forall u, est_view (n_recon s') u -> u = p.1 \/ u = p.2 \/ est_view (n_recon s) u) /\
  (ok = true -> (forall u, est_view (n_recon s') u <-> u = p.1 \/ u = p.2 \/ est_view (n_recon s) u) /\
     is_Some (rc_views r0 !! p.1) /\ is_Some (rc_views r0 !! p.2) /\ oriented p).

Lemma set_pair s (p : N * N) v1 v2 d2 h : good s -> p.1 <> p.2 -> rc_views (n_recon s) !! p.1 = Some v1 -> rc_views (n_recon s) !! p.2 = Some v2 -> length d2 = 6%nat ->
  (forall q, option_Forall2 (fun i i' => i_type i' = i_type i /\ length (i_params i') = length (i_params i)) (n_heap s !! q) (h !! q)) ->
  let s' := with_heap s (set_view (set_view (n_recon s) p.1 true (v_data v1)) p.2 true d2) h in
  good s' /\ same_sets s s' /\ rc_tracks (n_recon s') = rc_tracks (n_recon s) /\
  (forall u, est_view (n_recon s') u <-> u = p.1 \/ u = p.2 \/ est_view (n_recon s) u) /\ is_Some (rc_views r0 !! p.1) /\ is_Some (rc_views r0 !! p.2).
Proof.
  intros Hg Hne H1 H2 L2 Hh s'. destruct (good_facts opts r0 h0 Hc0 Hg0 Ha0 H60 s Hg) as (_ & _ & _ & H6 & _).
  set (r1 := set_view (n_recon s) p.1 true (v_data v1)) in *. pose proof (set_view_posed _ _ _ true (v_data v1) H1) as P1. fold r1 in P1.
  assert (H2' : rc_views r1 !! p.2 = Some v2) by (destruct P1 as (_ & P1 & _); rewrite P1 by done; done).
  set (r2 := set_view r1 p.2 true d2) in *. pose proof (set_view_posed _ _ _ true d2 H2') as P2. fold r2 in P2.
  assert (Hs1 : scene (n_recon s) (n_heap s) r1 h) by (by eapply (posed_scene _ _ _ _ p.1 v1 true (v_data v1))).
  assert (Hs2 : scene r1 h r2 h). { eapply (posed_scene _ _ _ _ p.2 v2 true d2); [done| |done|intros q; apply heap_refl]. by rewrite L2, (H6 _ _ H2). }
  split; [apply same_heap_scene; [done|]; by eapply scene_trans|]. split; [done|]. split; [done|]. split.
  - intros u. cbn [n_recon with_heap s']. rewrite (posed_est _ _ _ _ _ _ u H2' P2), (posed_est _ _ _ _ _ _ u H1 P1). destruct (decide (u = p.2)), (decide (u = p.1)); tauto.
  - split; apply (good_view opts r0 h0 Hc0 Hg0 Ha0 H60 s _ Hg); eauto.
Qed.
Lemma not_initialized s p : good s -> initialized s s false p.
Proof. intros Hg. split; [done|]. split; [done|]. split; [done|]. split; [auto|done]. Qed.
Lemma position_six (x : R * R * R) (d : list R) : length d = 6%nat -> length (set_position (vec3 x) d) = 6%nat.
Proof. intros L. unfold set_position. rewrite app_length, drop_length, L. done. Qed.

Lemma initialize_known_safe s p : good s -> p.1 <> p.2 -> (is_Some (rc_views r0 !! p.1) /\ is_Some (rc_views r0 !! p.2) \/ ub) ->
  safe ub (initialize_known pw min_two_view orientations s p) (fun x => initialized s x.1 x.2 p).
Proof.
  intros Hg Hne Hex. unfold initialize_known. destruct (good_facts opts r0 h0 Hc0 Hg0 Ha0 H60 s Hg) as (_ & _ & _ & H6 & _).
  destruct (decide _) as [_|Ho]; [by apply not_initialized|].
  destruct (rc_views (n_recon s) !! p.1) as [v1|] eqn:H1.
  2:{ cbn. destruct Hex as [[K _]|]; [|done]. apply (good_view opts r0 h0 Hc0 Hg0 Ha0 H60 s p.1 Hg) in K as [? ?]. congruence. }
  destruct (rc_views (n_recon s) !! p.2) as [v2|] eqn:H2.
  2:{ cbn. destruct Hex as [[_ K]|]; [|done]. apply (good_view opts r0 h0 Hc0 Hg0 Ha0 H60 s p.2 Hg) in K as [? ?]. congruence. }
  cbn [or_ub mbind outcome_bind]. destruct (pw_relative _ _ _ _ _) as [[x n]|]; [|by apply not_initialized]. cbn [safe fst snd].
  destruct (set_pair s p v1 v2 (set_position (vec3 x) (v_data v2)) (n_heap s) Hg Hne H1 H2) as (A1 & A2 & A3 & A4 & A5 & A6); [apply position_six; by apply (H6 p.2)|intros q; apply heap_refl|].
  split; [done|]. split; [done|]. split; [done|]. split; [intros u Hu; by apply A4|]. intros _. split; [done|]. split; [done|]. split; [done|].
  unfold oriented. destruct (orientations !! p.1) eqn:O1; [left; eauto|]. destruct (orientations !! p.2) eqn:O2; [right; eauto|]. exfalso. by apply Ho.
Qed.
Lemma initialize_two_view_safe s p info : good s -> p.1 <> p.2 -> (is_Some (rc_views r0 !! p.1) /\ is_Some (rc_views r0 !! p.2) \/ ub) ->
  safe ub (initialize_two_view pw orientations s p info) (fun x => initialized s x.1 x.2 p).
Proof.
  intros Hg Hne Hex. unfold initialize_two_view. destruct (good_facts opts r0 h0 Hc0 Hg0 Ha0 H60 s Hg) as (_ & _ & _ & H6 & _).
  destruct (decide _) as [_|Ho]; [by apply not_initialized|].
  destruct (rc_views (n_recon s) !! p.1) as [v1|] eqn:H1.
  2:{ cbn. destruct Hex as [[K _]|]; [|done]. apply (good_view opts r0 h0 Hc0 Hg0 Ha0 H60 s p.1 Hg) in K as [? ?]. congruence. }
  destruct (rc_views (n_recon s) !! p.2) as [v2|] eqn:H2.
  2:{ cbn. destruct Hex as [[_ K]|]; [|done]. apply (good_view opts r0 h0 Hc0 Hg0 Ha0 H60 s p.2 Hg) in K as [? ?]. congruence. }
  cbn [or_ub mbind outcome_bind]. eapply safe_bind; [apply set_focal_safe|]. intros h1 Hh1. eapply safe_bind; [apply set_focal_safe|]. intros h2 Hh2. cbn [safe fst snd].
  set (d2 := set_position _ _).
  destruct (set_pair s p v1 v2 d2 h2 Hg Hne H1 H2) as (A1 & A2 & A3 & A4 & A5 & A6); [apply position_six; by apply (H6 p.2)| |].
  { intros q. specialize (Hh1 q). specialize (Hh2 q). destruct Hh1 as [i i' [K1 K2]|]; inversion Hh2 as [j j' [K3 K4]|]; subst; constructor. split; congruence. }
  split; [done|]. split; [done|]. split; [done|]. split; [intros u Hu; by apply A4|]. intros _. split; [done|]. split; [done|]. split; [done|].
  left. destruct (orientations !! p.1) eqn:O1; [eauto|done].
Qed.

(** ChooseInitialViewPair. *)
Definition chosen_oriented s s' (ok : bool) (pairs : list (N * N)) : Prop :=
  ok = true -> exists p, p ∈ pairs /\ n_reconstructed s' = n_reconstructed s ++ [p.1; p.2] /\ oriented p.
Lemma choose_loop_hybrid_safe pairs : forall s, good s -> Forall (pair_ok graph r0 ub) pairs ->
  safe ub (choose_loop_hybrid w pw E opts0 min_two_view graph orientations s pairs) (fun x => chosen opts r0 h0 s x.1 x.2 pairs /\ chosen_oriented s x.1 x.2 pairs).
Proof.
  induction pairs as [|p pairs IH]; intros s Hg Hps.
  { cbn. split; [|done]. split; [done|]. split; [done|]. split; [done|]. split; [by left|]. auto. }
  apply Forall_cons in Hps as [(Hne & [info Hi] & Hex) Hps]. cbn [choose_loop_hybrid].
  destruct (set_unestimated_ok (e_order (E (n_tick s))) (n_recon s) (n_heap s)) as (U1 & U2 & U3 & _). set (r1 := set_unestimated _ _) in *.
  set (s1 := with_recon s r1). assert (Hg1 : good s1). { destruct Hg as [G1 G2]. split; [by eapply scene_trans|done]. }
  rewrite Hi. cbn [or_ub mbind outcome_bind].
  assert (Hlater : forall s4, good s4 -> (forall u, est_view (n_recon s4) u -> u = p.1 \/ u = p.2) -> n_unlocalized s4 = n_unlocalized s -> n_reconstructed s4 = n_reconstructed s ->
    n_optimized s4 = n_optimized s \/ n_optimized s4 = Z.of_nat (length (n_reconstructed s)) ->
    safe ub (choose_loop_hybrid w pw E opts0 min_two_view graph orientations s4 pairs) (fun x => chosen opts r0 h0 s x.1 x.2 (p :: pairs) /\ chosen_oriented s x.1 x.2 (p :: pairs))).
  { intros s4 Hg4 F4 C1 C2 C3. eapply safe_weaken; [by apply IH|]. intros [s5 ok] [H5 Ho5]. cbn [fst snd] in *. split.
    - eapply (chosen_later opts r0 h0 s s4); [done|done|done| |exact H5]. intros u Hu. split; [by apply F4|]. destruct Hu as (v & Hv & _). apply (good_view opts r0 h0 Hc0 Hg0 Ha0 H60 s4 u Hg4). by exists v.
    - intros Hok. destruct (Ho5 Hok) as (q & Hq & Hr & Hq'). exists q. split; [by right|]. split; [by rewrite Hr, C2|done]. }
  eapply (safe_bind ub _ _ (fun x => initialized s1 x.1 x.2 p)); [by apply initialize_known_safe|]. intros [s2 ok2] I2. cbn [fst snd] in I2.
  eapply (safe_bind ub _ _ (fun x => initialized s1 x.1 x.2 p)).
  { destruct ok2; [done|]. destruct I2 as (B1 & (B2 & B2' & B2'') & B3 & B4 & _). eapply safe_weaken; [by apply initialize_two_view_safe|]. intros [s3 ok3] (D1 & (D2 & D2' & D2'') & D3 & D4 & D5). cbn [fst snd] in *.
    split; [done|]. split; [split; [congruence|split; congruence]|]. split; [congruence|]. split.
    - intros u Hu. destruct (D4 u Hu) as [?|[?|K]]; [by left|by right; left|by apply B4].
    - intros Hok. destruct (D5 Hok) as (X1 & X2). split; [|done]. intros u. rewrite X1. split; [intros [?|[?|K]]; [by left|by right; left|by apply B4]|]. intros [?|[?|K]]; [by left|by right; left|]. exfalso. by apply (U2 u). }
  clear s2 ok2 I2. intros [s2 ok2] (Hg2 & (A1 & A2 & A3) & A4 & A4' & A5). cbn [fst snd] in *.
  assert (E2' : forall u, est_view (n_recon s2) u -> u = p.1 \/ u = p.2). { intros u Hu. destruct (A4' u Hu) as [?|[?|K]]; [by left|by right|]. by apply U2 in K. }
  destruct ok2; cbn [negb]; [|apply Hlater; [done|done|by rewrite A1|by rewrite A2|left; by rewrite A3]].
  destruct (A5 eq_refl) as (A5' & Hex1 & Hex2 & Hor). pose proof (conj Hex1 Hex2) as Hex'. clear A5.
  eapply safe_bind; [apply (estimate_structure_safe w E opts r0 h0 Hc0 Hg0 Ha0 H60 Hn0 Hthreads Hstep ub s2 p.1); [done|apply Hex']|].
  intros s3 ((Hg3 & F3 & B1 & B2 & B3) & Htri & _).
  assert (E2 : forall u, est_view (n_recon s2) u <-> u = p.1 \/ u = p.2). { intros u. rewrite A5'. split; [intros [?|[?|K]]; auto; by apply U2 in K|]. tauto. }
  assert (E3 : forall u, est_view (n_recon s3) u <-> u = p.1 \/ u = p.2) by (intros u; rewrite (F3 u); apply E2).
  assert (Hsee : forall t, est_track (n_recon s3) t -> sees (n_recon s3) p.1 t /\ sees (n_recon s3) p.2 t).
  { intros t Ht. apply Htri in Ht as [Ht|(u1 & u2 & Hn & V1 & V2 & S1 & S2)].
    - exfalso. apply (U3 t). unfold est_track in *. by rewrite A4 in Ht.
    - assert (Hs : forall u, sees (n_recon s3) u t <-> sees (n_recon s2) u t).
      { intros u. rewrite (scene_sees _ _ _ _ u t (proj1 Hg3)). by rewrite (scene_sees _ _ _ _ u t (proj1 Hg2)). }
      rewrite !Hs. apply E2 in V1 as [->| ->], V2 as [->| ->]; done. }
  assert (K1 : n_unlocalized s3 = n_unlocalized s) by (rewrite B1, A1; done). assert (K2 : n_reconstructed s3 = n_reconstructed s) by (rewrite B2, A2; done).
  assert (K3 : n_optimized s3 = n_optimized s) by (rewrite B3, A3; done).
  destruct (decide _) as [_|_]; [apply Hlater; auto; intros u; apply E3|].
  eapply safe_bind; [by apply (full_adjustment_safe w E opts err ferr cerr HE r0 h0 Hc0 Hg0 Ha0 H60 ub s3)|]. intros [s4 ok] (Hg4 & F4 & Few & C1 & C2 & C3). cbn [fst] in *.
  assert (E4 : forall u, est_view (n_recon s4) u -> u = p.1 \/ u = p.2) by (intros u Hu; apply (F4 u) in Hu; by apply E3).
  destruct ok; cbn [negb]; [|apply Hlater; [done|done|congruence|congruence|right; congruence]].
  destruct (decide _) as [Hmany|_]; [|apply Hlater; [done|done|congruence|congruence|right; congruence]].
  cbn [safe fst snd]. split; [|intros _; exists p; split; [by left|]; split; [cbn; by rewrite C2, K2|done]]. split; [done|]. exists p. split; [by left|]. unfold chosen_pair. cbn [n_unlocalized n_reconstructed n_optimized n_recon with_views].
  split; [by rewrite C1, K1|]. split; [by rewrite C2, K2|]. split; [by rewrite C3, K2|]. split; [intros u; rewrite (F4 u); apply E3|]. split; [|split; [|done]].
  - eexists. split; [exact Hmany|]. intros t Ht. by apply estimated_tracks_lemma in Ht.
  - intros t Ht. apply Few in Ht. assert (Hs : forall u, sees (n_recon s4) u t <-> sees (n_recon s3) u t).
    { intros u. rewrite (scene_sees _ _ _ _ u t (proj1 Hg4)). by rewrite (scene_sees _ _ _ _ u t (proj1 Hg3)). }
    rewrite !Hs. by apply Hsee.
Qed.

(** OrderViewPairsByInitializationCriterion. *)
Context (Hgraph : forall p, is_Some (vg_edges graph !! p) -> (p.1 < p.2)%N).
Context (Hpairs : (forall p, is_Some (vg_edges graph !! p) -> is_Some (rc_views r0 !! p.1) /\ is_Some (rc_views r0 !! p.2)) \/ ub).

Lemma common_loop_not_ub o r l views : common_loop (C:=list R) (D:=list R) o r l views <> UB.
Proof.
  revert l. induction views as [|u views IH]; intros l; cbn [common_loop]; [done|]. destruct (decide _); [done|]. destruct (rc_views r !! u); cbn [or_die mbind outcome_bind]; [|done]. apply IH.
Qed.
Lemma angle_safe o r h p : (is_Some (rc_views r !! p.1) /\ is_Some (rc_views r !! p.2)) \/ ub -> safe ub (triangulation_angle pw o r h p) (fun _ => True).
Proof.
  intros Hex. unfold triangulation_angle. eapply (safe_bind ub _ _ (fun _ => True)).
  - unfold find_common_tracks. cbn [check length]. rewrite bool_decide_eq_true_2 by lia. cbn [check mbind outcome_bind]. destruct (rc_views r !! p.1) as [v|]; cbn [or_die mbind outcome_bind]; [|done].
    pose proof (common_loop_not_ub o r (sorted_track_ids o v) [p.2]) as K. by destruct (common_loop _ _ _ _).
  - intros _ _. destruct (rc_views r !! p.1) as [v1|]; cbn [or_ub mbind outcome_bind]; [|destruct Hex as [[[? ?] _]|]; done].
    destruct (rc_views r !! p.2) as [v2|]; cbn [or_ub mbind outcome_bind safe]; [done|]. destruct Hex as [[_ [? ?]]|]; done.
Qed.

(** The candidates, with the criterion of the triangulation angle. *)
Definition scored o r h (min : Z) (c : candidate) : Prop := exists i, vg_edges graph !! c.2 = Some i /\ (min < tv_verified i)%Z /\ c.1.2 = (- tv_verified i)%Z /\
  ((is_Some (orientations !! c.2.1) /\ is_Some (orientations !! c.2.2)) /\ triangulation_angle pw o r h c.2 = Ok (- c.1.1)%Z \/
   ~ (is_Some (orientations !! c.2.1) /\ is_Some (orientations !! c.2.2)) /\ c.1.1 = 0%Z).
Lemma order_hybrid_safe s min : good s -> safe ub (order_pairs_hybrid pw E graph orientations s min) (fun l =>
  exists cs, l = snd <$> merge_sort candidate_le cs /\ NoDup (snd <$> cs) /\ (forall c, c ∈ cs -> scored (e_order (E (n_tick s))) (n_recon s) (n_heap s) min c) /\
    (forall p i, vg_edges graph !! p = Some i -> (min < tv_verified i)%Z -> p ∈ snd <$> cs)).
Proof.
  intros Hg. unfold order_pairs_hybrid. set (o := e_order (E (n_tick s))).
  assert (G : forall es acc, (forall e, e ∈ es -> vg_edges graph !! e.1 = Some e.2) -> NoDup (fst <$> es) -> NoDup (snd <$> acc) -> (forall c, c ∈ acc -> scored o (n_recon s) (n_heap s) min c) ->
    (forall e, e ∈ es -> e.1 ∉ snd <$> acc) ->
    safe ub (run_steps (criterion_step pw orientations o (n_recon s) (n_heap s) min) acc es) (fun cs => NoDup (snd <$> cs) /\ (forall c, c ∈ cs -> scored o (n_recon s) (n_heap s) min c) /\
      (forall c, c ∈ acc -> c ∈ cs) /\ (forall e, e ∈ es -> (min < tv_verified e.2)%Z -> e.1 ∈ snd <$> cs))).
  { induction es as [|e es IH]; intros acc Hes D1 D2 Hacc Hd.
    { cbn. split; [done|]. split; [done|]. split; [done|]. intros e He. by apply elem_of_nil in He. }
    assert (He : vg_edges graph !! e.1 = Some e.2) by (apply Hes; by left). rewrite fmap_cons in D1. apply NoDup_cons in D1 as [N1 D1]. cbn [run_steps].
    eapply (safe_bind ub _ _ (fun acc' => NoDup (snd <$> acc') /\ (forall c, c ∈ acc' -> scored o (n_recon s) (n_heap s) min c) /\ (forall c, c ∈ acc -> c ∈ acc') /\
      (forall c, c ∈ acc' -> c ∈ acc \/ c.2 = e.1) /\ ((min < tv_verified e.2)%Z -> e.1 ∈ snd <$> acc'))).
    - unfold criterion_step.
      eapply (safe_bind ub _ _ (fun a => ((is_Some (orientations !! e.1.1) /\ is_Some (orientations !! e.1.2)) /\ triangulation_angle pw o (n_recon s) (n_heap s) e.1 = Ok a \/
        ~ (is_Some (orientations !! e.1.1) /\ is_Some (orientations !! e.1.2)) /\ a = 0%Z))).
      + destruct (decide _) as [Ho|Ho]; [|cbn; by right]. assert (Hx : (is_Some (rc_views (n_recon s) !! e.1.1) /\ is_Some (rc_views (n_recon s) !! e.1.2)) \/ ub).
        { destruct Hpairs as [K|]; [left|by right]. destruct (K e.1) as [K1 K2]; [by exists e.2|]. split; by apply (good_view opts r0 h0 Hc0 Hg0 Ha0 H60 s _ Hg). }
        pose proof (angle_safe o (n_recon s) (n_heap s) e.1 Hx) as Ka. destruct (triangulation_angle _ _ _ _ _) as [a| | |]; cbn in *; [by left|done|done|done].
      + intros a Ha. cbn [safe]. destruct (decide _) as [Hm|Hm].
        * split; [rewrite fmap_app; apply NoDup_app; split; [done|]; split; [|apply NoDup_singleton]; intros x Hx Hx'; apply elem_of_list_singleton in Hx' as ->; by apply (Hd e ltac:(by left))|].
          split; [|split; [intros c Hc; apply elem_of_app; by left|split]].
          -- intros c [Hc|Hc]%elem_of_app; [by apply Hacc|]. apply elem_of_list_singleton in Hc as ->. exists e.2. cbn [fst snd]. split; [done|]. split; [done|]. split; [done|]. destruct Ha as [[Ho Ha]|[Ho ->]]; [left|right]; (split; [done|]); [by rewrite Z.opp_involutive|done].
          -- intros c [Hc|Hc]%elem_of_app; [by left|]. apply elem_of_list_singleton in Hc as ->. by right.
          -- intros _. rewrite fmap_app. apply elem_of_app. right. by apply elem_of_list_singleton.
        * split; [done|]. split; [done|]. split; [done|]. split; [by left|]. done.
    - intros acc' (B1 & B2 & B3 & B4 & B5). eapply safe_weaken; [apply (IH acc'); [intros x Hx; apply Hes; by right|done|done|done|]|].
      + intros x Hx Hin. apply elem_of_list_fmap in Hin as (c & Ec & Hc). destruct (B4 c Hc) as [K|K].
        * apply (Hd x ltac:(by right)). apply elem_of_list_fmap. by exists c.
        * apply N1. apply elem_of_list_fmap. exists x. split; [congruence|done].
      + intros cs (C1 & C2 & C3 & C4). split; [done|]. split; [done|]. split; [intros c Hc; by apply C3, B3|]. intros x Hx Hm. apply elem_of_cons in Hx as [->|Hx]; [|by apply C4].
        apply B5 in Hm. apply elem_of_list_fmap in Hm as (c & Ec & Hc). apply elem_of_list_fmap. exists c. split; [done|by apply C3]. }
  eapply safe_bind; [apply (G (e_edges (E (n_tick s)) (map_to_list (vg_edges graph))) [])|].
  - intros [p i] He. rewrite ord_perm, elem_of_map_to_list in He. done.
  - rewrite ord_perm. apply NoDup_fst_map_to_list.
  - constructor.
  - intros c Hc. by apply elem_of_nil in Hc.
  - intros e _ Hc. by apply elem_of_nil in Hc.
  - intros cs (C1 & C2 & _ & C4). cbn [safe]. exists cs. split; [done|]. split; [done|]. split; [done|]. intros p i Hi Hm. apply (C4 (p, i)); [|done]. by rewrite ord_perm, elem_of_map_to_list.
Qed.

Lemma choose_initial_hybrid_safe s : good s -> safe ub (choose_initial_hybrid w pw E opts0 min_two_view graph orientations s) (fun x =>
  exists pairs, (forall p, p ∈ pairs -> exists i, vg_edges graph !! p = Some i /\ (kMinNumInitialTracks < tv_verified i)%Z) /\
    chosen opts r0 h0 s x.1 x.2 pairs /\ chosen_oriented s x.1 x.2 pairs).
Proof.
  intros Hg. unfold choose_initial_hybrid. eapply safe_bind; [by apply order_hybrid_safe|]. intros l (cs & -> & _ & Hcs & _).
  assert (Hl : forall p, p ∈ snd <$> merge_sort candidate_le cs -> exists i, vg_edges graph !! p = Some i /\ (kMinNumInitialTracks < tv_verified i)%Z).
  { intros p Hp. apply elem_of_list_fmap in Hp as (c & -> & Hc). rewrite merge_sort_Permutation in Hc. destruct (Hcs c Hc) as (i & Hi & Hm & _). by exists i. }
  eapply safe_weaken; [apply choose_loop_hybrid_safe; [done|]|].
  - apply Forall_forall. intros p Hp. destruct (Hl p Hp) as (i & Hi & _). pose proof (Hgraph p ltac:(by exists i)) as Hlt. split; [lia|]. split.
    + unfold view_id_pair. rewrite decide_True by done. destruct p as [a b]. cbn. by exists i.
    + destruct Hpairs as [K|]; [left; apply K; by exists i|by right].
  - intros [s' ok] H. exists (snd <$> merge_sort candidate_le cs). split; [exact Hl|exact H].
Qed.

(** Views that are in neither list and are not estimated. *)
Definition gone s (z : N) : Prop := is_Some (rc_views r0 !! z) /\ z ∉ n_unlocalized s /\ z ∉ n_reconstructed s /\ ~ est_view (n_recon s) z.

Lemma chosen_inv_hybrid s s' ok pairs : inv s -> n_reconstructed s = [] -> n_optimized s = 0%Z -> (forall p, p ∈ pairs -> is_Some (vg_edges graph !! p)) ->
  chosen opts r0 h0 s s' ok pairs -> inv s'.
Proof.
  intros (Hg & (S1 & S2 & S3 & S4 & S5) & Hcov & Hon) Hr Ho Hps [Hg' H]. split; [done|]. destruct ok.
  - destruct H as (p & Hp & H1 & H2 & H3 & H4 & _ & _ & H5 & H6). pose proof (Hgraph p (Hps p Hp)) as Hlt. rewrite Hr in H2. cbn [app] in H2. rewrite Hr in H3. cbn in H3.
    assert (P1 : p.1 ∈ graph_views vgraph r0) by (by apply all_views). assert (P2 : p.2 ∈ graph_views vgraph r0) by (by apply all_views).
    assert (Hin : forall u, u ∈ n_unlocalized s' <-> u ∈ n_unlocalized s /\ u <> p.1 /\ u <> p.2).
    { intros u. rewrite H1, !elem_of_difference, !elem_of_singleton. tauto. }
    assert (Hrec : forall u, u ∈ n_reconstructed s' <-> u = p.1 \/ u = p.2).
    { intros u. rewrite H2, !elem_of_cons. split; [intros [?|[?|K]]; auto; by apply elem_of_nil in K|]. tauto. }
    split; [|split].
    + split; [|split; [|split; [|split]]].
      * intros u Hu. apply Hin in Hu as [Hu _]. by apply S1.
      * intros u Hu. apply Hrec in Hu as [->| ->]; done.
      * rewrite H2. apply NoDup_cons. split; [|apply NoDup_singleton]. intros K. apply elem_of_list_singleton in K. lia.
      * intros u Hu. rewrite Hin. apply Hrec in Hu. tauto.
      * rewrite H3. lia.
    + destruct Hcov as [Hcov|]; [left|by right]. intros u Hu. destruct (Hcov u Hu) as [K|K]; [|rewrite Hr in K; by apply elem_of_nil in K].
      rewrite Hin, Hrec. destruct (decide (u = p.1)), (decide (u = p.2)); tauto.
    + intros u Hu. apply H4 in Hu as [->| ->]; by left.
  - destruct H as (H1 & H2 & H3 & H4). unfold sets_ok, covered, only_graph. rewrite H1, H2. split; [|split; [done|]].
    + split; [done|]. split; [done|]. split; [done|]. split; [done|]. destruct H3 as [->| ->]; [done|lia].
    + intros u (v & Hv & _). left. apply all_views. apply (good_view opts r0 h0 Hc0 Hg0 Ha0 H60 s' u Hg'). by exists v.
Qed.

(** LocalizeView. *)
Definition attempted s s' (ok : bool) (u : N) : Prop :=
  good s' /\ same_sets s s' /\ rc_tracks (n_recon s') = rc_tracks (n_recon s) /\ (ok = true -> est_view (n_recon s') u) /\
  (forall x, x <> u -> rc_views (n_recon s') !! x = rc_views (n_recon s) !! x).
Lemma localize_with_ok known s u : good s -> is_Some (rc_views r0 !! u) -> exists s' ok, localize_with w E opts0 focal_priors sizes known s u = Ok (s', ok) /\ attempted s s' ok u.
Proof.
  intros Hg Hu. destruct (good_facts opts r0 h0 Hc0 Hg0 Ha0 H60 s Hg) as (Hc & Hgr & Ha & H6 & _). apply (good_view opts r0 h0 Hc0 Hg0 Ha0 H60 s u Hg) in Hu as [v Hv]. destruct (HE (n_tick s)) as [Hp Hs].
  unfold localize_with. set (e := E (n_tick s)) in *. set (size := default (0, 0)%Z (sizes !! u)).
  destruct (localize_changes_only (w_unproject w) (w_center w) (w_hnorm w) (e_with_orientation e) (e_calibrated e) (e_uncalibrated e) err ferr cerr (e_order e) (e_ba_orders e) (e_solve e)
    focal_priors (hybrid_localization opts0 known) size.1 size.2 (n_recon s) (n_heap s) u v [] Hp Hs Hc Hgr Ha H6 Hv) as (ok & inl & r & h & est & d & HL & Hps & Hd & Hest & _ & Hh1 & Hh2).
  { exact Hmin. }
  rewrite HL. cbn [mbind outcome_bind]. exists (with_heap s r h), ok. split; [done|]. split; [|split; [done|split; [|split]]].
  - apply same_heap_scene; [done|]. eapply (posed_scene _ _ _ _ u v est d); [done|by rewrite Hd, (H6 u v Hv)|done|]. intros p. destruct (decide (p = v_intr v)) as [->|Np]; [|rewrite Hh1 by done; apply heap_refl].
    destruct (Ha u v Hv) as [i Hi]. destruct (Hh2 i Hi) as (i' & Hi' & Hty & Hlen & _). rewrite Hi, Hi'. by constructor.
  - destruct Hps as (-> & _). done.
  - intros ->. apply (posed_est _ _ _ _ _ _ u Hv Hps). left. split; [done|]. destruct est; [done|]. by discriminate Hest.
  - destruct Hps as (_ & Hw & _). done.
Qed.
Lemma localize_hybrid_ok s u : good s -> is_Some (rc_views r0 !! u) -> exists s' ok, localize_hybrid w E opts0 focal_priors sizes orientations s u = Ok (s', ok) /\ attempted s s' ok u.
Proof.
  intros Hg Hu. unfold localize_hybrid. destruct (decide _); [|by apply localize_with_ok]. destruct (localize_with_ok true s u Hg Hu) as (s1 & ok1 & -> & A). cbn [mbind outcome_bind]. destruct ok1; [by exists s1, true|].
  destruct A as (A1 & (A2 & A2' & A2'') & A3 & _ & A5). destruct (localize_with_ok false s1 u A1 Hu) as (s2 & ok2 & -> & (B1 & (B2 & B2' & B2'') & B3 & B4 & B5)). exists s2, ok2. split; [done|].
  split; [done|]. split; [split; [congruence|split; congruence]|]. split; [congruence|]. split; [done|]. intros x Hx. rewrite (B5 x Hx). by apply A5.
Qed.
Lemma attempted_est s s' ok u x : attempted s s' ok u -> x <> u -> est_view (n_recon s') x <-> est_view (n_recon s) x.
Proof. intros (_ & _ & _ & _ & H) Hx. unfold est_view. by rewrite (H x Hx). Qed.

(** A view that is gone stays gone. *)
Lemma keep_gone s s' z : keep opts r0 h0 s s' -> gone s z -> gone s' z.
Proof. intros (_ & Hf & U & R & _) (G1 & G2 & G3 & G4). split; [done|]. rewrite U, R. split; [done|]. split; [done|]. by rewrite (Hf z). Qed.
Lemma underconstrained_gone s z : inv s -> gone s z -> safe ub (set_underconstrained E vgraph s) (fun s' => gone s' z).
Proof.
  intros Hi (G1 & G2 & G3 & G4). pose proof (set_underconstrained_safe E opts vgraph r0 h0 Hc0 Hg0 Ha0 H60 ub s Hi) as Hs. destruct Hi as (Hg & (S1 & S2 & S3 & S4 & S5) & _).
  destruct (good_facts opts r0 h0 Hc0 Hg0 Ha0 H60 s Hg) as (Hc & _).
  destruct (set_underconstrained_cases E vgraph s Hc S3 S4) as (r' & us & ts & Hf & _ & _ & _ & _ & _ & [(s' & Es & B1 & _ & _ & _ & B5 & B6)|(Es & _)]); rewrite Es in Hs |- *; cbn [safe] in *; [|done].
  destruct Hs as (_ & _ & Hest & _). split; [done|]. split; [|split].
  - destruct B6 as [[-> _]|(_ & _ & K1 & K2)]; [done|]. intros Hz. apply K1 in Hz as [Hz|Hz]; [done|]. by apply K2 in Hz.
  - intros Hz. rewrite B5 in Hz. by apply elem_of_list_filter in Hz as [_ Hz].
  - intros Hz. by apply G4, Hest.
Qed.
Context (Hfeat : features_ok (w_position w) (image_size sizes) vgraph r0 \/ ub).
Lemma extend_gone s u z : inv s -> u ∈ n_unlocalized s -> gone s z -> safe ub (extend w E opts vgraph s u) (fun x => gone x.1 z).
Proof.
  intros (Hg & (S1 & S2 & S3 & S4 & S5) & Hcov & Hon) Hu (G1 & G2 & G3 & G4). unfold extend. set (s1 := with_views s _ _ _). pose proof (S1 u Hu) as HuG. pose proof (graph_views_view vgraph r0 u HuG) as Hu0.
  assert (Hg1 : good s1) by exact Hg.
  assert (I1 : inv s1 /\ gone s1 z).
  { split; [split; [done|]; split; [|split; [|done]]|].
    - split; [intros x Hx; cbn [n_unlocalized s1 with_views] in Hx; apply elem_of_difference in Hx as [Hx _]; by apply S1|]. cbn [n_unlocalized n_reconstructed n_optimized s1 with_views]. split; [|split; [|split]].
      + intros x [Hx|Hx]%elem_of_app; [by apply S2|]. apply elem_of_list_singleton in Hx as ->. done.
      + apply NoDup_app. split; [done|]. split; [|apply NoDup_singleton]. intros x Hx Hx'. apply elem_of_list_singleton in Hx' as ->. by apply (S4 u).
      + intros x [Hx|Hx]%elem_of_app Hx'; apply elem_of_difference in Hx' as [K1 K2]; [by apply (S4 x)|]. apply elem_of_list_singleton in Hx as ->. by apply K2, elem_of_singleton.
      + rewrite app_length. cbn. lia.
    - destruct Hcov as [Hcov|]; [left|by right]. intros x Hx. cbn [n_unlocalized n_reconstructed s1 with_views]. destruct (Hcov x Hx) as [K|K].
      + destruct (decide (x = u)) as [->|N]; [right; apply elem_of_app; right; by apply elem_of_list_singleton|left; by apply elem_of_difference; rewrite elem_of_singleton].
      + right. apply elem_of_app. by left.
    - split; [done|]. cbn [n_unlocalized n_reconstructed n_recon s1 with_views]. split; [|split; [|done]].
      + intros K. by apply elem_of_difference in K as [K _].
      + intros [K|K]%elem_of_app; [done|]. apply elem_of_list_singleton in K as ->. done. }
  change (n_recon s) with (n_recon s1). destruct (proj1 (good_view opts r0 h0 Hc0 Hg0 Ha0 H60 s1 u Hg1) Hu0) as [v Hv]. cbn [n_recon s1 with_views] in Hv |- *. rewrite Hv. cbn [or_ub mbind outcome_bind].
  eapply safe_bind; [apply (remove_outliers_safe w E opts r0 h0 Hc0 Hg0 Ha0 H60 ub s1); [done|]|].
  { intros t Ht. apply elem_of_list_to_set in Ht. rewrite ord_perm, elem_of_elements, elem_of_dom in Ht. apply (sees_tracks opts r0 h0 Hc0 Hg0 Ha0 H60 s1 u t Hg1). by exists v. }
  destruct I1 as [I1 Z1]. intros s2 (Hk2 & _). pose proof (keep_inv _ _ _ _ _ _ _ Hk2 I1) as I2. pose proof (keep_gone _ _ _ Hk2 Z1) as Z2.
  eapply (safe_bind ub _ _ (fun x => inv x.1 /\ gone x.1 z)).
  - destruct Hk2 as (Hg2 & _ & U2 & R2 & O2). destruct (growth_below _ _ _).
    + eapply safe_bind; [by apply (estimate_structure_safe w E opts r0 h0 Hc0 Hg0 Ha0 H60 Hn0 Hthreads Hstep ub s2 u)|]. intros s3 (Hk3 & _). pose proof (keep_inv _ _ _ _ _ _ _ Hk3 I2) as I3. pose proof (keep_gone _ _ _ Hk3 Z2) as Z3.
      eapply safe_weaken; [apply (partial_adjustment_safe w E opts err ferr cerr HE r0 h0 Hc0 Hg0 Ha0 H60 ub s3); [apply I3|]|].
      { intros x Hx. apply (graph_views_view vgraph). by apply I3. }
      intros [s4 ok] [Hk4 _]. cbn [fst] in *. split; [by eapply keep_inv|by eapply keep_gone].
    + eapply safe_bind; [by apply (estimate_everything_safe w E opts r0 h0 Hc0 Hg0 Ha0 H60 Hn0 Hthreads Hstep ub s2)|]. intros s3 (Hk3 & _). pose proof (keep_inv _ _ _ _ _ _ _ Hk3 I2) as I3. pose proof (keep_gone _ _ _ Hk3 Z2) as Z3.
      eapply safe_weaken; [apply (full_adjustment_safe w E opts err ferr cerr HE r0 h0 Hc0 Hg0 Ha0 H60 ub s3); apply I3|]. intros [s4 ok] (Hg4 & F4 & _ & U4 & R4 & O4). cbn [fst] in *.
      destruct I3 as (_ & (T1 & T2 & T3 & T4 & T5) & C3 & Og3). split.
      * split; [done|]. unfold sets_ok, covered, only_graph. rewrite U4, R4, O4.
        split; [split; [done|]; split; [done|]; split; [done|]; split; [done|]; lia|]. split; [done|]. intros x Hx. apply Og3. by apply (F4 x).
      * destruct Z3 as (Y1 & Y2 & Y3 & Y4). split; [done|]. rewrite U4, R4. split; [done|]. split; [done|]. by rewrite (F4 z).
  - intros [s4 ok] (I4 & Z4). cbn [fst] in *. eapply safe_bind; [by apply (underconstrained_gone s4 z)|]. intros s5 Z5. exact Z5.
Qed.

(** The candidates of a round are different views. *)
Lemma scores_nodup (f : N -> outcome (option (Z * N))) : (forall u y, f u = Ok (Some y) -> y.2 = u) -> forall l acc res,
  run_steps (fun l u => x ← f u; Ok (match x with Some y => l ++ [y] | None => l end)) acc l = Ok res ->
  NoDup l -> NoDup (snd <$> acc) -> (forall u, u ∈ l -> u ∉ snd <$> acc) -> NoDup (snd <$> res).
Proof.
  intros Hf. induction l as [|u l IH]; intros acc res Hr Dl Da Hd; [cbn in Hr; congruence|]. apply NoDup_cons in Dl as [Nu Dl]. cbn [run_steps] in Hr. destruct (f u) as [x| | |] eqn:Ef; cbn [mbind outcome_bind] in Hr; [|discriminate Hr..].
  apply IH in Hr; [done|done| |].
  - destruct x as [y|]; [|done]. rewrite fmap_app. apply NoDup_app. split; [done|]. split; [|apply NoDup_singleton]. intros z Hz Hz'. apply elem_of_list_singleton in Hz' as ->. rewrite (Hf u y Ef) in Hz. by apply (Hd u ltac:(by left)).
  - intros z Hz. destruct x as [y|]; [|apply Hd; by right]. rewrite fmap_app. intros [K|K]%elem_of_app; [by apply (Hd z ltac:(by right))|]. apply elem_of_list_singleton in K as ->. rewrite (Hf u y Ef) in Hz. done.
Qed.
Lemma find_views_nodup s l : find_views w E sizes s = Ok l -> NoDup l.
Proof.
  unfold find_views. intros H. apply bind_Ok in H as (scores & Hs & H). injection H as <-. rewrite merge_sort_Permutation. eapply (scores_nodup (score_view w sizes (e_order (E (n_tick s))) (n_recon s))); [|exact Hs| | |].
  - intros u y Hy. unfold score_view in Hy. destruct (rc_views _ !! u); cbn [or_ub mbind outcome_bind] in Hy; [|discriminate Hy]. apply bind_Ok in Hy as (p & _ & Hy). apply bind_Ok in Hy as ([p' n] & _ & Hy).
    destruct (decide _); [|discriminate Hy]. apply bind_Ok in Hy as (x & _ & Hy). injection Hy as <-. done.
  - rewrite ord_perm. apply NoDup_elements.
  - constructor.
  - intros u _ K. by apply elem_of_nil in K.
Qed.

Lemma round_loop_safe views : forall s failed, inv s -> NoDup views -> (forall u, u ∈ views -> u ∈ n_unlocalized s) ->
  safe ub (round_loop w E opts0 focal_priors sizes orientations s views failed) (fun x => inv x.1.1 /\ (forall z, gone s z -> gone x.1.1 z) /\
    (x.1.2 = true -> (failed <= x.2 <= failed + length views)%nat /\
       (x.2 = (failed + length views)%nat -> n_unlocalized x.1.1 = n_unlocalized s /\ n_reconstructed x.1.1 = n_reconstructed s))).
Proof.
  induction views as [|u views IH]; intros s failed Hi Dv Hv; [cbn; split; [done|]; split; [done|]; intros _; split; [lia|done]|]. apply NoDup_cons in Dv as [Nu Dv]. cbn [round_loop].
  assert (Hu : u ∈ n_unlocalized s) by (apply Hv; by left). destruct Hi as (Hg & Hs & Hcov & Hon). assert (Hu0 : is_Some (rc_views r0 !! u)) by (apply (graph_views_view vgraph); destruct Hs as [K _]; by apply K).
  destruct (localize_hybrid_ok s u Hg Hu0) as (s1 & ok & -> & A). cbn [mbind outcome_bind]. assert (Hg1 : good s1) by apply A. pose proof A as (_ & (U1 & R1 & O1) & _ & _ & _).
  assert (I1 : inv s1).
  { split; [done|]. unfold sets_ok, covered, only_graph. rewrite U1, R1, O1. split; [exact Hs|]. split; [exact Hcov|]. intros x (v & Hx & _). left. apply all_views. apply (good_view opts r0 h0 Hc0 Hg0 Ha0 H60 s1 x Hg1). by exists v. }
  assert (Z1 : forall z, gone s z -> gone s1 z).
  { intros z (Y1 & Y2 & Y3 & Y4). split; [done|]. rewrite U1, R1. split; [done|]. split; [done|]. rewrite (attempted_est _ _ _ _ z A); [done|]. intros ->. done. }
  destruct ok.
  - rewrite (views_graph_same s1 Hg1). pose proof I1 as (_ & Hs1 & Hcov1 & Hon1). rewrite <- U1 in Hu.
    eapply (safe_bind ub _ _ (fun x => (inv x.1 /\ x.2 <> NoneLocalized /\ extended s1 x.1 u) /\ forall z, gone s1 z -> gone x.1 z)).
    + pose proof (extend_safe w E opts vgraph sizes err ferr cerr HE r0 h0 Hc0 Hg0 Ha0 H60 Hn0 Hmin Hthreads Hstep ub Hfeat s1 u Hg1 Hs1 Hcov1 Hon1 Hu) as X. apply safe_and; [exact X|].
      assert (Y : forall z, gone s1 z -> safe ub (extend w E opts vgraph s1 u) (fun x => gone x.1 z)) by (intros z; by apply extend_gone).
      destruct (extend _ _ _ _ _ _); cbn [safe] in *; [exact Y|exact I|exact X|exact I].
    + intros [s2 p] ((I2 & Np & (back & Hb & Hr)) & Z2). cbn [fst snd] in *.
      assert (Hgo : safe ub (round_loop w E opts0 focal_priors sizes orientations s2 views failed) (fun x => inv x.1.1 /\ (forall z, gone s z -> gone x.1.1 z) /\
         (x.1.2 = true -> (failed <= x.2 <= failed + length (u :: views))%nat /\
          (x.2 = (failed + length (u :: views))%nat -> n_unlocalized x.1.1 = n_unlocalized s /\ n_reconstructed x.1.1 = n_reconstructed s)))).
      { eapply safe_weaken; [apply (IH s2 failed I2 Dv)|].
        - intros x Hx. apply Hb. left. rewrite U1. split; [apply Hv; by right|]. intros ->. done.
        - intros [[s3 ok3] n3] (I3 & Z3 & Hn3). cbn [fst snd length] in *. split; [done|]. split; [intros z Hz; by apply Z3, Z2, Z1|]. intros Hok. destruct (Hn3 Hok) as [Hn4 _]. split; [lia|]. intros K. lia. }
      destruct p; [done| |exact Hgo]. cbn [safe fst snd]. split; [done|]. split; [intros z Hz; by apply Z2, Z1|done].
  - eapply safe_weaken; [apply (IH s1 (S failed) I1 Dv)|].
    + intros x Hx. rewrite U1. apply Hv. by right.
    + intros [[s3 ok3] n3] (I3 & Z3 & Hn3). cbn [fst snd length] in *. split; [done|]. split; [intros z Hz; by apply Z3, Z1|]. intros Hok. destruct (Hn3 Hok) as [Hn4 Hn5]. split; [lia|]. intros K. destruct Hn5 as [X1 X2]; [lia|]. split; congruence.
Qed.
Lemma hybrid_loop_safe fuel : forall s, inv s -> safe ub (hybrid_loop w E opts0 focal_priors sizes orientations fuel s) (fun x => inv x.1 /\ forall z, gone s z -> gone x.1 z).
Proof.
  induction fuel as [|fuel IH]; intros s Hi; [done|]. cbn [hybrid_loop]. destruct (decide _); [done|].
  pose proof (find_views_safe w E opts vgraph sizes r0 h0 Hc0 Hg0 Ha0 H60 ub Hfeat s Hi) as Hf. pose proof (find_views_nodup s) as Hd.
  destruct (find_views w E sizes s) as [views| | |]; cbn [mbind outcome_bind safe] in *; [|done|done|done].
  eapply safe_bind; [apply (round_loop_safe views s 0 Hi); [by apply Hd|done]|]. intros [[s1 ok] n1] (I1 & Z1 & _). cbn [fst snd] in *. destruct ok; cbn [negb]; [|done]. destruct (decide _); [done|].
  eapply safe_weaken; [by apply IH|]. intros [s2 ok2] (I2 & Z2). split; [done|]. intros z Hz. by apply Z2, Z1.
Qed.

Lemma hybrid_from_safe fuel s : inv s -> n_reconstructed s = [] -> n_optimized s = 0%Z ->
  safe ub (hybrid_from w pw E opts0 min_two_view graph focal_priors sizes orientations fuel s) (fun x => inv x.1 /\
    if is_success x.2
    then (forall u, u ∈ is_views x.2 <-> est_view (n_recon x.1) u) /\ (forall t, t ∈ is_tracks x.2 <-> est_track (n_recon x.1) t) /\
      exists p i, vg_edges graph !! p = Some i /\ (kMinNumInitialTracks < tv_verified i)%Z /\ oriented p /\
        forall z, is_Some (rc_views r0 !! z) -> z ∉ n_unlocalized s -> z <> p.1 -> z <> p.2 -> ~ est_view (n_recon x.1) z
    else is_views x.2 = ∅ /\ is_tracks x.2 = ∅).
Proof.
  intros Hi Hr Ho. unfold hybrid_from. eapply safe_bind; [apply choose_initial_hybrid_safe; apply Hi|]. intros [s1 ok] (pairs & Hps & Hch & Hor). cbn [fst snd] in *.
  assert (I1 : inv s1). { eapply chosen_inv_hybrid; [exact Hi|done|done| |exact Hch]. intros p Hp. destruct (Hps p Hp) as (i & Hp' & _). by exists i. }
  destruct ok; cbn [negb]; [|cbn; done]. eapply safe_bind; [by apply hybrid_loop_safe|]. intros [s2 ok] [I2 Z2]. cbn [fst] in *. destruct ok; cbn [negb]; [|cbn; done].
  cbn [safe fst snd is_success is_views is_tracks]. split; [done|]. split; [intros u; apply estimated_views_lemma|]. split; [intros t; apply estimated_tracks_lemma|].
  destruct Hch as [_ (p & Hp & C1 & C2 & _ & C4 & _)]. destruct (Hps p Hp) as (i & Hpi & Hm). exists p, i. split; [done|]. split; [done|]. split.
  - destruct (Hor eq_refl) as (q & _ & Q1 & Q2). rewrite C2 in Q1. apply app_inv_head in Q1. destruct p as [a b], q as [c d]. cbn in Q1. injection Q1 as -> ->. exact Q2.
  - intros z Hz Nz N1 N2. apply Z2. split; [done|]. split; [|split].
    + rewrite C1, !elem_of_difference. intros [[K _] _]. done.
    + rewrite C2, Hr. cbn [app]. rewrite !elem_of_cons. intros [?|[?|K]]; [done|done|]. by apply elem_of_nil in K.
    + rewrite C4. tauto.
Qed.
End hybrid.
