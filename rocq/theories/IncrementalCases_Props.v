(** C103-C108: what does not hold of incremental reconstruction, and concrete cases for the theorems in Incremental_Props.v. *)
From stdpp Require Import gmap sorting strings.
From Coq Require Import Reals QArith_base Qcanon Lra.
From Verif Require Import Base Reconstruction_Model ViewGraph_Model ViewGraph_Spec SfmQueries_Model SfmQueries_Spec SfmQueries_Proofs SfmQueries_Props
  TrackEstimator_Model TrackEstimator_Spec TrackSelection_Model VisibilityPyramid_Model VisibilityPyramid_Spec
  BundleAdjust_Model BundleAdjust_Spec BundleAdjust_Proofs BundleAdjust_Props
  Localize_Model Localize_Spec Priors_Model Priors_Spec Priors_Props Incremental_Model Incremental_Spec Incremental_Proofs Incremental_Under Incremental_Steps Incremental_Props.

(** Reconstructions of four views: [views] says which are estimated, [tracks] are lists of views. *)
Definition scene_ops (tracks : list (list N)) (views : list bool) (estimated : bool) : list (rc_op N (list R) (list R)) :=
  [OAddView ord_id "a"; OAddView ord_id "b"; OAddView ord_id "c"; OAddView ord_id "d"] ++
  ((fun us => OAddTrack ((fun u => (u, 7%N)) <$> us)) <$> tracks) ++
  imap (fun i b => OSetView (N.of_nat i) b identity_pose) views ++
  imap (fun i _ => OSetTrack (N.of_nat i) estimated [0; 0; 0; 1]%R) tracks.
Definition scene_of (tracks : list (list N)) (views : list bool) (estimated : bool) : option (recon N (list R) (list R)) :=
  match run_obs (rc_step [] []) rc_empty (scene_ops tracks views estimated) with Ok (r, _) => Some r | _ => None end.
Definition scene_heap : gmap N intrinsics :=
  list_to_map ((fun p => (p, Intrinsics Pinhole [1; 1; 0; 0; 0; 0; 0]%R)) <$> [0; 1; 2; 3]%N).
Definition plain_prior : prior := Prior 0 0 "PINHOLE" None None None None None None.

Lemma scene_facts tracks views estimated r : (N.of_nat (length (scene_ops tracks views estimated)) < 2 ^ 32)%N -> scene_of tracks views estimated = Some r -> consistent r /\ grouped r.
Proof.
  intros Hl. unfold scene_of. destruct (run_obs _ _ _) as [[r0 rs]| | |] eqn:E; intros K; [|discriminate K|discriminate K|discriminate K]. injection K as <-.
  exact (reachable_grouped N [] [] (scene_ops tracks views estimated) r0 rs Hl E).
Qed.
(** The parts of [input_ok] that are seen by running the operations. *)
Definition scene_test (r : recon N (list R) (list R)) : bool :=
  forallb (fun x => bool_decide (is_Some (scene_heap !! v_intr x.2)) && bool_decide (length (v_data x.2) = 6%nat)) (map_to_list (rc_views r)) &&
  bool_decide (rc_next_ptr r = 4%N) && bool_decide (Z.of_nat (length (map_to_list (rc_tracks r))) < 1000)%Z.
Lemma plain_usable : usable plain_prior.
Proof. split; [left; done|by exists Pinhole]. Qed.
Lemma scene_input tracks views estimated r : (N.of_nat (length (scene_ops tracks views estimated)) < 2 ^ 32)%N -> scene_of tracks views estimated = Some r -> scene_test r = true -> input_ok r scene_heap (fun _ => plain_prior).
Proof.
  intros Hl E Ht. destruct (scene_facts _ _ _ _ Hl E) as [Hc Hg]. unfold scene_test in Ht. rewrite !andb_true_iff, !bool_decide_eq_true in Ht. destruct Ht as ((Hv & Hp) & Hn).
  rewrite forallb_True, list.Forall_forall in Hv || (apply Is_true_true in Hv; rewrite forallb_True, list.Forall_forall in Hv).
  assert (Hv' : forall u v, rc_views r !! u = Some v -> is_Some (scene_heap !! v_intr v) /\ length (v_data v) = 6%nat).
  { intros u v Huv. specialize (Hv (u, v)). rewrite elem_of_map_to_list in Hv. specialize (Hv Huv). cbn [snd] in Hv. apply Is_true_true in Hv. by rewrite andb_true_iff, !bool_decide_eq_true in Hv. }
  split; [done|]. split; [done|]. split; [intros u v H; by apply (Hv' u v)|]. split; [|split; [|split; [intros u v H; by apply (Hv' u v)|split]]].
  - intros p i Hi. apply elem_of_list_to_map_2, elem_of_list_fmap in Hi as (q & [= -> ->] & _). done.
  - intros p [i Hi]. rewrite Hp. apply elem_of_list_to_map_2, elem_of_list_fmap in Hi as (q & [= -> ->] & Hq). clear -Hq. repeat (apply elem_of_cons in Hq as [->|Hq]; [lia|]). by apply elem_of_nil in Hq.
  - rewrite size_dom. unfold size, map_size. lia.
  - intros u _. apply plain_usable.
Qed.

(** An environment that meets the contracts: no pose is ever found, the solver keeps its start. *)
Definition lost : estimate := Estimate false [] [] 1 [].
Definition still_solver {F} (l : list (residual (F:=F))) (bs : gmap block flags) (x : block -> list R) : solution := Solution x 0 0 true.
Lemma still_contract {F} : ceres_contract (F:=F) (fun _ _ _ _ _ => 0%R) still_solver.
Proof.
  intros l bs x _. assert (K : problem_cost (F:=F) (fun _ _ _ _ _ => 0%R) l x = 0%R). { unfold problem_cost. induction l as [|a l IH]; [done|]. change (0 + sum_of (fun _ : residual (F:=F) => 0%R) l = 0)%R. unfold sum_of in *. rewrite IH. lra. }
  unfold still_solver. cbn [sol_values sol_usable sol_initial sol_final]. split; [done|]. split; [done|]. intros _. rewrite K. split; [done|]. split; [done|]. lra.
Qed.
Definition still_env {F P W} : env F P W :=
  Env ord_id ord_id ord_id (fun _ _ => ord_id) (replicate 500 0%nat) still_solver (fun _ _ _ => lost) (fun _ _ => lost) (fun _ _ => lost).
Lemma still_ok {F P W} : environment_ok (fun _ => @still_env F P W).
Proof. exists (fun _ _ _ => 0%R), (fun _ _ _ _ => 0%R), (fun _ _ _ _ _ => 0%R). intros n. split; [|apply still_contract]. by split. Qed.

(** A graph with [n] verified matches in the view pair (0, 1), and one match in (1, 2) and (2, 3). *)
Definition info (n : Z) : two_view := TwoView 1 1 (0, 0, 0)%R (1, 0, 0)%R n 0.
Definition graph_ops (n : Z) : list (vg_op two_view) := [VAddEdge 0 1 (info n); VAddEdge 1 2 (info 1); VAddEdge 2 3 (info 1)]%N.
Definition graph_of (n : Z) : view_graph two_view := (vg_run vg_empty (graph_ops n)).1.

(** Every point is in front of every camera with error 0, and all rays are parallel. *)
Definition flat_world : world N unit unit :=
  World (fun _ => Geometry (fun _ _ => 1%Qc) (fun _ _ _ => 0%Qc) (fun _ _ => (1, 0, 0)%Qc) (fun _ => Some [0; 0; 0; 1]%R) (fun _ d => (d, true)))
    (fun _ _ => (1, 0, 0)%Qc) (fun _ => (0, 0)%Qc) (fun _ _ => tt) (fun _ _ => tt) (fun _ => tt).
Definition easy_options : inc_options := IncOptions 0 0 1 1 1%R 1 (EstOptions 1 1 (Q2Qc (2 # 1)) false 1000) (BaOptions false true kNone) false 0 1 0.
Lemma easy_ok grid : options_ok easy_options grid.
Proof. split; [cbn; lia|]. split; [cbn; lia|]. split; [cbn; lia|]. intros K. discriminate K. Qed.

Lemma no_views u v : rc_views (rc_empty : recon N (list R) (list R)) !! u = Some v -> False.
Proof. unfold rc_empty. cbn [rc_views]. by rewrite lookup_empty. Qed.
Lemma no_intrinsics p i : (∅ : gmap N intrinsics) !! p = Some i -> False.
Proof. by rewrite lookup_empty. Qed.
(** C104, refuted: a pair of the graph whose views are not in the reconstruction is dereferenced. *)
Theorem missing_views_undefined_refuted : exists (ops : list (vg_op two_view)) (r : recon N (list R) (list R)),
  input_ok r ∅ (fun _ => plain_prior) /\ environment_ok (fun _ => @still_env N unit unit) /\ options_ok easy_options None /\
  (forall u, ~ est_view r u) /\
  estimate_incrementally flat_world (fun _ => still_env) easy_options (vg_run vg_empty ops).1 (fun _ => plain_prior) ord_id (fun _ => ord_id) None 1 r ∅ ∅ = UB.
Proof.
  exists (graph_ops 101), rc_empty. split; [|split; [apply still_ok|split; [apply easy_ok|split]]].
  - destruct (reachable_grouped N [] [] ([] : list (rc_op N (list R) (list R))) rc_empty []) as [Hc Hg]; [done|done|]. split; [done|]. split; [done|]. split; [intros u v K; by apply no_views in K|].
    split; [intros u v K; by apply no_intrinsics in K|]. split; [intros q [j K]; by apply no_intrinsics in K|]. split; [intros u v K; by apply no_views in K|]. split; [vm_compute; reflexivity|]. intros; apply plain_usable.
  - intros u (v & K & _). by apply no_views in K.
  - vm_compute. reflexivity.
Qed.
Print Assumptions missing_views_undefined_refuted.


(** The scenes below: views 0, 1 and 3 share three tracks and view 2 sees nothing; in [dangling], view 2 sees one track of
    view 0; in [thin], views 0 and 1 share two tracks, and each has a track in common with view 2, which is not estimated. *)
Definition shared : list (list N) := [[0; 1; 3]; [0; 1; 3]; [0; 1; 3]]%N.
Definition dangling : list (list N) := [[0; 1]; [0; 1]; [0; 1]; [0; 2]]%N.
Definition thin : list (list N) := [[0; 1]; [0; 1]; [0; 2]; [1; 2]]%N.
Lemma scene_exists tracks views estimated (Q : recon N (list R) (list R) -> Prop) :
  (N.of_nat (length (scene_ops tracks views estimated)) < 2 ^ 32)%N ->
  match scene_of tracks views estimated with Some r => scene_test r = true /\ Q r | None => False end ->
  exists r, scene_of tracks views estimated = Some r /\ input_ok r scene_heap (fun _ => plain_prior) /\ Q r.
Proof.
  intros Hl. destruct (scene_of tracks views estimated) as [r|] eqn:E; [|intros []]. intros [H1 H2]. exists r. split; [reflexivity|]. split; [|exact H2]. exact (scene_input _ _ _ r Hl E H1).
Qed.

(** C104, refuted: estimation is resumed with the views 0, 1 and 2 estimated; view 2 sees no track.  When view 3 has been
    localized, view 2 is found to be underconstrained and erased from the list of reconstructed views, where it is not. *)
Theorem resume_undefined_refuted : exists r : recon N (list R) (list R),
  input_ok r scene_heap (fun _ => plain_prior) /\ elements (initial_unlocalized (graph_of 1) r) = [3%N] /\
  set_underconstrained (fun _ => @still_env N unit unit) (graph_of 1) (Inc (rc_set_view r 3 true identity_pose) scene_heap ∅ [3%N] 0 None 0) = UB.
Proof.
  destruct (scene_exists shared [true; true; true; false] true (fun r => elements (initial_unlocalized (graph_of 1) r) = [3%N] /\
    set_underconstrained (fun _ => @still_env N unit unit) (graph_of 1) (Inc (rc_set_view r 3 true identity_pose) scene_heap ∅ [3%N] 0 None 0) = UB)) as (r & _ & H1 & H2).
  - vm_compute. reflexivity.
  - vm_compute. repeat split.
  - exists r. split; [exact H1|exact H2].
Qed.
Print Assumptions resume_undefined_refuted.

(** C107, refuted: an estimated view may see fewer than three estimated tracks afterwards. *)
Theorem underconstrained_views_refuted : exists (r : recon N (list R) (list R)) s',
  input_ok r scene_heap (fun _ => plain_prior) /\
  set_underconstrained (fun _ => @still_env N unit unit) (graph_of 1) (Inc r scene_heap {[2; 3]}%N [0; 1]%N 0 None 0) = Ok s' /\
  est_view (n_recon s') 0 /\ ~ sees_many (n_recon s') 3 0.
Proof.
  set (Q := fun r' : recon N (list R) (list R) => (fun v => (v_est v, (map_to_list (v_feats v)).*1)) <$> rc_views r' !! 0%N = Some (true, [0; 1; 2]%N) /\ t_est <$> rc_tracks r' !! 2%N = Some false).
  destruct (scene_exists thin [true; true; false; false] true (fun r => match set_underconstrained (fun _ => @still_env N unit unit) (graph_of 1) (Inc r scene_heap {[2; 3]}%N [0; 1]%N 0 None 0) with
    Ok s' => Q (n_recon s') | _ => False end)) as (r & _ & H1 & H2).
  - vm_compute. reflexivity.
  - vm_compute. repeat split.
  - exists r. destruct (set_underconstrained _ _ _) as [s'| | |] eqn:E; [|destruct H2|destruct H2|destruct H2]. clear E. exists s'. split; [exact H1|]. split; [reflexivity|]. clear H1.
    destruct H2 as [V T]. apply fmap_Some in V as (v & Hv & V). injection V as V1 V2. split; [exists v; split; [done|congruence]|].
    intros (X & HX & HT). assert (Hsub : X ⊆ {[0; 1]}%N).
    { intros t Ht. destruct (HT t Ht) as [(v' & Hv' & f & Hf) (T0 & HT0 & He)]. assert (v' = v) as -> by congruence. apply elem_of_map_to_list in Hf. assert (Hin : t ∈ (map_to_list (v_feats v)).*1) by (apply elem_of_list_fmap; by exists (t, f)).
      rewrite <- V2 in Hin. apply fmap_Some in T as (T1 & K1 & K2). rewrite !elem_of_cons in Hin. destruct Hin as [->|[->|[->|K]]]; [set_solver|set_solver|exfalso; congruence|by apply elem_of_nil in K]. }
    apply subseteq_size in Hsub. change (size ({[0; 1]}%N : gset N)) with 2%nat in Hsub. lia.
Qed.
Print Assumptions underconstrained_views_refuted.

(** C107, refuted: a view that is cleared may be neither put back for localization nor removed from the reconstructed ones. *)
Theorem underconstrained_lost_refuted : exists (r : recon N (list R) (list R)) s',
  input_ok r scene_heap (fun _ => plain_prior) /\ 2%N ∈ vg_view_ids (graph_of 1) /\ est_view r 2 /\
  set_underconstrained (fun _ => @still_env N unit unit) (graph_of 1) (Inc r scene_heap {[3]}%N [0; 1; 2]%N 0 None 0) = Ok s' /\
  ~ est_view (n_recon s') 2 /\ 2%N ∉ n_unlocalized s' /\ n_reconstructed s' = [0; 1; 2]%N.
Proof.
  destruct (scene_exists dangling [true; true; true; false] true (fun r => v_est <$> rc_views r !! 2%N = Some true /\ match set_underconstrained (fun _ => @still_env N unit unit) (graph_of 1) (Inc r scene_heap {[3]}%N [0; 1; 2]%N 0 None 0) with
    Ok s' => v_est <$> rc_views (n_recon s') !! 2%N = Some false /\ elements (n_unlocalized s') = [3]%N /\ n_reconstructed s' = [0; 1; 2]%N | _ => False end)) as (r & _ & H1 & H0 & H2).
  - vm_compute. reflexivity.
  - vm_compute. repeat split.
  - exists r. destruct (set_underconstrained _ _ _) as [s'| | |] eqn:E; [|destruct H2|destruct H2|destruct H2]. clear E. exists s'. split; [exact H1|]. clear H1. split; [apply (bool_decide_unpack (2%N ∈ vg_view_ids (graph_of 1))); vm_compute; exact I|].
    destruct H2 as (V & U & L). split; [apply fmap_Some in H0 as (v & Hv & K); by exists v|]. split; [reflexivity|]. split; [|split; [|exact L]].
    + intros (v & Hv & He). rewrite Hv in V. cbn in V. congruence.
    + rewrite <- elem_of_elements, U. rewrite elem_of_list_singleton. discriminate.
Qed.
Print Assumptions underconstrained_lost_refuted.

(** C108, refuted: the number of optimized views may become negative (then [growth_test_refuted] applies). *)
Theorem optimized_count_refuted : exists (r : recon N (list R) (list R)) s',
  input_ok r scene_heap (fun _ => plain_prior) /\
  set_underconstrained (fun _ => @still_env N unit unit) (graph_of 1) (Inc r scene_heap {[3]}%N [0; 1; 2]%N 1 None 0) = Ok s' /\
  (n_optimized s' < 0)%Z.
Proof.
  destruct (scene_exists [] [true; true; true; false] true (fun r => match set_underconstrained (fun _ => @still_env N unit unit) (graph_of 1) (Inc r scene_heap {[3]}%N [0; 1; 2]%N 1 None 0) with
    Ok s' => n_optimized s' = (-2)%Z | _ => False end)) as (r & _ & H1 & H2).
  - vm_compute. reflexivity.
  - vm_compute. repeat split.
  - exists r. destruct (set_underconstrained _ _ _) as [s'| | |] eqn:E; [|destruct H2|destruct H2|destruct H2]. clear E. exists s'. split; [exact H1|]. split; [reflexivity|]. rewrite H2. lia.
Qed.
Print Assumptions optimized_count_refuted.

(** C103 and C104: the hypotheses are met, and the run succeeds when it is resumed with the views 0 and 1 ... *)
Example incremental_sample : exists r s sm sizes, input_ok r scene_heap (fun _ => plain_prior) /\ environment_ok (fun _ => @still_env N unit unit) /\ options_ok easy_options None /\
  estimate_incrementally flat_world (fun _ => still_env) easy_options (vg_run vg_empty [VAddEdge 0 1 (info 1)]%N).1 (fun _ => plain_prior) ord_id (fun _ => ord_id) None 1 r scene_heap ∅ = Ok (s, sm, sizes) /\
  is_success sm = true /\ elements (is_views sm) = [0; 1; 3]%N /\ elements (is_tracks sm) = [0; 1; 2]%N.
Proof.
  destruct (scene_exists shared [true; true; false; true] true (fun r => match estimate_incrementally flat_world (fun _ => still_env) easy_options (vg_run vg_empty [VAddEdge 0 1 (info 1)]%N).1 (fun _ => plain_prior) ord_id (fun _ => ord_id) None 1 r scene_heap ∅ with
    Ok (s, sm, _) => is_success sm = true /\ elements (is_views sm) = [0; 1; 3]%N /\ elements (is_tracks sm) = [0; 1; 2]%N | _ => False end)) as (r & _ & H1 & H2).
  - vm_compute. reflexivity.
  - vm_compute. repeat split.
  - exists r. destruct (estimate_incrementally _ _ _ _ _ _ _ _ _ _ _ _) as [[[s sm] sizes]| | |] eqn:E; [|destruct H2|destruct H2|destruct H2]. clear E. exists s, sm, sizes. split; [exact H1|]. split; [apply still_ok|]. split; [apply easy_ok|]. split; [reflexivity|]. exact H2.
Qed.

(** C105: a pair is found.  101 tracks are seen by the views 0 and 1. *)
Lemma initialize_positive (s : inc N) p (i : two_view) v1 v2 : rc_views (n_recon s) !! p.1 = Some v1 -> rc_views (n_recon s) !! p.2 = Some v2 ->
  (0 < tv_focal1 i)%R -> (0 < tv_focal2 i)%R ->
  let focal f (i : intrinsics) := Intrinsics (i_type i) (<[0%nat := f]> (i_params i)) in
  initialize_cameras s p i = Ok (with_heap s
    (set_view (set_view (n_recon s) p.1 true (v_data v1)) p.2 true (set_position (vec3 (tv_position i)) (set_orientation (vec3 (tv_rotation i)) (v_data v2))))
    (alter (focal (tv_focal2 i)) (v_intr v2) (alter (focal (tv_focal1 i)) (v_intr v1) (n_heap s)))).
Proof.
  intros H1 H2 F1 F2 focal. unfold initialize_cameras. rewrite H1, H2. cbn [or_ub mbind outcome_bind]. unfold set_focal.
  destruct (Rlt_dec 0 (tv_focal1 i)) as [_|]; [|done]. destruct (Rlt_dec 0 (tv_focal2 i)) as [_|]; [|done]. reflexivity.
Qed.
Definition many (n : nat) : list (list N) := replicate n [0; 1]%N.
Definition pair_state (r : recon N (list R) (list R)) (v1 v2 : view N (list R)) : inc N :=
  let s := Inc (set_unestimated ord_id r) scene_heap ∅ [] 0 None 1 in
  with_heap s
    (set_view (set_view (n_recon s) 0 true (v_data v1)) 1 true (set_position [1; 0; 0]%R (set_orientation [0; 0; 0]%R (v_data v2))))
    (alter (fun i : intrinsics => Intrinsics (i_type i) (<[0%nat := 1%R]> (i_params i))) (v_intr v2) (alter (fun i : intrinsics => Intrinsics (i_type i) (<[0%nat := 1%R]> (i_params i))) (v_intr v1) scene_heap)).
Definition pair_test (r : recon N (list R) (list R)) : bool :=
  match rc_views (set_unestimated ord_id r) !! 0%N, rc_views (set_unestimated ord_id r) !! 1%N with
  | Some v1, Some v2 =>
      match estimate_structure flat_world (fun _ => still_env) easy_options (pair_state r v1 v2) 0 with
      | Ok s2 => negb (bool_decide (Z.of_nat (size (estimated_tracks ord_id (n_recon s2))) < 100)%Z) &&
          match full_adjustment flat_world (fun _ => still_env) easy_options s2 with
          | Ok (s3, ok) => ok && bool_decide (100 < Z.of_nat (size (estimated_tracks ord_id (n_recon s3))))%Z
          | _ => false end
      | _ => false end
  | _, _ => false end.
Example initial_pair_sample : exists r s', let s := Inc r scene_heap ∅ [] 0 None 0 in
  environment_ok (fun _ => @still_env N unit unit) /\ options_ok easy_options None /\ input_ok r scene_heap (fun _ => plain_prior) /\
  choose_initial flat_world (fun _ => still_env) easy_options (graph_of 101) s = Ok (s', true).
Proof.
  destruct (scene_exists (many 101) [false; false; false; false] false (fun r => pair_test r = true)) as (r & _ & H1 & H2).
  - vm_compute. reflexivity.
  - vm_compute. repeat split.
  - unfold pair_test in H2. destruct (rc_views _ !! 0%N) as [v1|] eqn:V1; [|discriminate H2]. destruct (rc_views _ !! 1%N) as [v2|] eqn:V2; [|discriminate H2].
    destruct (estimate_structure _ _ _ _ _) as [s2| | |] eqn:E2; try discriminate H2. apply andb_true_iff in H2 as [K1 H2].
    destruct (full_adjustment _ _ _ _) as [[s3 ok]| | |] eqn:E3; try discriminate H2. apply andb_true_iff in H2 as [-> K2]. apply negb_true_iff in K1.
    exists r. eexists. split; [apply still_ok|]. split; [apply easy_ok|]. split; [exact H1|]. clear H1.
    unfold choose_initial. assert (Eo : order_pairs (graph_of 101) (e_edges (@still_env N unit unit)) kMinNumInitialTracks = [(0, 1)]%N) by (vm_compute; reflexivity). cbn [n_tick]. rewrite Eo. cbn [choose_loop].
    assert (Eg : vg_edges (graph_of 101) !! view_id_pair 0 1 = Some (info 101)) by (vm_compute; reflexivity). cbn [fst snd]. rewrite Eg. cbn [or_ub mbind outcome_bind].
    change (with_recon (Inc r scene_heap ∅ [] 0 None 0) _) with (Inc (set_unestimated ord_id r) scene_heap ∅ [] 0 None 1).
    assert (Ei : initialize_cameras (Inc (set_unestimated ord_id r) scene_heap ∅ [] 0 None 1) (0, 1)%N (info 101) = Ok (pair_state r v1 v2)) by (apply initialize_positive; [exact V1|exact V2|cbn; lra|cbn; lra]).
    rewrite Ei. cbn [mbind outcome_bind]. rewrite E2. cbn [mbind outcome_bind].
    unfold kMinNumInitialTracks. cbn [e_order still_env]. rewrite decide_False by (by apply bool_decide_eq_false in K1). rewrite E3. cbn [mbind outcome_bind negb].
    rewrite decide_True by (by apply bool_decide_eq_true in K2). reflexivity.
Qed.

(** C104: the hypotheses of the part that holds are met by this scene and the graph with 101 matches. *)
Lemma small_fits : representable 6 0 (this 0%Qc).
Proof. unfold representable. split; vm_compute; discriminate || reflexivity. Qed.
Lemma many_pairs p i : vg_edges (graph_of 101) !! p = Some i -> (100 < tv_verified i)%Z -> p = (0, 1)%N.
Proof.
  intros Hi Hv. assert (K : (p, i) ∈ map_to_list (vg_edges (graph_of 101))) by (by apply elem_of_map_to_list).
  assert (K' : forallb (fun e : N * N * two_view => bool_decide (e.1 = (0, 1)%N) || bool_decide (tv_verified e.2 <= 100)%Z) (map_to_list (vg_edges (graph_of 101))) = true) by (vm_compute; reflexivity).
  rewrite forallb_forall in K'. apply elem_of_list_In, K' in K. apply orb_true_iff in K as [K|K]; apply bool_decide_eq_true in K; cbn [fst snd] in K; [done|lia].
Qed.
Definition fresh (r : recon N (list R) (list R)) : Prop :=
  forallb (fun x => negb (v_est x.2)) (map_to_list (rc_views r)) = true /\ (fun v => v_feats v !! 0%N) <$> rc_views r !! 0%N = Some (Some 7%N) /\ v_est <$> rc_views r !! 1%N = Some false.
Example no_undefined_sample : exists r, input_ok r scene_heap (fun _ => plain_prior) /\ pairs_exist (graph_of 101) r 100 /\
  features_fit (w_position flat_world) (fun _ => plain_prior) (graph_of 101) r /\ (forall u, ~ est_view r u) /\ (exists u t, sees r u t).
Proof.
  destruct (scene_exists (many 101) [false; false; false; false] false fresh) as (r & _ & H1 & H2).
  - vm_compute. reflexivity.
  - vm_compute. repeat split.
  - exists r. split; [exact H1|]. clear H1. destruct H2 as (H2 & H3 & H4). apply fmap_Some in H3 as (v0 & V0 & K0), H4 as (v1 & V1 & K1). split; [|split; [|split]].
    + intros p i Hi Hv. apply (many_pairs p i) in Hi; [|exact Hv]. subst p. split; [by exists v0|by exists v1].
    + intros u v t f x c _ _ _ _ _. split; exact small_fits.
    + intros u (v & Hv & He). rewrite forallb_forall in H2. specialize (H2 (u, v)). rewrite <- elem_of_list_In, elem_of_map_to_list in H2. specialize (H2 Hv). cbn [snd] in H2. by rewrite He in H2.
    + exists 0%N, 0%N, v0. split; [exact V0|]. by exists 7%N.
Qed.

(** C106. *)
Definition plain (n m : Z) : two_view := TwoView 1 1 (0, 0, 0)%R (1, 0, 0)%R n m.
Example initial_pair_order_sample :
  order_pairs (vg_run vg_empty [VAddEdge 0 1 (plain 200 50); VAddEdge 1 2 (plain 150 10);
    VAddEdge 0 2 (plain 180 10); VAddEdge 2 3 (plain 100 0)]%N).1 ord_rev 100 = [(0, 2); (1, 2); (0, 1)]%N.
Proof. vm_compute. reflexivity. Qed.

(** Thirty tracks seen by four views, of which two are estimated; images of 10 x 10 pixels. *)
Definition wide : list (list N) := replicate 30 [0; 1; 2; 3]%N.
Definition small_images : gmap N (Z * Z) := {[2%N := (10, 10)%Z; 3%N := (10, 10)%Z]}.
Example next_views_sample : exists r, let s := Inc r scene_heap {[2; 3]}%N [0; 1]%N 2 None 0 in
  input_ok r scene_heap (fun _ => plain_prior) /\ (forall u, u ∈ n_unlocalized s -> is_Some (rc_views r !! u)) /\
  find_views flat_world (fun _ => still_env) small_images s = Ok [3; 2]%N.
Proof.
  destruct (scene_exists wide [true; true; false; false] true (fun r => elements (dom (rc_views r)) = [0; 1; 3; 2]%N /\
     find_views flat_world (fun _ => @still_env N unit unit) small_images (Inc r scene_heap {[2; 3]}%N [0; 1]%N 2 None 0) = Ok [3; 2]%N)) as (r & _ & H1 & H2 & H4).
  - vm_compute. reflexivity.
  - vm_compute. repeat split.
  - exists r. split; [exact H1|]. split; [|exact H4]. cbn [n_unlocalized]. intros u Hu. apply elem_of_dom. rewrite <- elem_of_elements, H2. apply elem_of_union in Hu. rewrite !elem_of_singleton in Hu. rewrite !elem_of_cons. tauto.
Qed.

(** C108: an environment in which poses are found, and a round that localizes view 3. *)
Definition found (th : R) (ms : list (unit * unit)) : estimate := Estimate true [0; 0; 0]%R [th - 1; 0; 0]%R 1 (seq 0 (length ms)).
Definition finding_env : env N unit unit :=
  Env ord_id ord_id ord_id (fun _ _ => ord_id) (replicate 500 0%nat) still_solver (fun th _ ms => found th ms) found found.
Lemma finding_ok : environment_ok (fun _ => finding_env).
Proof.
  exists (fun _ p _ => hd 0%R p), (fun _ _ p _ => hd 0%R p), (fun _ _ _ _ _ => 0%R). intros n. split; [|apply still_contract].
  assert (K : forall th ms, inliers_of (fun _ : unit * unit => (th - 1)%R) th ms (seq 0 (length ms))).
  { intros th ms. split; [apply NoDup_seq|]. intros i Hi. apply elem_of_seq in Hi. destruct (lookup_lt_is_Some_2 ms i) as [m Hm]; [lia|]. exists m. split; [done|]. lra. }
  split; [intros th o ms e _; split; [done|apply K]|]. split; intros th ms e _.
  - split; [done|]. split; [done|]. apply K.
  - split; [cbn; lra|]. split; [done|]. split; [done|]. apply K.
Qed.
Definition start (r : recon N (list R) (list R)) : inc N := Inc r scene_heap {[2; 3]}%N [0; 1]%N 2 None 0.
Definition next (s : inc N) : outcome (inc N * progress) :=
  views ← find_views flat_world (fun _ => finding_env) small_images s;
  localize_loop flat_world (fun _ => finding_env) easy_options (graph_of 1) {[2; 3]}%N small_images s views.
Definition ran (x : outcome (inc N * progress)) (Q : inc N -> Prop) : Prop := match x with Ok (s, Localized) => Q s | _ => False end.
Lemma ran_next s Q : ran (next s) Q -> exists s', round flat_world (fun _ => finding_env) easy_options (graph_of 1) {[2; 3]}%N small_images s s' /\ Q s'.
Proof.
  unfold ran, next, round. destruct (find_views _ _ _ _) as [views| | |] eqn:E1; cbn [mbind outcome_bind]; [|intros []|intros []|intros []].
  destruct (localize_loop _ _ _ _ _ _ _ _) as [[s' p]| | |] eqn:E2; [|intros []|intros []|intros []]. destruct p; [intros []|intros []|]. intros H. exists s'. split; [|exact H]. exists views, Localized. split; [reflexivity|]. split; [exact E2|discriminate].
Qed.
Example rounds_sample : exists r s', environment_ok (fun _ => finding_env) /\ state_ok (graph_of 1) easy_options (start r) /\
  (forall u, u ∈ vg_view_ids (graph_of 1) -> is_Some (rc_views r !! u) -> u ∈ n_unlocalized (start r) \/ u ∈ n_reconstructed (start r)) /\
  rounds flat_world (fun _ => finding_env) easy_options (graph_of 1) {[2; 3]}%N small_images 2 (start r) s' /\
  n_reconstructed s' = [0; 1; 3; 2]%N /\ n_optimized s' = 4%Z.
Proof.
  destruct (scene_exists wide [true; true; false; false] true (fun r => elements (dom (rc_views r)) = [0; 1; 3; 2]%N /\
    ran (next (start r)) (fun s1 => n_reconstructed s1 = [0; 1; 3]%N /\ ran (next s1) (fun s2 => n_reconstructed s2 = [0; 1; 3; 2]%N /\ n_optimized s2 = 4%Z)))) as (r & _ & H1 & H0 & H2).
  - vm_compute. reflexivity.
  - vm_compute. repeat split.
  - apply ran_next in H2 as (s1 & R1 & L1 & H2). apply ran_next in H2 as (s2 & R2 & L2 & O2). exists r, s2.
    assert (Hg : elements (vg_view_ids (graph_of 1)) = [0; 1; 3; 2]%N) by (vm_compute; reflexivity).
    assert (Hd : forall u, u ∈ [0; 1; 3; 2]%N -> u ∈ vg_view_ids (graph_of 1) /\ is_Some (rc_views r !! u)). { intros u Hu. split; [by rewrite <- elem_of_elements, Hg|]. apply elem_of_dom. by rewrite <- elem_of_elements, H0. }
    assert (Hall : forall u, u ∈ [0; 1; 3; 2]%N <-> u ∈ n_unlocalized (start r) \/ u ∈ n_reconstructed (start r)).
    { intros u. unfold start. cbn [n_unlocalized n_reconstructed]. rewrite elem_of_union, !elem_of_singleton, !elem_of_cons, elem_of_nil. tauto. }
    split; [apply finding_ok|]. split; [|split; [|split; [|split; [exact L2|exact O2]]]].
    + destruct H1 as (C1 & C2 & C3 & C4 & C5 & C6 & C7 & _). split; [exact C1|]. split; [exact C2|]. split; [exact C3|]. split; [exact C6|]. split; [apply easy_ok|]. split; [exact C7|].
      split; [intros u Hu; apply Hd, Hall, Hu|]. split; [apply (bool_decide_unpack (NoDup [0; 1]%N)); vm_compute; exact I|]. split; [|cbn; lia].
      cbn [start n_unlocalized n_reconstructed]. intros u Hu. rewrite elem_of_union, !elem_of_singleton. rewrite !elem_of_cons, elem_of_nil in Hu. intros K. destruct Hu as [->|[->|[]]], K as [K|K]; discriminate K.
    + intros u Hu _. apply Hall. rewrite <- Hg. by apply elem_of_elements.
    + apply (rounds_more _ _ _ _ _ _ 1 _ s1); [exact R1|by rewrite L1|]. apply (rounds_more _ _ _ _ _ _ 0 _ s2); [exact R2|by rewrite L1, L2|]. apply rounds_none.
Qed.

(** C105: with two tracks the pair (0, 1) is given up, and (1, 2) is tried next: view 1 keeps its position (1, 0, 0). *)
Definition retry_test (r : recon N (list R) (list R)) : bool :=
  match rc_views (set_unestimated ord_id r) !! 0%N, rc_views (set_unestimated ord_id r) !! 1%N with
  | Some v1, Some v2 =>
      match estimate_structure flat_world (fun _ => still_env) easy_options (pair_state r v1 v2) 0 with
      | Ok s2 => bool_decide (size (estimated_tracks ord_id (n_recon s2)) = 2%nat) &&
          match rc_views (set_unestimated ord_id (n_recon s2)) !! 1%N, rc_views (set_unestimated ord_id (n_recon s2)) !! 2%N with Some _, Some _ => true | _, _ => false end
      | _ => false end
  | _, _ => false end.
Example initial_cameras_sample : exists r s1 s2 s3, let s := Inc (set_unestimated ord_id r) scene_heap ∅ [] 0 None 1 in
  input_ok r scene_heap (fun _ => plain_prior) /\
  initialize_cameras s (0, 1)%N (info 101) = Ok s1 /\ estimate_structure flat_world (fun _ => still_env) easy_options s1 0 = Ok s2 /\
  initialize_cameras (with_recon s2 (set_unestimated ord_id (n_recon s2))) (1, 2)%N (info 101) = Ok s3.
Proof.
  destruct (scene_exists (many 2) [false; false; false; false] false (fun r => retry_test r = true)) as (r & _ & H1 & H2).
  - vm_compute. reflexivity.
  - vm_compute. repeat split.
  - unfold retry_test in H2. destruct (rc_views _ !! 0%N) as [v1|] eqn:V1; [|discriminate H2]. destruct (rc_views _ !! 1%N) as [v2|] eqn:V2; [|discriminate H2].
    destruct (estimate_structure _ _ _ _ _) as [s2| | |] eqn:E2; try discriminate H2. apply andb_true_iff in H2 as [_ H2].
    destruct (rc_views (set_unestimated ord_id (n_recon s2)) !! 1%N) as [v3|] eqn:V3; [|discriminate H2]. destruct (rc_views (set_unestimated ord_id (n_recon s2)) !! 2%N) as [v4|] eqn:V4; [|discriminate H2].
    exists r, (pair_state r v1 v2), s2. eexists. split; [exact H1|]. split; [apply initialize_positive; [exact V1|exact V2|cbn; lra|cbn; lra]|]. split; [exact E2|].
    apply initialize_positive; [exact V3|exact V4|cbn; lra|cbn; lra].
Qed.
