(** Model of /repo/src/theia/sfm/hybrid_reconstruction_estimator.cc.

    The functions EstimateStructure, FullBundleAdjustment, PartialBundleAdjustment, UnoptimizedGrowthPercentage,
    FindViewsToLocalize, RemoveOutlierTracks and SetUnderconstrainedAsUnestimated are those of the incremental estimator,
    line by line, except that the camera orientations are constant in bundle adjustment and that the last of them looks at
    all views of the reconstruction instead of those of the view graph.  So their models are used again.

    One call of Estimate on a new estimator is modelled.  Timers and log messages are left out. *)
From stdpp Require Import gmap sorting.
From Coq Require Import Reals QArith_base Qcanon.
From Verif Require Import Base Reconstruction_Model ViewGraph_Model SfmQueries_Model TrackEstimator_Model
  BundleAdjust_Model Localize_Model Priors_Model Incremental_Model.

(** 709-714 and 770-775: the options with constant camera orientations. *)
Definition constant_orientations (o : inc_options) : inc_options :=
  IncOptions (io_ratio o) (io_growth o) (io_partial_views o) (io_min_inliers o) (io_localization_error o) (io_max_error o) (io_triangulation o)
    (BaOptions true (constant_position (io_ba o)) (intrinsics_to_optimize (io_ba o)))
    (io_subsample o) (io_track_length o) (io_cell_size o) (io_min_tracks o).

(** 127-135, the localization options. *)
Definition hybrid_localization (o : inc_options) (known : bool) : localize_options :=
  LocalizeOptions (io_localization_error o) known false (BaOptions true (constant_position (io_ba o)) (intrinsics_to_optimize (io_ba o))) (io_min_inliers o).

(** A graph with the views of the reconstruction (862 of SetUnderconstrainedAsUnestimated). *)
Definition views_graph {F} (r : recon F (list R) (list R)) : view_graph two_view := VG (gset_to_gmap ∅ (dom (rc_views r))) ∅.

Section model.
Context {F P W : Type}.
Notation recon := (recon F (list R) (list R)).
Notation view := (view F (list R)).
Notation heap := (gmap N intrinsics).
Notation inc := (inc F).

(** What is computed from the cameras of a pair: the angle between the principal rays, as the integer of lines 619-621
    (376-390), and a vector in the coordinate system of a camera, in world coordinates (440-442).  The robust
    estimation of the relative position is the [n]th of the environment: the position and the number of inliers (467-510). *)
Record pair_world := PairWorld {
  pw_angle : heap -> view -> view -> Z;
  pw_rotate_back : list R -> R * R * R -> R * R * R;
  pw_relative : nat -> recon -> heap -> N * N -> option (R * R * R * Z) }.

Context (w : world F P W) (pw : pair_world) (E : nat -> env F P W) (opts : inc_options) (min_two_view : Z) (graph : view_graph two_view)
  (focal_priors : gset N) (sizes : gmap N (Z * Z)) (orientations : gmap N (R * R * R)).
Let copts := constant_orientations opts.

(** 355-364, the loop of EstimateCameraOrientations over the orientations. *)
Definition orientation_step (r : recon) (x : N * (R * R * R)) : recon :=
  match rc_views r !! x.1 with
  | Some v => if v_est v then r else set_view r x.1 false (set_orientation (vec3 x.2) (v_data v))
  | None => r
  end.
Definition set_orientations (o : order (N * (R * R * R))) (r : recon) : recon := foldl orientation_step r (o (map_to_list orientations)).

(** 369-390, ComputeMedianTriangulationAngle; the common tracks are not used. *)
Definition triangulation_angle (o : order N) (r : recon) (h : heap) (p : N * N) : outcome Z :=
  _ ← find_common_tracks o r [p.1; p.2];
  v1 ← or_ub (rc_views r !! p.1);
  v2 ← or_ub (rc_views r !! p.2);
  Ok (pw_angle pw h v1 v2).

(** 584-642, OrderViewPairsByInitializationCriterion. *)
Definition criterion_step (o : order N) (r : recon) (h : heap) (min_matches : Z) (l : list candidate) (e : N * N * two_view) : outcome (list candidate) :=
  angle ← (if decide (is_Some (orientations !! e.1.1) /\ is_Some (orientations !! e.1.2)) then triangulation_angle o r h e.1 else Ok 0%Z);
  Ok (if decide (min_matches < tv_verified e.2)%Z then l ++ [((- angle)%Z, (- tv_verified e.2)%Z, e.1)] else l).
Definition order_pairs_hybrid (s : inc) (min_matches : Z) : outcome (list (N * N)) :=
  let e := E (n_tick s) in
  l ← run_steps (criterion_step (e_order e) (n_recon s) (n_heap s) min_matches) [] (e_edges e (map_to_list (vg_edges graph)));
  Ok (snd <$> merge_sort candidate_le l).

(** 450-518, InitializeCamerasWithKnownOrientation.  The flags are set even if there are too few inliers. *)
Definition initialize_known (s : inc) (p : N * N) : outcome (inc * bool) :=
  if decide (orientations !! p.1 = None /\ orientations !! p.2 = None) then Ok (s, false)
  else
    v1 ← or_ub (rc_views (n_recon s) !! p.1);
    v2 ← or_ub (rc_views (n_recon s) !! p.2);
    match pw_relative pw (n_tick s) (n_recon s) (n_heap s) p with
    | None => Ok (s, false)
    | Some (position, inliers) =>
        let r := set_view (n_recon s) p.1 true (v_data v1) in
        let r := set_view r p.2 true (set_position (vec3 position) (v_data v2)) in
        Ok (with_heap s r (n_heap s), bool_decide (to_size min_two_view < inliers)%Z)
    end.

(** 422-448, InitializeCamerasFromTwoViewInfo. *)
Definition initialize_two_view (s : inc) (p : N * N) (info : two_view) : outcome (inc * bool) :=
  if decide (orientations !! p.1 = None) then Ok (s, false)
  else
    v1 ← or_ub (rc_views (n_recon s) !! p.1);
    v2 ← or_ub (rc_views (n_recon s) !! p.2);
    h ← set_focal (n_heap s) (v_intr v1) (tv_focal1 info);
    let d2 := set_position (vec3 (pw_rotate_back pw (v_data v1) (tv_position info))) (v_data v2) in
    h ← set_focal h (v_intr v2) (tv_focal2 info);
    let r := set_view (n_recon s) p.1 true (v_data v1) in
    let r := set_view r p.2 true d2 in
    Ok (with_heap s r h, true).

(** 536-579, the loop of ChooseInitialViewPair over the candidates. *)
Fixpoint choose_loop_hybrid (s : inc) (pairs : list (N * N)) : outcome (inc * bool) :=
  match pairs with
  | [] => Ok (s, false)
  | p :: pairs =>
      let s := with_recon s (set_unestimated (e_order (E (n_tick s))) (n_recon s)) in
      info ← or_ub (vg_edges graph !! view_id_pair p.1 p.2);
      '(s, ok) ← initialize_known s p;
      '(s, ok) ← (if ok : bool then Ok (s, true) else initialize_two_view s p info);
      if negb ok then choose_loop_hybrid s pairs
      else
        s ← estimate_structure w E copts s p.1;
        if decide (Z.of_nat (size (estimated_tracks (e_order (E (n_tick s))) (n_recon s))) < kMinNumInitialTracks)%Z
        then choose_loop_hybrid s pairs
        else
          '(s, ok) ← full_adjustment w E copts s;
          if negb ok then choose_loop_hybrid s pairs
          else if decide (kMinNumInitialTracks < Z.of_nat (size (estimated_tracks (e_order (E (n_tick s))) (n_recon s))))%Z
          then Ok (with_views s (n_unlocalized s ∖ {[p.1]} ∖ {[p.2]}) (n_reconstructed s ++ [p.1; p.2]) (n_optimized s), true)
          else choose_loop_hybrid s pairs
  end.
(** 520-582, ChooseInitialViewPair. *)
Definition choose_initial_hybrid (s : inc) : outcome (inc * bool) :=
  pairs ← order_pairs_hybrid s kMinNumInitialTracks;
  choose_loop_hybrid s pairs.

(** 286-307, LocalizeView. *)
Definition localize_with (known : bool) (s : inc) (u : N) : outcome (inc * bool) :=
  let e := E (n_tick s) in
  let size := default (0, 0)%Z (sizes !! u) in
  '(ok, _, r, h) ← localize (w_unproject w) (w_center w) (w_hnorm w) (e_with_orientation e) (e_calibrated e) (e_uncalibrated e)
                     (e_order e) (e_ba_orders e) (e_solve e) focal_priors (hybrid_localization opts known) size.1 size.2
                     (n_recon s) (n_heap s) u [];
  Ok (with_heap s r h, ok).
Definition localize_hybrid (s : inc) (u : N) : outcome (inc * bool) :=
  if decide (is_Some (orientations !! u)) then
    '(s, ok) ← localize_with true s u;
    if ok : bool then Ok (s, true) else localize_with false s u
  else localize_with false s u.

(** 204-267, the loop over all candidates: whether no bundle adjustment failed, and the number of failed attempts. *)
Fixpoint round_loop (s : inc) (views : list N) (failed : nat) : outcome (inc * bool * nat) :=
  match views with
  | [] => Ok (s, true, failed)
  | u :: views =>
      '(s, ok) ← localize_hybrid s u;
      if ok : bool then
        '(s, p) ← extend w E copts (views_graph (n_recon s)) s u;
        match p with AdjustmentFailed => Ok (s, false, failed) | _ => round_loop s views failed end
      else round_loop s views (S failed)
  end.

(** 189-268, the loop; the result is whether no bundle adjustment failed. *)
Fixpoint hybrid_loop (fuel : nat) (s : inc) : outcome (inc * bool) :=
  match fuel with
  | O => Hang
  | S fuel =>
      if decide (n_unlocalized s = ∅) then Ok (s, true)
      else
        views ← find_views w E sizes s;
        '(s, ok, failed) ← round_loop s views 0;
        if negb ok then Ok (s, false)
        else if decide (failed = length views) then Ok (s, true)
        else hybrid_loop fuel s
  end.

(** 177-283, Estimate, after the orientations have been set. *)
Definition hybrid_from (fuel : nat) (s : inc) : outcome (inc * inc_summary) :=
  '(s, ok) ← choose_initial_hybrid s;
  if negb ok then Ok (s, IncSummary false ∅ ∅)
  else
    '(s, ok) ← hybrid_loop fuel s;
    if negb ok then Ok (s, IncSummary false ∅ ∅)
    else Ok (s, IncSummary true (estimated_views (e_order (E (n_tick s))) (n_recon s)) (estimated_tracks (e_order (E (n_tick s))) (n_recon s))).
End model.
Arguments pair_world : clear implicits.

(** 146-153, the views that are to be localized. *)
Definition unestimated_views {F} (r : recon F (list R) (list R)) : gset N :=
  filter (fun u => (v_est <$> rc_views r !! u) = Some false) (dom (rc_views r)).

(** 101-138 and 140-284: a new estimator and a call of Estimate.  [tree] says whether the maximum spanning tree was found or
    not needed (318-347), [rotations] is the result of the global rotation estimation (350), [oo] an order of its map. *)
Definition estimate_hybrid {F P W} (w : world F P W) (pw : pair_world F) (E : nat -> env F P W) (opts : inc_options) (min_two_view : Z)
    (graph : view_graph two_view) (priors : N -> prior) (og : order N) (ov : N -> order N) (tree : bool) (rotations : option (gmap N (R * R * R)))
    (oo : order (N * (R * R * R))) (grid : option Z) (fuel : nat)
    (r : recon F (list R) (list R)) (h : gmap N intrinsics) (sizes : gmap N (Z * Z))
    : outcome (inc F * inc_summary * gmap N (Z * Z)) :=
  _ ← check (bool_decide (io_ratio opts <= 1)%Qc && bool_decide (0 <= io_ratio opts)%Qc && bool_decide (0 <= io_growth opts)%Qc && bool_decide (0 <= io_partial_views opts)%Z);
  let unlocalized := unestimated_views r in
  '(r, h, sizes) ← set_intrinsics_from_priors og ov priors (r, h, sizes);
  let focal_priors : gset N := filter (fun u => is_Some (p_focal (priors u))) (dom (rc_views r)) in
  _ ← check tree;
  match rotations with
  | None => Ok (Inc r h unlocalized [] 0 grid 0, IncSummary false ∅ ∅, sizes)
  | Some orientations =>
      let r := set_orientations orientations oo r in
      if decide (orientations = ∅) then Ok (Inc r h unlocalized [] 0 grid 0, IncSummary false ∅ ∅, sizes)
      else
        '(s, sm) ← hybrid_from w pw E opts min_two_view graph focal_priors sizes orientations fuel (Inc r h unlocalized [] 0 grid 0);
        Ok (s, sm, sizes)
  end.
