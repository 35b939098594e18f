(** Model of /repo/src/theia/sfm/incremental_reconstruction_estimator.cc, on top of the models of Reconstruction, of the
    view graph, of the triangulation of tracks, of bundle adjustment, of the localization of a view, of the selection of
    tracks, of the visibility pyramid and of the camera intrinsics priors.

    One call of Estimate on a new estimator is modelled.  Timers, log messages and the options of the solver that do not
    change which parameters are optimized are left out.  What depends on iteration orders, on the scheduler, on random
    numbers and on the nonlinear solver is taken from a stream of environments, a new one for each step. *)
From stdpp Require Import gmap sorting.
From Coq Require Import Reals QArith_base Qcanon.
From Verif Require Import Base Reconstruction_Model ViewGraph_Model SfmQueries_Model TrackEstimator_Model TrackSelection_Model
  VisibilityPyramid_Model BundleAdjust_Model Localize_Model Priors_Model.

(** twoview_info.h: the members that are read here. *)
Record two_view := TwoView {
  tv_focal1 : R; tv_focal2 : R; tv_rotation : R * R * R; tv_position : R * R * R; tv_verified : Z; tv_homography : Z }.
Definition vec3 (x : R * R * R) : list R := [x.1.1; x.1.2; x.2].

(** reconstruction_estimator_options.h: the members that are read here (angles as cosines).  The triangulation options
    (lines 111-121) are [io_triangulation]; its threshold for the angle is also that of the outlier test. *)
Record inc_options := IncOptions {
  io_ratio : Qc; io_growth : Qc; io_partial_views : Z; io_min_inliers : Z; io_localization_error : R;
  io_max_error : Qc; io_triangulation : est_options; io_ba : ba_options;
  io_subsample : bool; io_track_length : Z; io_cell_size : Z; io_min_tracks : Z }.

(** The localization options set at lines 124-132; the orientation is not assumed to be known by default
    (localize_view_to_reconstruction.h:61). *)
Definition localization_options (opts : inc_options) : localize_options :=
  LocalizeOptions (io_localization_error opts) false true (io_ba opts) (io_min_inliers opts).

(** The tuples of lines 397-412 and std::sort with operator<; the view pairs are distinct, so the order is total. *)
Definition candidate : Type := Z * Z * (N * N).
Definition candidate_le (a b : candidate) : Prop :=
  (a.1.1 < b.1.1)%Z \/ a.1.1 = b.1.1 /\ ((a.1.2 < b.1.2)%Z \/ a.1.2 = b.1.2 /\
    ((a.2.1 < b.2.1)%N \/ a.2.1 = b.2.1 /\ (a.2.2 <= b.2.2)%N)).
Global Instance candidate_le_dec : RelDecision candidate_le.
Proof. intros a b. unfold candidate_le. apply _. Defined.

(** std::greater on std::pair<int, ViewId>, with equality. *)
Definition score_ge (a b : Z * N) : Prop := (b.1 < a.1)%Z \/ a.1 = b.1 /\ (b.2 <= a.2)%N.
Global Instance score_ge_dec : RelDecision score_ge.
Proof. intros a b. unfold score_ge. apply _. Defined.

(** 325, 424-425. *)
Definition kMinNumInitialTracks : Z := 100.
Definition kMinNumObserved3dPoints : nat := 30.
Definition kNumPyramidLevels : Z := 6.

Section model.
Context {F P W : Type}.
Notation recon := (recon F (list R) (list R)).
Notation view := (view F (list R)).
Notation heap := (gmap N intrinsics).

(** What is computed from cameras, features and points. *)
Record world := World {
  w_geometry : heap -> geometry F (list R) (list R);
  w_point_ray : view -> list R -> Qc * Qc * Qc;
  w_position : F -> Qc * Qc;
  w_unproject : intrinsics -> F -> P;
  w_center : intrinsics -> F -> P;
  w_hnorm : list R -> W }.

(** What is not determined by the inputs. *)
Record env := Env {
  e_order : order N;
  e_cells : order (Z * Z);
  e_edges : order (N * N * two_view);
  e_ba_orders : nat -> N -> order N;
  e_schedule : list nat;
  e_solve : list (residual (F:=F)) -> gmap block flags -> (block -> list R) -> solution;
  e_with_orientation : R -> list R -> list (P * W) -> estimate;
  e_calibrated : R -> list (P * W) -> estimate;
  e_uncalibrated : R -> list (P * W) -> estimate }.

Context (w : world) (E : nat -> env) (opts : inc_options) (graph : view_graph two_view) (focal_priors : gset N) (sizes : gmap N (Z * Z)).

(** incremental_reconstruction_estimator.h: reconstruction_ (with the intrinsics objects), unlocalized_views_,
    reconstructed_views_, num_optimized_views_; the static variable of the selection of tracks; the number of steps. *)
Record inc := Inc {
  n_recon : recon; n_heap : heap; n_unlocalized : gset N; n_reconstructed : list N; n_optimized : Z; n_grid : option Z; n_tick : nat }.

(** The state with another reconstruction, after one more step. *)
Definition with_recon (s : inc) (r : recon) : inc :=
  Inc r (n_heap s) (n_unlocalized s) (n_reconstructed s) (n_optimized s) (n_grid s) (S (n_tick s)).
Definition with_heap (s : inc) (r : recon) (h : heap) : inc :=
  Inc r h (n_unlocalized s) (n_reconstructed s) (n_optimized s) (n_grid s) (S (n_tick s)).
Definition with_grid (s : inc) (g : option Z) : inc :=
  Inc (n_recon s) (n_heap s) (n_unlocalized s) (n_reconstructed s) (n_optimized s) g (n_tick s).
Definition with_views (s : inc) (unlocalized : gset N) (reconstructed : list N) (optimized : Z) : inc :=
  Inc (n_recon s) (n_heap s) unlocalized reconstructed optimized (n_grid s) (n_tick s).

(** 74-92, SetReconstructionAsUnestimated. *)
Definition set_unestimated (o : order N) (r : recon) : recon :=
  let r := foldl unestimate_track_in r (o (elements (dom (rc_tracks r)))) in
  foldl unestimate_view_in r (o (elements (dom (rc_views r)))).

(** reconstruction_estimator_utils.cc:345-355, NumEstimatedTracks. *)
Definition num_estimated_tracks (o : order N) (r : recon) : Z :=
  foldl (fun n t => match rc_tracks r !! t with Some T => if t_est T then (n + 1)%Z else n | None => n end) 0%Z
    (o (elements (dom (rc_tracks r)))).

(** 463-473, EstimateStructure. *)
Definition estimate_structure (s : inc) (u : N) : outcome inc :=
  let e := E (n_tick s) in
  v ← or_ub (rc_views (n_recon s) !! u);
  res ← estimate_tracks (w_geometry w (n_heap s)) (io_triangulation opts) (e_order e) (list_to_set (e_order e (elements (dom (v_feats v)))))
          (e_schedule e) (n_recon s);
  match res with Some (r, _) => Ok (with_recon s r) | None => Hang end.
(** 261-264, EstimateAllTracks of a new track estimator. *)
Definition estimate_everything (s : inc) : outcome inc :=
  let e := E (n_tick s) in
  res ← estimate_all_tracks (w_geometry w (n_heap s)) (io_triangulation opts) (e_order e) (e_schedule e) (n_recon s);
  match res with Some (r, _) => Ok (with_recon s r) | None => Hang end.

(** 597-608, RemoveOutlierTracks. *)
Definition remove_outliers (s : inc) (ids : gset N) (max_error : Qc) : outcome inc :=
  let g := w_geometry w (n_heap s) in
  '(r, _) ← set_outlier_tracks (g_depth g) (g_error g) (w_point_ray w) (e_order (E (n_tick s))) ids max_error
              (eo_cos_min (io_triangulation opts)) (n_recon s);
  Ok (with_recon s r).

(** reconstruction_estimator_utils.h:121-147, SetTracksInViewsToUnestimated. *)
Definition set_tracks_in_view (o : order N) (stay : gset N) (r : recon) (u : N) : recon :=
  match rc_views r !! u with
  | Some v =>
      if v_est v
      then foldl (fun r t => if decide (t ∈ stay) then r else unestimate_track_in r t) r (o (elements (dom (v_feats v))))
      else r
  | None => r
  end.
Definition set_tracks_in_views (o : order N) (views : list N) (stay : gset N) (r : recon) : recon :=
  foldl (set_tracks_in_view o stay) r views.

(** BundleAdjustPartialReconstruction, with the sets in iteration order. *)
Definition adjust (s : inc) (views tracks : gset N) : outcome (inc * bool) :=
  let e := E (n_tick s) in
  '(r, h, sm) ← bundle_adjust_partial (e_ba_orders e) (n_recon s) (n_heap s) (io_ba opts) (e_solve e)
                  (e_order e (elements views)) (e_order e (elements tracks));
  Ok (with_heap s r h, sm_success sm).

(** 480-528, FullBundleAdjustment.  SelectGoodTracksForBundleAdjustment always returns true. *)
Definition full_adjustment (s : inc) : outcome (inc * bool) :=
  let e := E (n_tick s) in
  '(s, tracks) ←
    (if io_subsample opts then
       '(g, chosen) ← select_tracks (g_error (w_geometry w (n_heap s))) (w_position w) (e_order e) (e_cells e) (n_recon s)
                        (io_track_length opts) (io_cell_size opts) (io_min_tracks opts) (n_grid s) ∅;
       Ok (with_recon (with_grid s g) (set_tracks_in_views (e_order e) (n_reconstructed s) chosen (n_recon s)), chosen)
     else Ok (with_recon s (n_recon s), estimated_tracks (e_order e) (n_recon s)));
  '(s, ok) ← adjust s (estimated_views (e_order e) (n_recon s)) tracks;
  let s := with_views s (n_unlocalized s) (n_reconstructed s) (Z.of_nat (length (n_reconstructed s))) in
  s ← remove_outliers s (dom (rc_tracks (n_recon s))) (io_max_error opts);
  Ok (s, ok).

(** 563-573: all tracks in the views. *)
Definition tracks_in_views (o : order N) (r : recon) (views : gset N) : outcome (gset N) :=
  run_steps (fun ts u => v ← or_ub (rc_views r !! u); Ok (list_to_set (o (elements (dom (v_feats v)))) ∪ ts)) ∅ (o (elements views)).

(** 530-595, PartialBundleAdjustment; the number of views is not negative (line 105). *)
Definition partial_adjustment (s : inc) : outcome (inc * bool) :=
  let e := E (n_tick s) in
  let k := Z.to_nat (Z.min (Z.of_nat (length (n_reconstructed s))) (io_partial_views opts)) in
  let views : gset N := list_to_set (drop (length (n_reconstructed s) - k) (n_reconstructed s)) in
  '(s, tracks) ←
    (if io_subsample opts then
       '(g, chosen) ← select_tracks_in (g_error (w_geometry w (n_heap s))) (w_position w) (e_order e) (e_cells e) (n_recon s) views
                        (io_track_length opts) (io_cell_size opts) (io_min_tracks opts) (n_grid s) ∅;
       Ok (with_recon (with_grid s g) (set_tracks_in_views (e_order e) (e_order e (elements views)) chosen (n_recon s)), chosen)
     else ts ← tracks_in_views (e_order e) (n_recon s) views; Ok (with_recon s (n_recon s), ts));
  '(s, ok) ← adjust s views tracks;
  s ← remove_outliers s tracks (io_max_error opts);
  Ok (s, ok).

(** 475-478, UnoptimizedGrowthPercentage, and the comparison at line 248.  The difference of a size_t and an int is computed
    modulo 2^64; a division by zero gives infinity or not a number, and the comparison fails. *)
Definition growth_below (reconstructed optimized : Z) (limit : Qc) : bool :=
  if decide (optimized = 0)%Z then false
  else bool_decide (Q2Qc (100 # 1) * Q2Qc ((reconstructed - optimized) mod 2 ^ 64 # 1) / Q2Qc (optimized # 1) < limit)%Qc.

(** 610-618, the loop of SetUnderconstrainedAsUnestimated: the number of views removed in the last round. *)
Fixpoint underconstrained_loop (fuel : nat) (tick : nat) (r : recon) : outcome (recon * nat * nat) :=
  match fuel with
  | O => Hang
  | S fuel =>
      '(r, views) ← set_underconstrained_views (e_order (E tick)) r;
      '(r, tracks) ← set_underconstrained_tracks (e_order (E tick)) r;
      if decide (views <> 0%nat /\ tracks <> 0%nat) then underconstrained_loop fuel (S tick) r else Ok (r, views, S tick)
  end.

(** std::vector::erase of the first occurrence; erase(end()) is undefined. *)
Fixpoint erase_first (u : N) (l : list N) : option (list N) :=
  match l with
  | [] => None
  | x :: l => if decide (x = u) then Some l else cons x <$> erase_first u l
  end.

(** 622-635, the loop over the views of the view graph. *)
Definition relocalize_step (r : recon) (st : gset N * list N * Z) (u : N) : outcome (gset N * list N * Z) :=
  let '(unlocalized, reconstructed, optimized) := st in
  match rc_views r !! u with
  | None => Ok st
  | Some v =>
      if v_est v || bool_decide (u ∈ unlocalized) then Ok st
      else
        reconstructed ← or_ub (erase_first u reconstructed);
        Ok ({[u]} ∪ unlocalized, reconstructed, (optimized - 1)%Z)
  end.

(** 610-637, SetUnderconstrainedAsUnestimated. *)
Definition set_underconstrained (s : inc) : outcome inc :=
  '(r, views, tick) ← underconstrained_loop (S (size (dom (rc_views (n_recon s))))) (n_tick s) (n_recon s);
  let s := Inc r (n_heap s) (n_unlocalized s) (n_reconstructed s) (n_optimized s) (n_grid s) tick in
  if decide (0 < views)%nat then
    '(unlocalized, reconstructed, optimized) ←
      run_steps (relocalize_step r) (n_unlocalized s, n_reconstructed s, n_optimized s)
        (e_order (E tick) (elements (vg_view_ids graph)));
    Ok (with_views s unlocalized reconstructed optimized)
  else Ok s.

(** 303-321, InitializeCamerasFromTwoViewInfo.  A pair that is not in the graph does not occur. *)
Definition initialize_cameras (s : inc) (p : N * N) (info : two_view) : outcome inc :=
  v1 ← or_ub (rc_views (n_recon s) !! p.1);
  v2 ← or_ub (rc_views (n_recon s) !! p.2);
  h ← set_focal (n_heap s) (v_intr v1) (tv_focal1 info);
  let d2 := set_position (vec3 (tv_position info)) (set_orientation (vec3 (tv_rotation info)) (v_data v2)) in
  h ← set_focal h (v_intr v2) (tv_focal2 info);
  let r := set_view (n_recon s) p.1 true (v_data v1) in
  let r := set_view r p.2 true d2 in
  Ok (with_heap s r h).

(** 382-417, OrderViewPairsByInitializationCriterion. *)
Definition order_pairs (o : order (N * N * two_view)) (min_matches : Z) : list (N * N) :=
  snd <$> merge_sort candidate_le
    (omap (fun e : N * N * two_view =>
             if decide (min_matches < tv_verified e.2)%Z then Some (tv_homography e.2, (- tv_verified e.2)%Z, e.1) else None)
       (o (map_to_list (vg_edges graph)))).

(** 339-377, the loop of ChooseInitialViewPair over the candidates. *)
Fixpoint choose_loop (s : inc) (pairs : list (N * N)) : outcome (inc * bool) :=
  match pairs with
  | [] => Ok (s, false)
  | p :: pairs =>
      let s := with_recon s (set_unestimated (e_order (E (n_tick s))) (n_recon s)) in
      info ← or_ub (vg_edges graph !! view_id_pair p.1 p.2);
      s ← initialize_cameras s p info;
      s ← estimate_structure s p.1;
      if decide (Z.of_nat (size (estimated_tracks (e_order (E (n_tick s))) (n_recon s))) < kMinNumInitialTracks)%Z
      then choose_loop s pairs
      else
        '(s, ok) ← full_adjustment s;
        if negb ok then choose_loop s pairs
        else if decide (kMinNumInitialTracks < Z.of_nat (size (estimated_tracks (e_order (E (n_tick s))) (n_recon s))))%Z
        then Ok (with_views s (n_unlocalized s ∖ {[p.1]} ∖ {[p.2]}) (n_reconstructed s ++ [p.1; p.2]) (n_optimized s), true)
        else choose_loop s pairs
  end.
(** 323-380, ChooseInitialViewPair. *)
Definition choose_initial (s : inc) : outcome (inc * bool) :=
  choose_loop s (order_pairs (e_edges (E (n_tick s))) kMinNumInitialTracks).

(** 433-452, one unlocalized view: the visibility score, if enough estimated tracks are observed. *)
Definition pyramid_step (r : recon) (v : view) (st : pyramid * nat) (t : N) : outcome (pyramid * nat) :=
  T ← or_ub (rc_tracks r !! t);
  if t_est T then
    f ← or_ub (v_feats v !! t);
    p ← vp_add st.1 (this (w_position w f).1, this (w_position w f).2);
    Ok (p, S st.2)
  else Ok st.
Definition score_view (o : order N) (r : recon) (u : N) : outcome (option (Z * N)) :=
  v ← or_ub (rc_views r !! u);
  let size := default (0, 0)%Z (sizes !! u) in
  p ← vp_new size.1 size.2 kNumPyramidLevels;
  '(p, n) ← run_steps (pyramid_step r v) (p, 0%nat) (o (elements (dom (v_feats v))));
  if decide (kMinNumObserved3dPoints <= n)%nat then score ← vp_score p; Ok (Some (score, u)) else Ok None.
(** 420-461, FindViewsToLocalize. *)
Definition find_views (s : inc) : outcome (list N) :=
  let o := e_order (E (n_tick s)) in
  scores ← run_steps (fun l u => x ← score_view o (n_recon s) u; Ok (match x with Some y => l ++ [y] | None => l end)) []
             (o (elements (n_unlocalized s)));
  Ok (snd <$> merge_sort score_ge scores).

(** How the loop over the candidates ends: no view was localized, bundle adjustment failed, or a view was added. *)
Inductive progress := NoneLocalized | AdjustmentFailed | Localized.

(** 230-285: what happens after the localization of view [u]. *)
Definition extend (s : inc) (u : N) : outcome (inc * progress) :=
  let s := with_views s (n_unlocalized s ∖ {[u]}) (n_reconstructed s ++ [u]) (n_optimized s) in
  v ← or_ub (rc_views (n_recon s) !! u);
  s ← remove_outliers s (list_to_set (e_order (E (n_tick s)) (elements (dom (v_feats v))))) (eo_max_error (io_triangulation opts));
  '(s, ok) ←
    (if growth_below (Z.of_nat (length (n_reconstructed s))) (n_optimized s) (io_growth opts)
     then s ← estimate_structure s u; partial_adjustment s
     else s ← estimate_everything s; full_adjustment s);
  s ← set_underconstrained s;
  Ok (s, if ok : bool then Localized else AdjustmentFailed).

(** 219-286, the loop over the views to localize. *)
Fixpoint localize_loop (s : inc) (views : list N) : outcome (inc * progress) :=
  match views with
  | [] => Ok (s, NoneLocalized)
  | u :: views =>
      let e := E (n_tick s) in
      let size := default (0, 0)%Z (sizes !! u) in
      '(ok, _, r, h) ← localize (w_unproject w) (w_center w) (w_hnorm w) (e_with_orientation e) (e_calibrated e) (e_uncalibrated e)
                         (e_order e) (e_ba_orders e) (e_solve e) focal_priors (localization_options opts) size.1 size.2
                         (n_recon s) (n_heap s) u [];
      let s := with_heap s r h in
      if ok : bool then extend s u else localize_loop s views
  end.

(** 203-287, the loop; the result is whether no bundle adjustment failed. *)
Fixpoint growth_loop (fuel : nat) (s : inc) : outcome (inc * bool) :=
  match fuel with
  | O => Hang
  | S fuel =>
      if decide (n_unlocalized s = ∅) then Ok (s, true)
      else
        views ← find_views s;
        '(s, p) ← localize_loop s views;
        match p with
        | NoneLocalized => Ok (s, true)
        | AdjustmentFailed => Ok (s, false)
        | Localized => growth_loop fuel s
        end
  end.

(** reconstruction_estimator.h: the summary, without the times. *)
Record inc_summary := IncSummary { is_success : bool; is_views : gset N; is_tracks : gset N }.

(** 160-301, Estimate, after the priors have been set: [s] is the state after line 187. *)
Definition estimate_from (fuel : nat) (s : inc) : outcome (inc * inc_summary) :=
  let n := num_estimated_tracks (e_order (E (n_tick s))) (n_recon s) in
  '(s, ok) ← (if decide (n < io_min_inliers opts \/ n < 2)%Z then choose_initial s else Ok (s, true));
  if negb ok then Ok (s, IncSummary false ∅ ∅)
  else
    '(s, ok) ← growth_loop fuel s;
    if negb ok then Ok (s, IncSummary false ∅ ∅)
    else Ok (s, IncSummary true (estimated_views (e_order (E (n_tick s))) (n_recon s)) (estimated_tracks (e_order (E (n_tick s))) (n_recon s))).
End model.
Arguments inc : clear implicits.
Arguments env : clear implicits.
Arguments world : clear implicits.

(** 165-176, the views that are to be localized. *)
Definition initial_unlocalized {F} (graph : view_graph two_view) (r : recon F (list R) (list R)) : gset N :=
  filter (fun u => (v_est <$> rc_views r !! u) = Some false) (vg_view_ids graph).

(** 96-139 and 160-301: a new estimator and a call of Estimate.  [og] and [ov] are iteration orders of the groups, [grid]
    the static variable of the selection of tracks before. *)
Definition estimate_incrementally {F P W} (w : world F P W) (E : nat -> env F P W) (opts : inc_options) (graph : view_graph two_view)
    (priors : N -> prior) (og : order N) (ov : N -> order N) (grid : option Z) (fuel : nat)
    (r : recon F (list R) (list R)) (h : gmap N intrinsics) (sizes : gmap N (Z * Z))
    : outcome (inc F * inc_summary * gmap N (Z * Z)) :=
  _ ← check (bool_decide (io_ratio opts <= 1)%Qc && bool_decide (0 <= io_ratio opts)%Qc && bool_decide (0 <= io_growth opts)%Qc && bool_decide (0 <= io_partial_views opts)%Z);
  let unlocalized := initial_unlocalized graph r in
  '(r, h, sizes) ← set_intrinsics_from_priors og ov priors (r, h, sizes);
  let focal_priors : gset N := filter (fun u => is_Some (p_focal (priors u))) (dom (rc_views r)) in
  '(s, sm) ← estimate_from w E opts graph focal_priors sizes fuel (Inc r h unlocalized [] 0 grid 0);
  Ok (s, sm, sizes).
