(** Model of /repo/src/theia/sfm/global_reconstruction_estimator.cc, on top of the models of the view graph, of the rotations
    on a view graph, of the filter of relative translations, of the priors of the intrinsics, of the triangulation of tracks,
    of bundle adjustment, of the selection of tracks and of the steps that it shares with the incremental estimator; and of
    the parts of reconstruction_estimator_utils.cc, extract_maximally_parallel_rigid_subgraph.cc,
    least_unsquared_deviation_position_estimator.cc and nonlinear_position_estimator.cc that decide which views are used.

    One call of Estimate is modelled.  Timers, log messages and the options of the solvers are left out.  The estimators of
    global rotations and positions, the refinement of a relative translation and the search for the rigid component are
    arguments; so are the iteration orders, the scheduler and the nonlinear solver. *)
From stdpp Require Import gmap.
From Coq Require Import Reals QArith_base Qcanon.
From Verif Require Import Base Reconstruction_Model ViewGraph_Model SfmQueries_Model TrackEstimator_Model TrackSelection_Model
  BundleAdjust_Model Localize_Model Priors_Model Incremental_Model.
From Verif Require Camera_Model.
From Verif Require Import RotationGraph_Model TranslationFilter_Model.

Notation v3 := Camera_Model.vec3.
Definition list3 (x : v3) : list R := [Camera_Model.x3 x; Camera_Model.y3 x; Camera_Model.z3 x].

(** types.h, GlobalRotationEstimatorType. *)
Inductive rotation_type := RobustL1L2 | NonlinearRotations | LinearRotations.

(** reconstruction_estimator_options.h: the members that are read here; those that the incremental estimator reads as well
    are in [go_common]. *)
Record global_options := GlobalOptions {
  go_common : inc_options; go_min_matches : Z; go_rotations : rotation_type; go_max_degrees : R;
  go_refine_translations : bool; go_rigid : bool; go_filter_translations : bool; go_filter_iterations : Z; go_tolerance : R;
  go_retriangulations : Z; go_refine_positions : bool }.

(** The iteration orders in one step on the view graph. *)
Record graph_orders := GraphOrders {
  gr_edges : order ((N * N) * two_view); gr_pairs : order (N * N); gr_views : order N; gr_components : order (N * gset N);
  gr_removed : order N; gr_orientations : order (N * v3); gr_positions : order (N * v3);
  gr_weights : order ((N * N) * R); gr_nodes : order (N * mfas_node); gr_degrees : order (N * R);
  gr_schedule : order ((N * N) * R); gr_bad : order ((N * N) * R) }.

Section model.
Context {F P W : Type}.
Notation recon := (recon F (list R) (list R)).
Notation heap := (gmap N BundleAdjust_Model.intrinsics).
Notation graph := (view_graph two_view).
Notation edges := (gmap (N * N) two_view).

(** What is computed by parts that are not modelled: the angle-axis vector of a rotation, the heap of
    OrientationsFromMaximumSpanningTree, RotationEstimator::EstimateRotations (the returned value and the orientations),
    OptimizeRelativePositionWithKnownRotation, the largest rigid component, the random axes of the filter of translations,
    and PositionEstimator::EstimatePositions. *)
Record solvers := Solvers {
  so_angle_axis : Camera_Model.mat3 -> v3;
  so_heap : edge_heap;
  so_rotations : edges -> gmap N v3 -> bool * gmap N v3;
  so_refine : recon -> heap -> gmap N v3 -> N * N -> two_view -> v3;
  so_rigid : gmap N v3 -> edges -> gset N;
  so_axes : list v3;
  so_positions : recon -> heap -> edges -> gmap N v3 -> outcome (bool * gmap N v3) }.

Context (w : world F P W) (E : nat -> env F P W) (G : nat -> graph_orders) (so : solvers) (opts : global_options).

(** 301-306: the pairs with too few inliers. *)
Definition weak_pair_step (bad : gset (N * N)) (pe : (N * N) * two_view) : gset (N * N) :=
  if decide (tv_matches pe.2 < go_min_matches opts)%Z then {[pe.1]} ∪ bad else bad.
(** 297-314, FilterInitialViewGraph. *)
Definition filter_initial (g : graph) : outcome (graph * bool) :=
  let o := G 0 in
  let g := remove_pairs (gr_pairs o) g (foldl weak_pair_step ∅ (gr_edges o (map_to_list (vg_edges g)))) in
  '(g, _) ← vg_remove_disconnected (gr_pairs o) (gr_views o) (gr_components o) g;
  Ok (g, bool_decide (1 <= vg_num_edges g)%nat).

(** 320-355, EstimateGlobalRotations.  The value that OrientationsFromMaximumSpanningTree returns is not looked at. *)
Definition estimate_rotations (g : graph) : outcome (bool * gmap N v3) :=
  let o := G 1 in
  os ←
    (match go_rotations opts with
     | LinearRotations => Ok ∅
     | _ =>
         '(_, os) ← orientations_from_mst (so_angle_axis so) (so_heap so) (gr_views o) (gr_pairs o) (gr_views o) (gr_components o)
                      (gr_components o) (gr_views o) (gr_edges o) (gr_pairs o) g ∅;
         Ok os
     end);
  Ok (so_rotations so (vg_edges g) os).

(** 367-369 and 399-401: the orientations of the removed views are erased. *)
Definition erase_orientations (o : order N) (os : gmap N v3) (removed : gset N) : gmap N v3 :=
  foldl (fun os u => delete u os) os (o (elements removed)).

(** 357-370, FilterRotations. *)
Definition filter_rotations (os : gmap N v3) (g : graph) : outcome (graph * gmap N v3) :=
  let o := G 2 in
  g ← filter_from_orientation (so_angle_axis so) (gr_edges o) (gr_pairs o) os (go_max_degrees opts) g;
  '(g, removed) ← vg_remove_disconnected (gr_pairs o) (gr_views o) (gr_components o) g;
  Ok (g, erase_orientations (gr_removed o) os removed).

(** reconstruction_estimator_utils.cc:254-267, one edge.  The features of the views are read, so the views must exist. *)
Definition with_position (p : v3) (i : two_view) : two_view := RotationGraph_Model.TwoView (tv_focal1 i) (tv_focal2 i) p (tv_rotation i) (tv_matches i).
Definition refine_step (r : recon) (h : heap) (os : gmap N v3) (g : graph) (pe : (N * N) * two_view) : outcome graph :=
  _ ← or_ub (rc_views r !! pe.1.1);
  _ ← or_ub (rc_views r !! pe.1.2);
  _ ← or_die (os !! pe.1.1);
  _ ← or_die (os !! pe.1.2);
  Ok (vg_update_edge g pe.1.1 pe.1.2 (with_position (so_refine so r h os pe.1 pe.2))).
(** 372-379, OptimizePairwiseTranslations.  The tasks write to different edges. *)
Definition optimize_translations (r : recon) (h : heap) (os : gmap N v3) (g : graph) : outcome graph :=
  if go_refine_translations opts then run_steps (refine_step r h os) g (gr_edges (G 3) (map_to_list (vg_edges g))) else Ok g.

(** extract_maximally_parallel_rigid_subgraph.cc:63-84: an edge needs the orientation of its first view and both views in
    the index, which has the views of the graph with an orientation. *)
Definition angle_step (g : graph) (os : gmap N v3) (_ : unit) (pe : (N * N) * two_view) : outcome unit :=
  _ ← or_die (os !! pe.1.1);
  _ ← check (vg_has_view g pe.1.1);
  _ ← or_die (os !! pe.1.2);
  check (vg_has_view g pe.1.2).
(** 217-227: the loop over the orientations; [g0] is the graph before. *)
Definition rigid_step (o : order N) (g0 : graph) (keep : gset N) (g : graph) (uo : N * v3) : outcome graph :=
  _ ← check (vg_has_view g0 uo.1);
  if bool_decide (uo.1 ∉ keep) && vg_has_view g uo.1 then
    let '(g, ok) := vg_remove_view o g uo.1 in
    _ ← check ok; Ok g
  else Ok g.
(** 172-228, ExtractMaximallyParallelRigidSubgraph, for the component [so_rigid]. *)
Definition extract_rigid (os : gmap N v3) (g : graph) : outcome graph :=
  let o := G 4 in
  _ ← run_steps (angle_step g os) tt (gr_edges o (map_to_list (vg_edges g)));
  run_steps (rigid_step (gr_views o) g (so_rigid so os (vg_edges g))) g (gr_orientations o (map_to_list os)).

(** 381-402, FilterRelativeTranslation. *)
Definition filter_relative_translations (os : gmap N v3) (g : graph) : outcome (graph * gmap N v3) :=
  let o := G 5 in
  g ← (if go_rigid opts then extract_rigid os g else Ok g);
  g ← (if go_filter_translations opts
       then filter_translations (gr_edges o) (gr_pairs o) (gr_weights o) (gr_nodes o) (gr_degrees o) (gr_schedule o) (gr_bad o)
              (so_axes so) (go_filter_iterations opts) (go_tolerance opts) os g
       else Ok g);
  '(g, removed) ← vg_remove_disconnected (gr_pairs o) (gr_views o) (gr_components o) g;
  Ok (g, erase_orientations (gr_removed o) os removed).

(** What the estimation of the poses leaves behind: the graph, the orientations, the positions if all went well, and the
    reconstruction with its intrinsics. *)
Record poses := Poses {
  po_graph : graph; po_orientations : gmap N v3; po_positions : option (gmap N v3);
  po_recon : recon; po_heap : heap; po_sizes : gmap N (Z * Z) }.

(** 137-212: the steps 1 to 7 of Estimate. *)
Definition estimate_poses (priors : N -> prior) (og : order N) (ov : N -> order N) (g : graph) (r : recon) (h : heap) (sizes : gmap N (Z * Z))
    : outcome poses :=
  '(g, ok) ← filter_initial g;
  if negb ok then Ok (Poses g ∅ None r h sizes)
  else
    '(r, h, sizes) ← set_intrinsics_from_priors og ov priors (r, h, sizes);
    '(ok, os) ← estimate_rotations g;
    if negb ok then Ok (Poses g os None r h sizes)
    else
      '(g, os) ← filter_rotations os g;
      g ← optimize_translations r h os g;
      '(g, os) ← filter_relative_translations os g;
      '(ok, ps) ← so_positions so r h (vg_edges g) os;
      Ok (Poses g os (if ok : bool then Some ps else None) r h sizes).

(** reconstruction_estimator_utils.cc:183-185: the pose of a camera. *)
Definition global_pose (p q : v3) (d : list R) : list R := set_orientation (list3 q) (set_position (list3 p) d).

(** 462-471 and 506-515: the tracks for the adjustment; [None] in the result stands for all estimated tracks. *)
Definition selected_tracks (s : inc F) : outcome (inc F * option (gset N)) :=
  let e := E (n_tick s) in let c := go_common opts in
  if io_subsample c then
    '(g, chosen) ← select_tracks (g_error (w_geometry w (n_heap s))) (w_position w) (e_order e) (e_cells e) (n_recon s)
                     (io_track_length c) (io_cell_size c) (io_min_tracks c) (n_grid s) ∅;
    Ok (with_grid s g, Some chosen)
  else Ok (s, None).

(** 494-527, BundleAdjustCameraPositionsAndPoints.  The returned value is not looked at. *)
Definition positions_only (c : inc_options) : inc_options :=
  IncOptions (io_ratio c) (io_growth c) (io_partial_views c) (io_min_inliers c) (io_localization_error c) (io_max_error c)
    (io_triangulation c) (BaOptions true false 0) (io_subsample c) (io_track_length c) (io_cell_size c) (io_min_tracks c).
Definition adjust_positions (s : inc F) : outcome (inc F) :=
  let e := E (n_tick s) in
  '(s, chosen) ← selected_tracks s;
  let tracks := match chosen with Some ts => ts | None => estimated_tracks (e_order e) (n_recon s) end in
  '(s, _) ← adjust E (positions_only (go_common opts)) s (estimated_views (e_order e) (n_recon s)) tracks;
  Ok s.

(** 454-492, BundleAdjustment. *)
Definition adjust_all (s : inc F) : outcome (inc F * bool) :=
  let e := E (n_tick s) in
  '(s, chosen) ← selected_tracks s;
  let '(s, tracks) :=
    match chosen with
    | Some ts => (with_recon s (set_tracks_in_views (e_order e) (e_order e (elements (dom (rc_views (n_recon s))))) ts (n_recon s)), ts)
    | None => (with_recon s (n_recon s), estimated_tracks (e_order e) (n_recon s))
    end in
  adjust E (go_common opts) s (estimated_views (e_order e) (n_recon s)) tracks.

(** 96-106, SetUnderconstrainedAsUnestimated. *)
Definition remove_underconstrained (s : inc F) : outcome (inc F) :=
  '(r, _, tick) ← underconstrained_loop E (S (size (dom (rc_views (n_recon s))))) (n_tick s) (n_recon s);
  Ok (Inc r (n_heap s) (n_unlocalized s) (n_reconstructed s) (n_optimized s) (n_grid s) tick).

(** 227-264: [n] rounds of triangulation and bundle adjustment; the result is whether no bundle adjustment has failed. *)
Fixpoint structure_rounds (n : nat) (first : bool) (s : inc F) : outcome (inc F * bool) :=
  match n with
  | O => Ok (s, true)
  | S n =>
      s ← estimate_everything w E (go_common opts) s;
      s ← remove_underconstrained s;
      s ← (if first && go_refine_positions opts then adjust_positions s else Ok s);
      '(s, ok) ← adjust_all s;
      if ok : bool then
        s ← remove_outliers w E (go_common opts) s (dom (rc_tracks (n_recon s))) (io_max_error (go_common opts));
        structure_rounds n false s
      else Ok (s, false)
  end.

(** 137-295, Estimate: the graph, the orientations, the reconstruction and the summary. *)
Record global_result := GlobalResult {
  gl_graph : graph; gl_orientations : gmap N v3; gl_state : inc F; gl_summary : inc_summary; gl_sizes : gmap N (Z * Z) }.
Definition estimate_globally (priors : N -> prior) (og : order N) (ov : N -> order N) (grid : option Z) (g : graph) (r : recon) (h : heap)
    (sizes : gmap N (Z * Z)) : outcome global_result :=
  p ← estimate_poses priors og ov g r h sizes;
  match po_positions p with
  | None => Ok (GlobalResult (po_graph p) (po_orientations p) (Inc (po_recon p) (po_heap p) ∅ [] 0 grid 0) (IncSummary false ∅ ∅) (po_sizes p))
  | Some ps =>
      r ← set_estimated_poses global_pose (gr_positions (G 6)) (po_orientations p) ps (po_recon p);
      '(s, ok) ← structure_rounds (Z.to_nat (go_retriangulations opts + 1)) true (Inc r (po_heap p) ∅ [] 0 grid 0);
      let e := E (n_tick s) in
      Ok (GlobalResult (po_graph p) (po_orientations p) s
            (if ok : bool then IncSummary true (estimated_views (e_order e) (n_recon s)) (estimated_tracks (e_order e) (n_recon s))
             else IncSummary false ∅ ∅) (po_sizes p))
  end.
End model.
Arguments solvers : clear implicits.
Arguments poses : clear implicits.
Arguments global_result : clear implicits.

(** least_unsquared_deviation_position_estimator.cc:126-134, the views with a position: the views of the pairs for which
    both orientations are known. *)
Definition endpoints (l : list ((N * N) * two_view)) (os : gmap N v3) : gset N :=
  foldl (fun s pe => if bool_decide (is_Some (os !! pe.1.1)) && bool_decide (is_Some (os !! pe.1.2)) then {[pe.1.1; pe.1.2]} ∪ s else s) ∅ l.
(** 75-121 and 154-159: LeastUnsquaredDeviationPositionEstimator::EstimatePositions.  [solve] is the position of a view in
    the solution.  The number of columns of the matrix is computed as a size_t and converted to a signed index; a
    negative one is undefined behaviour. *)
Definition lud_positions (oe : order ((N * N) * two_view)) (solve : gmap (N * N) two_view -> gmap N v3 -> N -> v3)
    (edges : gmap (N * N) two_view) (os : gmap N v3) : outcome (bool * gmap N v3) :=
  let views := endpoints (oe (map_to_list edges)) os in
  let columns := ((3 * (Z.of_nat (size views) - 1) + Z.of_nat (size (dom edges))) mod 2 ^ 64)%Z in
  if decide (2 ^ 63 <= columns)%Z then UB
  else Ok (true, set_to_map (fun u => (u, solve edges os u)) views).
(** nonlinear_position_estimator.cc:102-179: NonlinearPositionEstimator::EstimatePositions; the returned value is that of
    the solver. *)
Definition nonlinear_positions (solve : gmap (N * N) two_view -> gmap N v3 -> bool * (N -> v3)) (edges : gmap (N * N) two_view) (os : gmap N v3)
    : outcome (bool * gmap N v3) :=
  if decide (edges = ∅ \/ os = ∅) then Ok (false, ∅)
  else
    let constrained : gset N := foldl (fun s pe => {[pe.1.1; pe.1.2]} ∪ s) ∅ (map_to_list edges) in
    let views := filter (fun u => u ∈ constrained) (dom os) in
    if decide (views = ∅) then UB
    else let '(ok, x) := solve edges os in Ok (ok, set_to_map (fun u => (u, x u)) views).
