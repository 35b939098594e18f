(** Independent specification of global reconstruction. *)
From stdpp Require Import gmap.
From Coq Require Import Reals QArith_base Qcanon.
From Verif Require Import Base Reconstruction_Model ViewGraph_Model SfmQueries_Spec TrackEstimator_Model BundleAdjust_Model Incremental_Model.
From Verif Require Camera_Model.
From Verif Require TranslationFilter_Spec Alignment_Spec.
From Verif Require Import RotationGraph_Model RotationGraph_Spec GlobalReconstruction_Model.

Notation linked c := (fun x y => vg_has_edge c x y = true).

(** Connected components of the edges of a view graph, through its queries. *)
Definition component (c : view_graph two_view) (X : gset N) : Prop :=
  exists a b, vg_has_edge c a b = true /\ forall x, x ∈ X <-> rtc (linked c) a x.
Definition largest_component (c : view_graph two_view) (X : gset N) : Prop :=
  component c X /\ forall Y, component c Y -> (size Y <= size X)%nat.

(** [c'] is [c] with the edges of one largest component left; the views of the other components are gone.  Views without an
    edge stay. *)
Definition largest_part (c c' : view_graph two_view) : Prop :=
  ((forall a b, vg_has_edge c a b = false) /\ c' = c) \/
  exists X, largest_component c X /\
    (forall a b, vg_get_edge c' a b = if decide (a ∈ X /\ b ∈ X) then vg_get_edge c a b else None) /\
    (forall v, vg_has_view c' v = true <-> vg_has_view c v = true /\ (v ∈ X \/ forall u, vg_has_edge c v u = false)).

(** The edge has at least [n] verified matches. *)
Definition enough (c : view_graph two_view) (n : Z) (a b : N) : Prop := exists i, vg_get_edge c a b = Some i /\ (n <= tv_matches i)%Z.

(** Two edges differ in the direction of the translation only. *)
Definition same_but_position (i i' : two_view) : Prop :=
  tv_focal1 i' = tv_focal1 i /\ tv_focal2 i' = tv_focal2 i /\ tv_rotation i' = tv_rotation i /\ tv_matches i' = tv_matches i.

(** The views [S] and their edges are removed. *)
Definition views_removed (c c' : view_graph two_view) (S : gset N) : Prop :=
  (forall v, vg_has_view c' v = true <-> vg_has_view c v = true /\ v ∉ S) /\
  (forall a b, vg_get_edge c' a b = if decide (a ∈ S \/ b ∈ S) then None else vg_get_edge c a b).

(** Views that have an edge are connected with each other. *)
Definition connected (c : view_graph two_view) : Prop :=
  forall a b, (exists u, vg_has_edge c a u = true) -> (exists u, vg_has_edge c b u = true) -> rtc (linked c) a b.

(** A view of one of the edges. *)
Definition end_of (m : gmap (N * N) two_view) (u : N) : Prop := exists p i, m !! p = Some i /\ (u = p.1 \/ u = p.2).

(** The estimator of rotations gives orientations to the views of the edges and to those that have one already. *)
Definition rotations_contract (f : gmap (N * N) two_view -> gmap N v3 -> bool * gmap N v3) : Prop :=
  forall m os u, is_Some ((f m os).2 !! u) -> is_Some (os !! u) \/ end_of m u.

Section positions.
Context {F : Type}.
Notation recon := (recon F (list R) (list R)).
Notation heap := (gmap N BundleAdjust_Model.intrinsics).
(** The estimator of positions places views of the edges only. *)
Definition positions_contract (f : recon -> heap -> gmap (N * N) two_view -> gmap N v3 -> outcome (bool * gmap N v3)) : Prop :=
  forall r h m os ok ps, f r h m os = Ok (ok, ps) -> forall u, is_Some (ps !! u) -> end_of m u.
(** It returns if the views of the edges have an orientation and are in the reconstruction. *)
Definition positions_total (f : recon -> heap -> gmap (N * N) two_view -> gmap N v3 -> outcome (bool * gmap N v3)) : Prop :=
  forall r h m os, (forall u, end_of m u -> is_Some (os !! u) /\ is_Some (rc_views r !! u)) -> exists x, f r h m os = Ok x.
End positions.

(** Where the estimation of the rotations starts: from nothing, or from orientations that are chained along a maximum
    spanning tree of the edges. *)
Definition started (opts : global_options) (c : view_graph two_view) (init : gmap N v3) : Prop :=
  match go_rotations opts with
  | LinearRotations => init = ∅
  | _ => exists X T root, largest_component c X /\ maximum_tree c X T /\ root ∈ X /\ init !! root = Some (Camera_Model.V3 0 0 0) /\
           (forall v, is_Some (init !! v) <-> v ∈ X) /\ (forall a b, (a, b) ∈ T -> chained c init a b)
  end.

(** The orientations of the views that a step has removed are erased. *)
Definition erased (c c' : view_graph two_view) (os os' : gmap N v3) : Prop :=
  forall u, os' !! u = if decide (vg_has_view c u = true /\ vg_has_view c' u = false) then None else os !! u.

Section stages.
Context {F : Type} (so : solvers F) (opts : global_options).
Notation recon := (recon F (list R) (list R)).
Notation heap := (gmap N BundleAdjust_Model.intrinsics).
(** The translations of all edges are replaced by those of the optimizer, if that is asked for. *)
Definition refined (r : recon) (h : heap) (os : gmap N v3) (c c' : view_graph two_view) : Prop :=
  if go_refine_translations opts then
    (forall v, vg_has_view c' v = vg_has_view c v) /\
    (forall a b, vg_get_edge c a b = None -> vg_get_edge c' a b = None) /\
    (forall a b i, (a < b)%N -> vg_get_edge c a b = Some i ->
       vg_get_edge c' a b =
       Some (RotationGraph_Model.TwoView (tv_focal1 i) (tv_focal2 i) (so_refine so r h os (a, b) i) (tv_rotation i) (tv_matches i)))
  else c' = c.
(** The views with an orientation that are not in the rigid part are removed, if that is asked for. *)
Definition rigid_part (os : gmap N v3) (c c' : view_graph two_view) : Prop :=
  if go_rigid opts then views_removed c c' (dom os ∖ so_rigid so os (vg_edges c)) else c' = c.
(** The edges whose translations agree with an order of the views along the axes are kept, if that is asked for. *)
Definition translations_filtered (os : gmap N v3) (c c' : view_graph two_view) : Prop :=
  if go_filter_translations opts then
    exists rank : v3 -> N -> nat,
      (forall axis a b, vg_has_edge c a b = true -> rank axis a <> rank axis b) /\
      restricted c c' (fun a b => exists t, TranslationFilter_Spec.direction c os a b t /\
        Alignment_Spec.Rsum (fun axis => TranslationFilter_Spec.penalty (rank axis) axis a b t) (so_axes so) <=
        go_tolerance opts * IZR (go_filter_iterations opts))%R
  else c' = c.
(** Steps 3 to 6 of the estimation, one after the other: the edges that agree with the orientations, their largest
    component, better translations, the rigid part, the edges with consistent translations, and again the largest
    component. *)
Definition stages (r : recon) (h : heap) (c : view_graph two_view) (os : gmap N v3) (c' : view_graph two_view) (os' : gmap N v3) : Prop :=
  exists c1 c2 c3 c4 c5 os2,
    restricted c c1 (agrees c os (go_max_degrees opts)) /\ largest_part c1 c2 /\ erased c1 c2 os os2 /\
    refined r h os2 c2 c3 /\ rigid_part os2 c3 c4 /\ translations_filtered os2 c4 c5 /\
    largest_part c5 c' /\ erased c5 c' os2 os'.
End stages.

Section input.
Context {F : Type}.
Notation recon := (recon F (list R) (list R)).
(** The solvers keep their contracts. *)
Definition solvers_ok (so : solvers F) : Prop :=
  aa_canonical (so_angle_axis so) /\ rotations_contract (so_rotations so) /\ positions_contract (so_positions so).
(** The views of the edges are in the reconstruction. *)
Definition views_exist (c : view_graph two_view) (r : recon) : Prop := forall a b, vg_has_edge c a b = true -> is_Some (rc_views r !! a).
End input.

Section result.
Context {F P W : Type}.
Notation inc := (inc F).
(** No estimated track is an outlier: not behind a camera that sees it, the mean squared error is within the threshold, and
    two rays meet at a sufficient angle. *)
Definition clean (w : world F P W) (c : inc_options) (s : inc) : Prop :=
  forall t T, rc_tracks (n_recon s) !! t = Some T -> t_est T = true ->
    ~ outlier (g_depth (w_geometry w (n_heap s))) (g_error (w_geometry w (n_heap s))) (w_point_ray w) (io_max_error c)
        (eo_cos_min (io_triangulation c)) (n_recon s) t T.
(** Every estimated track is seen by two estimated views. *)
Definition seen_twice (s : inc) : Prop := forall t, est_track (n_recon s) t -> seen_by (n_recon s) 2 t.
(** The summary lists what is estimated, or nothing after a failure. *)
Definition reports (sm : inc_summary) (s : inc) : Prop :=
  if is_success sm
  then (forall u, u ∈ is_views sm <-> est_view (n_recon s) u) /\ (forall t, t ∈ is_tracks sm <-> est_track (n_recon s) t)
  else is_views sm = ∅ /\ is_tracks sm = ∅.
End result.
