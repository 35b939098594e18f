(** Independent specification of bundle adjustment: which numbers may change, which observations count, what the
    nonlinear solver is assumed to do. *)
From stdpp Require Import gmap.
From Coq Require Import Reals.
From Verif Require Import Base Reconstruction_Model SfmQueries_Spec BundleAdjust_Model.

(** What the i-th intrinsics parameter of a camera model means, and the bit of OptimizeIntrinsicsType that asks for it. *)
Inductive kind := Focal | Aspect | Skew | Principal | Radial | Tangential.
Definition layout (ty : model_type) : list kind :=
  match ty with
  | Pinhole => [Focal; Aspect; Skew; Principal; Principal; Radial; Radial]
  | PinholeRadialTangential =>
      [Focal; Aspect; Skew; Principal; Principal; Radial; Radial; Radial; Tangential; Tangential]
  | Fisheye => [Focal; Aspect; Skew; Principal; Principal; Radial; Radial; Radial; Radial]
  | FOV | DivisionUndistortion => [Focal; Aspect; Principal; Principal; Radial]
  end.
Definition kind_bit (k : kind) : N :=
  match k with Focal => 0 | Aspect => 1 | Skew => 2 | Principal => 3 | Radial => 4 | Tangential => 5 end%N.
Definition requested (mask : N) (k : kind) : bool := N.testbit mask (kind_bit k).
(** The i-th parameter of a model of type [ty] is to be kept. *)
Definition kept (ty : model_type) (mask : N) (i : nat) : Prop :=
  exists k, layout ty !! i = Some k /\ requested mask k = false.

Section spec.
Context {F : Type}.
Notation recon := (recon F (list R) (list R)).
Implicit Types r : recon.

(** Groups partition the views and views share intrinsics exactly within a group (property C12). *)
Definition grouped r : Prop :=
  (forall u, is_Some (rc_views r !! u) <-> is_Some (rc_view_group r !! u)) /\
  (forall g u, (exists X, rc_groups r !! g = Some X /\ u ∈ X) <-> rc_view_group r !! u = Some g) /\
  (forall g X, rc_groups r !! g = Some X -> X ≠ ∅) /\
  (forall u u' v v', rc_views r !! u = Some v -> rc_views r !! u' = Some v' ->
     (rc_view_group r !! u = rc_view_group r !! u' <-> v_intr v = v_intr v')).

(** Every view's intrinsics pointer is valid. *)
Definition allocated r (h : gmap N intrinsics) : Prop :=
  forall u v, rc_views r !! u = Some v -> is_Some (h !! v_intr v).

(** Intrinsics objects have as many parameters as their model says. *)
Definition sized (h : gmap N intrinsics) : Prop :=
  forall p i, h !! p = Some i -> length (i_params i) = num_parameters (i_type i).

(** View [u] uses the intrinsics object [p]. *)
Definition uses r (u p : N) : Prop := exists v, rc_views r !! u = Some v /\ v_intr v = p.

(** The observation of track [t] in view [u] takes part in the adjustment of the views [vs] and the tracks [ts]. *)
Definition adjusted r (vs ts : list N) (u t : N) : Prop :=
  sees r u t /\ est_view r u /\ est_track r t /\ (u ∈ vs \/ t ∈ ts).

(** The error of an observation, for a given error function of model, feature, extrinsics, intrinsics and point. *)
Definition observation_error (err : model_type -> F -> list R -> list R -> list R -> R) r (h : gmap N intrinsics)
    (ut : N * N) : R :=
  match rc_views r !! ut.1, rc_tracks r !! ut.2 with
  | Some v, Some T =>
      match v_feats v !! ut.2, h !! v_intr v with
      | Some f, Some i => err (i_type i) f (v_data v) (i_params i) (t_data T)
      | _, _ => 0%R
      end
  | _, _ => 0%R
  end.
Definition sum_of {A} (f : A -> R) (l : list A) : R := foldr (fun x s => (f x + s)%R) 0%R l.

(** What may change: extrinsics of a chosen estimated view that sees an estimated track, the point of a chosen
    estimated track, and the requested parameters of the intrinsics of a chosen estimated view, if some observation
    with these intrinsics takes part. *)
Definition view_frame r (opts : ba_options) (vs : list N) (u : N) (v v' : view F (list R)) : Prop :=
  v_name v' = v_name v /\ v_est v' = v_est v /\ v_intr v' = v_intr v /\ v_feats v' = v_feats v /\
  length (v_data v') = length (v_data v) /\
  (u ∉ vs \/ v_est v = false \/ (forall t, est_track r t -> ~ sees r u t) -> v_data v' = v_data v) /\
  (constant_position opts = true -> forall i, i < 3 -> v_data v' !! i = v_data v !! i) /\
  (constant_orientation opts = true -> forall i, 3 <= i < 6 -> v_data v' !! i = v_data v !! i) /\
  (constant_position opts = true -> constant_orientation opts = true -> v_data v' = v_data v).
Definition track_frame (ts : list N) (t : N) (T T' : track (list R)) : Prop :=
  t_est T' = t_est T /\ t_views T' = t_views T /\ length (t_data T') = length (t_data T) /\
  (t ∉ ts \/ t_est T = false -> t_data T' = t_data T).
Definition intrinsics_frame r (opts : ba_options) (vs ts : list N) (p : N) (i i' : intrinsics) : Prop :=
  i_type i' = i_type i /\ length (i_params i') = length (i_params i) /\
  ((forall u, u ∈ vs -> est_view r u -> ~ uses r u p) \/ (forall w t, uses r w p -> ~ adjusted r vs ts w t) ->
     i_params i' = i_params i) /\
  (forall j, kept (i_type i) (intrinsics_to_optimize opts) j -> i_params i' !! j = i_params i !! j).

Definition frame (opts : ba_options) (vs ts : list N) r (h : gmap N intrinsics) r' (h' : gmap N intrinsics) : Prop :=
  r' = set_tracks (set_views r (rc_views r')) (rc_tracks r') /\
  (forall u, option_Forall2 (view_frame r opts vs u) (rc_views r !! u) (rc_views r' !! u)) /\
  (forall t, option_Forall2 (track_frame ts t) (rc_tracks r !! t) (rc_tracks r' !! t)) /\
  (forall p, option_Forall2 (intrinsics_frame r opts vs ts p) (h !! p) (h' !! p)).

(** The situation in which the problem can be set up. *)
Definition adjustable (opts : ba_options) (vs ts : list N) r (h : gmap N intrinsics) : Prop :=
  (forall u, u ∈ vs -> is_Some (rc_views r !! u)) /\
  (forall t, t ∈ ts -> is_Some (rc_tracks r !! t)) /\
  (* a chosen estimated track is seen by an estimated view *)
  (forall t, t ∈ ts -> est_track r t -> exists u, est_view r u /\ sees r u t) /\
  (* with fixed positions or orientations, a chosen estimated view sees an estimated track *)
  (constant_position opts = true \/ constant_orientation opts = true ->
     forall u, u ∈ vs -> est_view r u -> exists t, est_track r t /\ sees r u t) /\
  (* if some parameter of the intrinsics of a chosen estimated view is to be kept, these intrinsics take part *)
  (forall u p i j, u ∈ vs -> est_view r u -> uses r u p -> h !! p = Some i ->
     kept (i_type i) (intrinsics_to_optimize opts) j ->
     exists w t, uses r w p /\ adjusted r vs ts w t).

(** The contract of ceres::Solve: it writes only blocks of the problem, never a constant block or a coordinate held
    constant by a subset parameterization; a usable solution has a cost that is not above the initial one, and without
    a usable solution the parameters are left as they were. *)
Definition blocks_of (rs : residual (F:=F)) : list block :=
  [BExtrinsics (rs_view rs); BIntrinsics (rs_intr rs); BPoint (rs_track rs)].
Definition problem_cost (err : model_type -> F -> list R -> list R -> list R -> R) (l : list (residual (F:=F)))
    (x : block -> list R) : R :=
  sum_of (fun rs => err (rs_type rs) (rs_feature rs) (x (BExtrinsics (rs_view rs))) (x (BIntrinsics (rs_intr rs)))
                       (x (BPoint (rs_track rs)))) l.
Definition ceres_contract (err : model_type -> F -> list R -> list R -> list R -> R)
    (solve : list (residual (F:=F)) -> gmap block flags -> (block -> list R) -> solution) : Prop :=
  forall l bs x, (forall rs b, rs ∈ l -> b ∈ blocks_of rs -> is_Some (bs !! b)) ->
  let s := solve l bs x in
  (forall b k, bs !! b = Some k ->
     length (sol_values s b) = length (x b) /\
     (f_constant k = true -> sol_values s b = x b) /\
     (forall c i, f_subset k = Some c -> i ∈ c -> sol_values s b !! i = x b !! i)) /\
  (sol_usable s = false -> forall b, is_Some (bs !! b) -> sol_values s b = x b) /\
  (sol_usable s = true -> sol_initial s = problem_cost err l x /\ sol_final s = problem_cost err l (sol_values s) /\
     (sol_final s <= sol_initial s)%R).
End spec.
