(** Model of bundle adjustment: /repo/src/theia/sfm/bundle_adjustment/bundle_adjuster.{h,cc} and
    bundle_adjustment.{h,cc}, with GetSubsetFromOptimizeIntrinsicsType of the five camera models
    (/repo/src/theia/sfm/camera/*_camera_model.cc).

    Every camera intrinsics object, the extrinsics of every view and the point of every track is a list of numbers
    (double[6], double[NumParameters()], double[4]), taken as reals.  Intrinsics objects live in a heap [h], indexed by
    the identity [v_intr] of the shared_ptr of a view; extrinsics are [v_data] and points are [t_data] of the model of
    Reconstruction.  ceres::Problem is modelled by the set of its parameter blocks with their flags and by the list of
    its residual blocks.  ceres::Solve is an argument; what is assumed of it is the contract [ceres_contract] of
    BundleAdjust_Spec.  Not modelled: solver options, timing, logging and the elimination ordering (linear algebra
    choices of the solver, covered by the contract). *)
From stdpp Require Import gmap.
From Coq Require Import Reals.
From Verif Require Import Base Reconstruction_Model.

(** camera_intrinsics_model_type.h, the five models. *)
Inductive model_type := Pinhole | PinholeRadialTangential | Fisheye | FOV | DivisionUndistortion.
Global Instance model_type_eq_dec : EqDecision model_type.
Proof. solve_decision. Defined.

(** NumParameters (kIntrinsicsSize): pinhole_camera_model.h:86-94, pinhole_radial_tangential_camera_model.h:91-102,
    fisheye_camera_model.h:67-77, fov_camera_model.h:69-75, division_undistortion_camera_model.h:76-82. *)
Definition num_parameters (ty : model_type) : nat :=
  match ty with Pinhole => 7 | PinholeRadialTangential => 10 | Fisheye => 9 | FOV => 5 | DivisionUndistortion => 5 end.

(** bundle_adjustment.h:65-75. *)
Definition kNone : N := 0.
Definition kFocalLength : N := 1.
Definition kAspectRatio : N := 2.
Definition kSkew : N := 4.
Definition kPrincipalPoints : N := 8.
Definition kRadialDistortion : N := 16.
Definition kTangentialDistortion : N := 32.
Definition kAll : N := 63.

(** [if ((mask & flag) == NONE) emplace_back(...)] *)
Definition unless_set (mask flag : N) (l : list nat) : list nat :=
  if decide (N.land mask flag = kNone) then l else [].

(** GetSubsetFromOptimizeIntrinsicsType: pinhole_camera_model.cc:132-162,
    pinhole_radial_tangential_camera_model.cc:150-188, fisheye_camera_model.cc:142-174, fov_camera_model.cc:124-149,
    division_undistortion_camera_model.cc:126-151. *)
Definition constant_intrinsics (ty : model_type) (mask : N) : list nat :=
  if decide (mask = kAll) then []
  else match ty with
  | Pinhole =>
      unless_set mask kFocalLength [0] ++ unless_set mask kAspectRatio [1] ++ unless_set mask kSkew [2] ++
      unless_set mask kPrincipalPoints [3; 4] ++ unless_set mask kRadialDistortion [5; 6]
  | PinholeRadialTangential =>
      unless_set mask kFocalLength [0] ++ unless_set mask kAspectRatio [1] ++ unless_set mask kSkew [2] ++
      unless_set mask kPrincipalPoints [3; 4] ++ unless_set mask kRadialDistortion [5; 6; 7] ++
      unless_set mask kTangentialDistortion [8; 9]
  | Fisheye =>
      unless_set mask kFocalLength [0] ++ unless_set mask kAspectRatio [1] ++ unless_set mask kSkew [2] ++
      unless_set mask kPrincipalPoints [3; 4] ++ unless_set mask kRadialDistortion [5; 6; 7; 8]
  | FOV | DivisionUndistortion =>
      unless_set mask kFocalLength [0] ++ unless_set mask kAspectRatio [1] ++
      unless_set mask kPrincipalPoints [2; 3] ++ unless_set mask kRadialDistortion [4]
  end.

(** A camera intrinsics object: camera_intrinsics_model.h, its dynamic type and parameters_. *)
Record intrinsics := Intrinsics { i_type : model_type; i_params : list R }.

(** The parameter blocks of the problem are pointers: mutable_extrinsics() of a view, mutable_parameters() of an
    intrinsics object, MutablePoint()->data() of a track. *)
Inductive block := BExtrinsics (u : N) | BIntrinsics (p : N) | BPoint (t : N).
Global Instance block_eq_dec : EqDecision block.
Proof. solve_decision. Defined.
Global Instance block_countable : Countable block.
Proof.
  refine (inj_countable' (fun b => match b with BExtrinsics u => inl (inl u) | BIntrinsics p => inl (inr p) | BPoint t => inr t end)
            (fun s => match s with inl (inl u) => BExtrinsics u | inl (inr p) => BIntrinsics p | inr t => BPoint t end) _).
  by intros [].
Defined.

(** The flags ceres keeps for a parameter block: SetParameterBlockConstant/Variable and SetParameterization with a
    SubsetParameterization. *)
Record flags := Flags { f_constant : bool; f_subset : option (list nat) }.

Section model.
Context {F : Type}.
Notation recon := (recon F (list R) (list R)).

(** A residual block: AddReprojectionErrorResidual (bundle_adjuster.cc:396-411) with the identity of its three
    parameter blocks. *)
Record residual := Residual { rs_type : model_type; rs_feature : F; rs_view : N; rs_intr : N; rs_track : N }.

(** bundle_adjustment.h:78-140, the options that decide what is optimized. *)
Record ba_options := BaOptions { constant_orientation : bool; constant_position : bool; intrinsics_to_optimize : N }.

(** bundle_adjuster.h, the data members; [ba_blocks] and [ba_residuals] are problem_. *)
Record adjuster := Adjuster {
  ba_views : gset N; ba_tracks : gset N; ba_groups : gset N; ba_pot_groups : gset N;
  ba_blocks : gmap block flags; ba_residuals : list residual }.

(** bundle_adjuster.cc:82-102. *)
Definition ba_new : adjuster := Adjuster ∅ ∅ ∅ ∅ ∅ [].

Definition set_problem (a : adjuster) (bs : gmap block flags) (rs : list residual) : adjuster :=
  Adjuster (ba_views a) (ba_tracks a) (ba_groups a) (ba_pot_groups a) bs rs.

(** ceres::Problem::AddResidualBlock adds the parameter blocks that are not yet in the problem, as variable blocks. *)
Definition add_block (b : block) (bs : gmap block flags) : gmap block flags :=
  match bs !! b with Some _ => bs | None => <[b := Flags false None]> bs end.

(** bundle_adjuster.cc:396-411. *)
Definition add_residual (a : adjuster) (rs : residual) : adjuster :=
  set_problem a
    (add_block (BPoint (rs_track rs)) (add_block (BIntrinsics (rs_intr rs)) (add_block (BExtrinsics (rs_view rs)) (ba_blocks a))))
    (ba_residuals a ++ [rs]).

(** ceres::Problem::SetParameterBlockConstant / SetParameterBlockVariable: LOG(FATAL) if the block is unknown. *)
Definition set_constant (c : bool) (b : block) (a : adjuster) : outcome adjuster :=
  k ← or_die (ba_blocks a !! b);
  Ok (set_problem a (<[b := Flags c (f_subset k)]> (ba_blocks a)) (ba_residuals a)).

(** new ceres::SubsetParameterization(size, l) checks its indices; ceres::Problem::SetParameterization is LOG(FATAL) if
    the block is unknown or already has another parameterization. *)
Definition set_subset (size : nat) (l : list nat) (b : block) (a : adjuster) : outcome adjuster :=
  _ ← check (bool_decide (NoDup l) && bool_decide (Forall (fun i => i < size) l));
  k ← or_die (ba_blocks a !! b);
  match f_subset k with
  | Some _ => CheckFail
  | None => Ok (set_problem a (<[b := Flags (f_constant k) (Some l)]> (ba_blocks a)) (ba_residuals a))
  end.

(** One intrinsics object of the heap, as the target of a pointer. *)
Definition deref (h : gmap N intrinsics) (p : N) : outcome intrinsics := or_ub (h !! p).

Context (os : nat -> N -> order N) (r : recon) (h : gmap N intrinsics).

(** bundle_adjuster.cc:123-137, the body of the loop over the tracks of a view. *)
Definition add_view_track (u : N) (v : view F (list R)) (a : adjuster) (t : N) : outcome adjuster :=
  f ← or_die (v_feats v !! t);
  T ← or_die (rc_tracks r !! t);
  if negb (t_est T) then Ok a
  else
    i ← deref h (v_intr v);
    set_constant true (BPoint t) (add_residual a (Residual (i_type i) f u (v_intr v) t)).

(** bundle_adjuster.cc:104-138. *)
Definition add_view (a : adjuster) (u : N) : outcome adjuster :=
  v ← or_die (rc_views r !! u);
  if negb (v_est v) || bool_decide (u ∈ ba_views a) then Ok a
  else
    let g := default kInvalidId (rc_view_group r !! u) in
    run_steps (add_view_track u v)
      (Adjuster ({[u]} ∪ ba_views a) (ba_tracks a) ({[g]} ∪ ba_groups a) (ba_pot_groups a) (ba_blocks a) (ba_residuals a))
      (os 0 u (elements (dom (v_feats v)))).

(** bundle_adjuster.cc:151-175, the body of the loop over the views of a track. *)
Definition add_track_view (t : N) (a : adjuster) (u : N) : outcome adjuster :=
  v ← or_die (rc_views r !! u);
  if bool_decide (u ∈ ba_views a) || negb (v_est v) then Ok a
  else
    f ← or_die (v_feats v !! t);
    i ← deref h (v_intr v);
    a' ← set_constant true (BExtrinsics u) (add_residual a (Residual (i_type i) f u (v_intr v) t));
    let g := default kInvalidId (rc_view_group r !! u) in
    Ok (Adjuster (ba_views a') (ba_tracks a') (ba_groups a') ({[g]} ∪ ba_pot_groups a') (ba_blocks a') (ba_residuals a')).

(** bundle_adjuster.cc:140-179. *)
Definition add_track (a : adjuster) (t : N) : outcome adjuster :=
  T ← or_die (rc_tracks r !! t);
  if negb (t_est T) || bool_decide (t ∈ ba_tracks a) then Ok a
  else
    a' ← run_steps (add_track_view t)
           (Adjuster (ba_views a) ({[t]} ∪ ba_tracks a) (ba_groups a) (ba_pot_groups a) (ba_blocks a) (ba_residuals a))
           (os 1 t (elements (t_views T)));
    set_constant false (BPoint t) a'.

(** bundle_adjuster.cc:310-325: the pointer of the intrinsics of a representative view of the group. *)
Definition group_intrinsics (g : N) : outcome N :=
  match os 2 g (elements (rc_groups r !!! g)) with
  | [] => CheckFail
  | u :: _ => v_intr <$> or_ub (rc_views r !! u)
  end.

Context (opts : ba_options).

(** bundle_adjuster.cc:229-249 with 327-361 and camera.h:195-200 (POSITION = 0, ORIENTATION = 3, kExtrinsicsSize = 6). *)
Definition extrinsics_parameterization (a : adjuster) (u : N) : outcome adjuster :=
  if constant_orientation opts && constant_position opts then set_constant true (BExtrinsics u) a
  else if constant_orientation opts then set_subset 6 [3; 4; 5] (BExtrinsics u) a
  else if constant_position opts then set_subset 6 [0; 1; 2] (BExtrinsics u) a
  else Ok a.

(** bundle_adjuster.cc:253-280, one optimized intrinsics group. *)
Definition intrinsics_parameterization (a : adjuster) (g : N) : outcome adjuster :=
  p ← group_intrinsics g;
  i ← deref h p;
  let l := constant_intrinsics (i_type i) (intrinsics_to_optimize opts) in
  if decide (length l = num_parameters (i_type i)) then set_constant true (BIntrinsics p) a
  else if decide (l = []) then Ok a
  else set_subset (num_parameters (i_type i)) l (BIntrinsics p) a.

(** bundle_adjuster.cc:282-300, one potentially constant intrinsics group. *)
Definition constant_group (a : adjuster) (g : N) : outcome adjuster :=
  if decide (g ∈ ba_groups a) then Ok a
  else
    p ← group_intrinsics g;
    set_constant true (BIntrinsics p) a.

(** bundle_adjuster.cc:181-190 and 229-300: the problem handed to the solver. *)
Definition setup (a : adjuster) : outcome adjuster :=
  a1 ← run_steps extrinsics_parameterization a (os 3 0%N (elements (ba_views a)));
  a2 ← run_steps intrinsics_parameterization a1 (os 4 0%N (elements (ba_groups a1)));
  run_steps constant_group a2 (os 5 0%N (elements (ba_pot_groups a2))).

(** The values behind the pointers. *)
Definition values (b : block) : list R :=
  match b with
  | BExtrinsics u => match rc_views r !! u with Some v => v_data v | None => [] end
  | BIntrinsics p => match h !! p with Some i => i_params i | None => [] end
  | BPoint t => match rc_tracks r !! t with Some T => t_data T | None => [] end
  end.

(** What the solver returns: the values it leaves in the parameter blocks, initial and final cost, and whether the
    solution is usable. *)
Record solution := Solution { sol_values : block -> list R; sol_initial : R; sol_final : R; sol_usable : bool }.

(** The solver writes the parameter blocks of the problem in place. *)
Definition new_value (a : adjuster) (s : solution) (b : block) : list R :=
  match ba_blocks a !! b with Some _ => sol_values s b | None => values b end.
Definition write_views (a : adjuster) (s : solution) : gmap N (view F (list R)) :=
  map_imap (fun u v => Some (View (v_name v) (v_est v) (v_intr v) (new_value a s (BExtrinsics u)) (v_feats v))) (rc_views r).
Definition write_tracks (a : adjuster) (s : solution) : gmap N (track (list R)) :=
  map_imap (fun t T => Some (Track (t_est T) (new_value a s (BPoint t)) (t_views T))) (rc_tracks r).
Definition write_heap (a : adjuster) (s : solution) : gmap N intrinsics :=
  map_imap (fun p i => Some (Intrinsics (i_type i) (new_value a s (BIntrinsics p)))) h.

(** The summary (bundle_adjustment.h, BundleAdjustmentSummary without the times). *)
Record summary := Summary { sm_success : bool; sm_initial : R; sm_final : R }.

Context (solve : list residual -> gmap block flags -> (block -> list R) -> solution).

(** bundle_adjuster.cc:181-227. *)
Definition optimize (a0 : adjuster) : outcome (recon * gmap N intrinsics * summary) :=
  a ← setup a0;
  let s := solve (ba_residuals a) (ba_blocks a) values in
  Ok (set_tracks (set_views r (write_views a s)) (write_tracks a s), write_heap a s,
      Summary (sol_usable s) (sol_initial s) (sol_final s)).

(** bundle_adjustment.cc:47-63.  [vs] and [ts] list the two sets in iteration order. *)
Definition bundle_adjust_partial (vs ts : list N) : outcome (recon * gmap N intrinsics * summary) :=
  a1 ← run_steps add_view ba_new vs;
  a2 ← run_steps add_track a1 ts;
  optimize a2.

(** bundle_adjustment.cc:66-80 (ViewIds and TrackIds list the keys of the maps). *)
Definition bundle_adjust : outcome (recon * gmap N intrinsics * summary) :=
  bundle_adjust_partial (os 6 0%N (elements (dom (rc_views r)))) (os 7 0%N (elements (dom (rc_tracks r)))).

(** bundle_adjustment.cc:83-93. *)
Definition bundle_adjust_view (u : N) : outcome (recon * gmap N intrinsics * summary) :=
  a ← add_view ba_new u; optimize a.

(** bundle_adjustment.cc:96-108. *)
Definition bundle_adjust_track (t : N) : outcome (recon * gmap N intrinsics * summary) :=
  a ← add_track ba_new t; optimize a.
End model.


