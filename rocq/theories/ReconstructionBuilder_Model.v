(** Model of /repo/src/theia/sfm/reconstruction_builder.{h,cc}, on top of the models of Reconstruction, ViewGraph and
    TrackBuilder.

    [F] is the feature type, [C] the data of a view (extrinsics and camera intrinsics prior), [D] the data of a track, [E]
    the two view info of an edge, [P] the camera intrinsics prior, [I] the contents of a camera intrinsics object.  The
    functions on them that the builder uses are arguments: [filename] is stlplus::filename_part
    (util/filesystem.cc:74-86), [with_prior] overwrites the prior of a view, [focal_set] is
    CameraIntrinsicsPrior().focal_length.is_set, [swap] is SwapCameras.

    Intrinsics objects are shared between views and between copies of a reconstruction; they live in a heap, indexed by
    the identities [v_intr] of the model of Reconstruction.  Simplification: feature extraction and matching is not
    modelled; what the database holds afterwards is an argument of [extract]. *)
From stdpp Require Import gmap strings.
From Verif Require Import Base Reconstruction_Model ViewGraph_Model TrackBuilder_Model.

Section model.
Context {F : Type} `{Countable F} {C D E P I : Type}.
Context (c0 : C) (d0 : D).
Context (filename : string -> string) (with_prior : P -> C -> C) (focal_set : C -> bool) (swap : E -> outcome E).
Notation recon := (recon F C D).
Notation graph := (view_graph E).
Notation heap := (gmap N I).

(** reconstruction_builder.h:59-127, the options that the modelled functions read. *)
Record options := Options {
  bo_threads : Z; bo_largest : bool; bo_only_calibrated : bool; bo_min_track : Z; bo_max_track : Z }.

(** reconstruction_builder.h:204-222, the data members.  A null unique_ptr is [None]; [b_matcher] holds the images that were
    added to the feature extractor and matcher, with their priors. *)
Record builder := Builder {
  b_options : options; b_tracks : option (tb F); b_recon : recon; b_graph : graph; b_paths : list string;
  b_matcher : option (list (string * option P)) }.

(** 62-89, AddViewToReconstruction. *)
Definition add_view_to (o : order N) (path : string) (p : option P) (group : N) (r : recon) : outcome (recon * bool) :=
  let name := filename path in
  _ ← check (negb (bool_decide (name = EmptyString)));
  '(r, id) ← (if decide (group = kInvalidId) then rc_add_view c0 o r name else rc_add_view_group c0 o r name group);
  if decide (id = kInvalidId) then Ok (r, false)
  else
    match p with
    | None => Ok (r, true)
    | Some p => v ← or_ub (rc_views r !! id); Ok (rc_set_view r id (v_est v) (with_prior p (v_data v)), true)
    end.

(** 96-105. *)
Definition sub_view (o : order N) (r : recon) (u : N) : outcome recon :=
  match rc_views r !! u with
  | None => Ok r
  | Some v => if negb (v_est v) then '(r, _) ← rc_remove_view o r u; Ok r else Ok r
  end.
(** 108-117. *)
Definition sub_track (o : order N) (r : recon) (t : N) : outcome recon :=
  match rc_tracks r !! t with
  | None => Ok r
  | Some T => if negb (t_est T) then Ok (rc_remove_track o r t).1 else Ok r
  end.
(** 91-119, CreateEstimatedSubreconstruction.  The copy at line 94 shares the intrinsics objects (camera.cc:78-97). *)
Definition create_estimated (o : order N) (r : recon) : outcome recon :=
  r ← run_steps (sub_view o) r (o (elements (dom (rc_views r))));
  run_steps (sub_track o) r (o (elements (dom (rc_tracks r)))).

(** 124-134. *)
Definition rest_view (o : order N) (s : recon * graph) (u : N) : outcome (recon * graph) :=
  match rc_views s.1 !! u with
  | None => Ok s
  | Some v => if v_est v then '(r, _) ← rc_remove_view o s.1 u; Ok (r, (vg_remove_view o s.2 u).1) else Ok s
  end.
(** 137-146. *)
Definition rest_track (o : order N) (r : recon) (t : N) : outcome recon :=
  match rc_tracks r !! t with
  | None => Ok r
  | Some T => if t_est T then Ok (rc_remove_track o r t).1 else Ok r
  end.
(** 121-147, RemoveEstimatedViewsAndTracks. *)
Definition remove_estimated (o : order N) (r : recon) (g : graph) : outcome (recon * graph) :=
  '(r, g) ← run_steps (rest_view o) (r, g) (o (elements (dom (rc_views r))));
  r ← run_steps (rest_track o) r (o (elements (dom (rc_tracks r))));
  Ok (r, g).

(** 151-160, the constructor for a given reconstruction and view graph.  (The pointer to the database is not initialized;
    the only function that reads it, [extract], fails before it does.) *)
Definition given_builder (opts : options) (r : recon) (g : graph) : outcome builder :=
  _ ← check (bool_decide (0 < bo_threads opts)%Z);
  Ok (Builder opts None r g [] None).

(** 162-203, the constructor for a database. *)
Definition new_builder (opts : options) : outcome builder :=
  _ ← check (bool_decide (0 < bo_threads opts)%Z);
  t ← tb_new (bo_min_track opts) (bo_max_track opts);
  Ok (Builder opts (Some t) rc_empty vg_empty [] (Some [])).

(** 207-244, AddImage and AddImageWithCameraIntrinsicsPrior, with feature_extractor_and_matcher.cc:168-186.  [p] is the
    prior, if one is given; the functions without a group pass kInvalidCameraIntrinsicsGroupId.  The entry of the prior
    in the database is part of the argument of [extract]. *)
Definition add_image (o : order N) (b : builder) (path : string) (p : option P) (group : N) : outcome (builder * bool) :=
  let paths := b_paths b ++ [path] in
  '(r, ok) ← add_view_to o path p group (b_recon b);
  if negb ok then Ok (Builder (b_options b) (b_tracks b) r (b_graph b) paths (b_matcher b), false)
  else
    m ← or_ub (b_matcher b);
    Ok (Builder (b_options b) (b_tracks b) r (b_graph b) paths (Some (m ++ [(path, p)])), true).

(** 417-431, AddMatchToViewGraph. *)
Definition add_match_to_graph (u1 u2 : N) (info : E) (g : graph) : outcome graph :=
  info ← (if decide (u2 < u1)%N then swap info else Ok info);
  Ok (vg_add_edge g u1 u2 info).

(** 433-440, AddTracksForMatch. *)
Definition add_tracks_for_match (u1 u2 : N) (cs : list (F * F)) (t : option (tb F)) : outcome (option (tb F)) :=
  run_steps (fun t c => b ← or_ub t; b ← tb_add b ((u1, c.1), (u2, c.2)); Ok (Some b)) t cs.

(** 317-348, AddTwoViewMatch. *)
Definition add_match (b : builder) (name1 name2 : string) (info : E) (cs : list (F * F)) : outcome (builder * bool) :=
  let u1 := rc_view_id_from_name (b_recon b) name1 in
  let u2 := rc_view_id_from_name (b_recon b) name2 in
  _ ← check (negb (bool_decide (u1 = kInvalidId)));
  _ ← check (negb (bool_decide (u2 = kInvalidId)));
  skip ← (if bo_only_calibrated (b_options b) then
            v1 ← or_ub (rc_views (b_recon b) !! u1);
            if negb (focal_set (v_data v1)) then Ok true
            else v2 ← or_ub (rc_views (b_recon b) !! u2); Ok (negb (focal_set (v_data v2)))
          else Ok false);
  if skip : bool then Ok (b, true)
  else
    g ← add_match_to_graph u1 u2 info (b_graph b);
    t ← add_tracks_for_match u1 u2 cs (b_tracks b);
    Ok (Builder (b_options b) t (b_recon b) g (b_paths b) (b_matcher b), true).

(** 287-296: the prior of an image in the database is set. *)
Definition set_prior_of (r : recon) (np : string * P) : outcome recon :=
  let u := rc_view_id_from_name r np.1 in
  v ← or_ub (rc_views r !! u);
  Ok (rc_set_view r u (v_est v) (with_prior np.2 (v_data v))).

(** 264-315, ExtractAndMatchFeatures.  [priors] and [matches] are the contents of the database after the extraction and
    matching at line 273, in the order in which the database lists them. *)
Definition extract (b : builder) (priors : list (string * P)) (matches : list (string * string * E * list (F * F))) : outcome (builder * bool) :=
  _ ← check (bool_decide (vg_num_views (b_graph b) = 0%nat));
  _ ← or_ub (b_matcher b);
  r ← run_steps set_prior_of (b_recon b) priors;
  b ← run_steps (fun b m => '(b, _) ← add_match b m.1.1.1 m.1.1.2 m.1.2 m.2; Ok b)
        (Builder (b_options b) (b_tracks b) r (b_graph b) (b_paths b) None) matches;
  Ok (b, true).

(** The calls before BuildReconstruction, as one state machine. *)
Inductive builder_op :=
| BAddImage (o : order N) (path : string) (p : option P) (group : N)
| BAddMatch (name1 name2 : string) (info : E) (cs : list (F * F))
| BExtract (priors : list (string * P)) (matches : list (string * string * E * list (F * F))).
Definition builder_step (b : builder) (op : builder_op) : outcome (builder * bool) :=
  match op with
  | BAddImage o path p group => add_image o b path p group
  | BAddMatch name1 name2 info cs => add_match b name1 name2 info cs
  | BExtract priors matches => extract b priors matches
  end.

(** 248-254. *)
Definition uncalibrated_view (o : order N) (s : recon * graph) (u : N) : outcome (recon * graph) :=
  v ← or_ub (rc_views s.1 !! u);
  if negb (focal_set (v_data v)) then '(r, _) ← rc_remove_view o s.1 u; Ok (r, (vg_remove_view o s.2 u).1) else Ok s.
(** 246-255, RemoveUncalibratedViews. *)
Definition remove_uncalibrated (o : order N) (r : recon) (g : graph) : outcome (recon * graph) :=
  run_steps (uncalibrated_view o) (r, g) (o (elements (dom (rc_views r)))).

(** The iteration orders of the hash tables. *)
Record orders := Orders { or_ids : order N; or_features : order ((N * F) * N); or_components : order (N * gset N) }.

(** 352-365, BuildReconstruction before the loop. *)
Definition prepare (os : orders) (b : builder) : outcome builder :=
  _ ← check (bool_decide (2 <= vg_num_views (b_graph b))%nat);
  '(t, r) ← (if decide (size (rc_tracks (b_recon b)) = 0%nat) then
               t ← or_ub (b_tracks b);
               '(t, r) ← tb_build d0 (or_features os) (or_ids os) (or_components os) t (b_recon b);
               Ok (Some t, r)
             else Ok (b_tracks b, b_recon b));
  '(r, g) ← (if bo_only_calibrated (b_options b) then remove_uncalibrated (or_ids os) r (b_graph b) else Ok (r, b_graph b));
  Ok (Builder (b_options b) t r g (b_paths b) (b_matcher b)).

(** A ReconstructionEstimator: ReconstructionEstimator::Create and Estimate (lines 372-377) for the n-th reconstruction. It
    answers with summary.success and the changed view graph, reconstruction and intrinsics objects. *)
Definition estimator := nat -> graph -> recon -> heap -> outcome (bool * graph * recon * heap).

(** 367-414, the loop.  [outs] is the vector of the caller. *)
Fixpoint build_loop (est : estimator) (o : nat -> order N) (largest : bool) (fuel : nat) (k : nat) (r : recon) (g : graph) (h : heap)
    (outs : list recon) : outcome (bool * list recon * recon * graph * heap) :=
  match fuel with
  | 0 => Hang
  | S fuel =>
      if decide (size (rc_views r) <= 1)%nat then Ok (true, outs, r, g, h)
      else
        '(ok, g, r, h) ← est k g r h;
        if negb ok : bool then Ok (bool_decide (0 < length outs)%nat, outs, r, g, h)
        else
          e ← create_estimated (o k) r;
          let outs := outs ++ [e] in
          '(r, g) ← remove_estimated (o k) r g;
          if largest : bool then Ok (bool_decide (0 < length outs)%nat, outs, r, g, h)
          else if decide (size (rc_views r) < 3)%nat then Ok (bool_decide (0 < length outs)%nat, outs, r, g, h)
          else build_loop est o largest fuel (S k) r g h outs
  end.

(** 350-415, BuildReconstruction. *)
Definition build (est : estimator) (os : orders) (o : nat -> order N) (fuel : nat) (b : builder) (h : heap) (outs : list recon)
    : outcome (bool * list recon * builder * heap) :=
  b ← prepare os b;
  '(ok, outs, r, g, h) ← build_loop est o (bo_largest (b_options b)) fuel 0 (b_recon b) (b_graph b) h outs;
  Ok (ok, outs, Builder (b_options b) (b_tracks b) r g (b_paths b) (b_matcher b), h).
End model.
Arguments builder F {_ _} C D E P : assert.
Arguments builder_op : clear implicits.
Arguments estimator : clear implicits.
