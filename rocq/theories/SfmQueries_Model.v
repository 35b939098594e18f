(** Model of functions that read a reconstruction or change the estimated flags of its views and tracks:
    /repo/src/theia/sfm/find_common_tracks_in_views.cc, find_common_views_by_name.cc,
    set_outlier_tracks_to_unestimated.cc and parts of reconstruction_estimator_utils.cc.

    Counters are natural numbers (int in C++).  Doubles are exact rationals. *)
From stdpp Require Import gmap strings sorting.
From Coq Require Import QArith_base Qcanon.
From Verif Require Import Base Reconstruction_Model.

(** std::set_intersection on two sorted ranges. *)
Fixpoint set_intersection (l1 : list N) : list N -> list N :=
  fix go l2 :=
    match l1, l2 with
    | a :: l1', b :: l2' =>
        if decide (a < b)%N then set_intersection l1' l2
        else if decide (b < a)%N then go l2'
        else a :: set_intersection l1' l2'
    | _, _ => []
    end.

Section queries.
Context {F C D : Type}.
Implicit Types r : recon F C D.

(** view.cc:86-93, View::TrackIds, in the iteration order [o]; std::sort is a merge sort (the result of sorting
    numbers does not depend on the algorithm). *)
Definition sorted_track_ids (o : order N) (v : view F C) : list N :=
  merge_sort N.le (o (elements (dom (v_feats v)))).

(** find_common_tracks_in_views.cc:68-83, the loop over the views after the first. *)
Fixpoint common_loop (o : order N) r (common : list N) (views : list N) : outcome (list N) :=
  match views with
  | [] => Ok common
  | u :: views =>
      if decide (common = []) then Ok common
      else
        v ← or_die (rc_views r !! u);
        common_loop o r (set_intersection common (sorted_track_ids o v)) views
  end.

(** find_common_tracks_in_views.cc:58-86, FindCommonTracksInViews. *)
Definition find_common_tracks (o : order N) r (views : list N) : outcome (list N) :=
  _ ← check (bool_decide (1 < length views)%nat);
  match views with
  | [] => UB
  | u :: views =>
      v ← or_die (rc_views r !! u);
      common_loop o r (sorted_track_ids o v) views
  end.

(** find_common_views_by_name.cc:48-64, FindCommonViewsByName; the second reconstruction is only asked for names. *)
Fixpoint common_names_loop (r1 r2 : recon F C D) (ids : list N) : outcome (list string) :=
  match ids with
  | [] => Ok []
  | u :: ids =>
      v ← or_ub (rc_views r1 !! u);
      names ← common_names_loop r1 r2 ids;
      Ok (if decide (rc_view_id_from_name r2 (v_name v) <> kInvalidId) then v_name v :: names else names)
  end.
Definition find_common_views_by_name (o : order N) (r1 r2 : recon F C D) : outcome (list string) :=
  common_names_loop r1 r2 (o (elements (dom (rc_views r1)))).

(** reconstruction_estimator_utils.cc:220-229, GetEstimatedViewsFromReconstruction. *)
Definition estimated_views (o : order N) r : gset N :=
  foldl (fun s u => match rc_views r !! u with Some v => if v_est v then {[u]} ∪ s else s | None => s end)
    ∅ (o (elements (dom (rc_views r)))).
(** reconstruction_estimator_utils.cc:232-242, GetEstimatedTracksFromReconstruction. *)
Definition estimated_tracks (o : order N) r : gset N :=
  foldl (fun s t => match rc_tracks r !! t with Some T => if t_est T then {[t]} ∪ s else s | None => s end)
    ∅ (o (elements (dom (rc_tracks r)))).

(** track.cc:55-57 and view.cc:58-60, SetEstimated(false). *)
Definition unestimate (T : track D) : track D := Track false (t_data T) (t_views T).
Definition unestimate_view (v : view F C) : view F C := View (v_name v) false (v_intr v) (v_data v) (v_feats v).
Definition unestimate_track_in r (t : N) : recon F C D := set_tracks r (alter unestimate t (rc_tracks r)).
Definition unestimate_view_in r (u : N) : recon F C D := set_views r (alter unestimate_view u (rc_views r)).

(** reconstruction_estimator_utils.cc:281-290: the number of estimated views, counted until two are found. *)
Fixpoint count_views r (n : nat) (vs : list N) : outcome nat :=
  match vs with
  | [] => Ok n
  | u :: vs =>
      v ← or_ub (rc_views r !! u);
      let n := if v_est v then S n else n in
      if decide (2 <= n)%nat then Ok n else count_views r n vs
  end.
(** reconstruction_estimator_utils.cc:275-296, the body of the loop. *)
Definition under_track_step (o : order N) (st : recon F C D * nat) (t : N) : outcome (recon F C D * nat) :=
  let '(r, num) := st in
  T ← or_die (rc_tracks r !! t);
  if t_est T then
    n ← count_views r 0 (o (elements (t_views T)));
    if decide (n < 2)%nat then Ok (unestimate_track_in r t, S num) else Ok (r, num)
  else Ok (r, num).
(** reconstruction_estimator_utils.cc:271-299, SetUnderconstrainedTracksToUnestimated. *)
Definition set_underconstrained_tracks (o : order N) r : outcome (recon F C D * nat) :=
  run_steps (under_track_step o) (r, 0%nat) (o (elements (dom (rc_tracks r)))).

(** reconstruction_estimator_utils.cc:312-321: the number of estimated tracks, counted until three are found. *)
Fixpoint count_tracks r (n : nat) (ts : list N) : outcome nat :=
  match ts with
  | [] => Ok n
  | t :: ts =>
      T ← or_ub (rc_tracks r !! t);
      let n := if t_est T then S n else n in
      if decide (3 <= n)%nat then Ok n else count_tracks r n ts
  end.
(** reconstruction_estimator_utils.cc:306-327, the body of the loop. *)
Definition under_view_step (o : order N) (st : recon F C D * nat) (u : N) : outcome (recon F C D * nat) :=
  let '(r, num) := st in
  v ← or_die (rc_views r !! u);
  if v_est v then
    n ← count_tracks r 0 (o (elements (dom (v_feats v))));
    if decide (n < 3)%nat then Ok (unestimate_view_in r u, S num) else Ok (r, num)
  else Ok (r, num).
(** reconstruction_estimator_utils.cc:301-330, SetUnderconstrainedViewsToUnestimated. *)
Definition set_underconstrained_views (o : order N) r : outcome (recon F C D * nat) :=
  run_steps (under_view_step o) (r, 0%nat) (o (elements (dom (rc_views r)))).

(** Poses, as given by the global pose estimation: [pose p q c] is the camera [c] with position [p] and orientation
    [q]. *)
Section poses.
  Context {P Q : Type} (pose : P -> Q -> C -> C).

  (** reconstruction_estimator_utils.cc:164-187, the body of the loop over the positions. *)
  Definition set_pose_step (orientations : gmap N Q) r (up : N * P) : outcome (recon F C D) :=
    match rc_views r !! up.1 with
    | None => Ok r
    | Some v =>
        _ ← check (negb (v_est v));
        match orientations !! up.1 with
        | None => Ok r
        | Some q =>
            Ok (set_views r (<[up.1 := View (v_name v) true (v_intr v) (pose up.2 q (v_data v)) (v_feats v)]> (rc_views r)))
        end
    end.
  (** reconstruction_estimator_utils.cc:160-188, SetReconstructionFromEstimatedPoses. *)
  Definition set_estimated_poses (o : order (N * P)) (orientations : gmap N Q) (positions : gmap N P) r
    : outcome (recon F C D) :=
    run_steps (set_pose_step orientations) r (o (map_to_list positions)).
End poses.

(** What Camera computes for a view and a point: the depth and the squared distance between the projection and a
    feature (camera.cc, ProjectPoint) and the unit vector from the camera to the point. *)
Section outliers.
  Context (depth : view F C -> D -> Qc) (sq_error : view F C -> D -> F -> Qc) (ray : view F C -> D -> Qc * Qc * Qc).

  Definition dot (a b : Qc * Qc * Qc) : Qc := (a.1.1 * b.1.1 + a.1.2 * b.1.2 + a.2 * b.2)%Qc.

  (** triangulation.cc:236-250, SufficientTriangulationAngle, for the cosine of the smallest angle. *)
  Fixpoint sufficient_angle (cos_min : Qc) (rays : list (Qc * Qc * Qc)) : bool :=
    match rays with
    | [] => false
    | a :: rays => existsb (fun b => bool_decide (dot a b < cos_min)%Qc) rays || sufficient_angle cos_min rays
    end.

  (** set_outlier_tracks_to_unestimated.cc:83-107: the loop over the views of the track.  The result is None when a
      view with negative depth was found, otherwise the sum of the errors, their number and the rays. *)
  Fixpoint outlier_loop r (t : N) (T : track D) (vs : list N) (acc : Qc * nat * list (Qc * Qc * Qc))
    : outcome (option (Qc * nat * list (Qc * Qc * Qc))) :=
    match vs with
    | [] => Ok (Some acc)
    | u :: vs =>
        v ← or_die (rc_views r !! u);
        if v_est v then
          let '(sum, n, rays) := acc in
          let rays := rays ++ [ray v (t_data T)] in
          if decide (depth v (t_data T) < 0)%Qc then Ok None
          else
            f ← or_ub (v_feats v !! t);
            outlier_loop r t T vs ((sum + sq_error v (t_data T) f)%Qc, S n, rays)
        else outlier_loop r t T vs acc
    end.

  (** set_outlier_tracks_to_unestimated.cc:73-125, the body of the loop over the tracks.  With no projection the mean
      is not a number and the comparison fails. *)
  Definition outlier_step (o : order N) (max_error cos_min : Qc) (st : recon F C D * nat) (t : N)
    : outcome (recon F C D * nat) :=
    let '(r, num) := st in
    T ← or_ub (rc_tracks r !! t);
    if t_est T then
      res ← outlier_loop r t T (o (elements (t_views T))) (0%Qc, 0%nat, []);
      match res with
      | None => Ok (unestimate_track_in r t, S num)
      | Some (sum, n, rays) =>
          if decide ((0 < n)%nat /\ (max_error * max_error < sum / Q2Qc (Z.of_nat n # 1))%Qc)
          then Ok (unestimate_track_in r t, S num)
          else if sufficient_angle cos_min rays then Ok (r, num)
          else Ok (unestimate_track_in r t, S num)
      end
    else Ok (r, num).

  (** set_outlier_tracks_to_unestimated.cc:62-136, SetOutlierTracksToUnestimated. *)
  Definition set_outlier_tracks (o : order N) (track_ids : gset N) (max_error cos_min : Qc) r
    : outcome (recon F C D * nat) :=
    run_steps (outlier_step o max_error cos_min) (r, 0%nat) (o (elements track_ids)).

  (** set_outlier_tracks_to_unestimated.cc:50-60, for all tracks. *)
  Definition set_all_outlier_tracks (o : order N) (max_error cos_min : Qc) r : outcome (recon F C D * nat) :=
    set_outlier_tracks o (list_to_set (o (elements (dom (rc_tracks r))))) max_error cos_min r.
End outliers.
End queries.
