(** Model of the parallel triangulation of tracks: /repo/src/theia/sfm/estimate_track.{h,cc}.

    The workers of the thread pool run concurrently.  A schedule is a list of task numbers; each entry lets that task do
    its next step, and a step is one of the writes of TrackEstimator::EstimateTrack to the track, or the update of the
    summary, which is protected by a mutex.  The reads of a worker concern the views, which do not change, and its own
    track.  The counters for the log message are left out.  Doubles are exact rationals. *)
From stdpp Require Import gmap.
From Coq Require Import QArith_base Qcanon.
From Verif Require Import Base Reconstruction_Model SfmQueries_Model.

(** Where the estimation of the current track stands. *)
Inductive phase := PStart | PAdjust | PAccept.

Section estimator.
Context {F C D : Type}.
Implicit Types r : recon F C D.

(** What is computed from cameras and points: depth and squared error of a projection (Camera::ProjectPoint), the ray
    of a feature (Camera::PixelToUnitDepthRay), the triangulated point (TriangulateMidpoint, None if it fails) and
    the refined point with its success flag (BundleAdjustTrack, which only changes the point of the track and only
    reads the estimated views that observe it). *)
Record geometry := Geometry {
  g_depth : view F C -> D -> Qc;
  g_error : view F C -> D -> F -> Qc;
  g_ray : view F C -> F -> Qc * Qc * Qc;
  g_triangulate : list (view F C * F) -> option D;
  g_adjust : list (view F C * F) -> D -> D * bool }.

(** estimate_track.h:57-79, the options. *)
Record est_options := EstOptions {
  eo_threads : Z; eo_max_error : Qc; eo_cos_min : Qc; eo_adjust : bool; eo_step : Z }.

Context (g : geometry) (opts : est_options).

(** estimate_track.cc:58-85, GetObservationsFromTrackViews. *)
Fixpoint get_observations r (t : N) (vs : list N) : outcome (list (view F C * F)) :=
  match vs with
  | [] => Ok []
  | u :: vs =>
      match rc_views r !! u with
      | Some v =>
          if v_est v then
            f ← or_die (v_feats v !! t);
            l ← get_observations r t vs;
            Ok ((v, f) :: l)
          else get_observations r t vs
      | None => get_observations r t vs
      end
  end.

(** estimate_track.cc:90-115, AcceptableReprojectionError: the loop, and the comparison of the mean. *)
Fixpoint acceptable_loop (d : D) (obs : list (view F C * F)) (sum : Qc) (n : nat) : bool :=
  match obs with
  | [] => bool_decide (0 < n)%nat && bool_decide (sum / Q2Qc (Z.of_nat n # 1) < eo_max_error opts * eo_max_error opts)%Qc
  | (v, f) :: obs =>
      if decide (g_depth g v d < 0)%Qc then false
      else acceptable_loop d obs (sum + g_error g v d f)%Qc (S n)
  end.

(** estimate_track.cc:205-264, EstimateTrack, in three steps: up to the triangulation (lines 208-239), the bundle
    adjustment (240-246), the final test (248-263).  The result is the new track and either the next step or the value
    returned. *)
Definition track_step (o : order N) r (t : N) (p : phase) : outcome (track D * (phase + bool)) :=
  T ← or_ub (rc_tracks r !! t);
  match p with
  | PStart =>
      _ ← check (negb (t_est T));
      obs ← get_observations r t (o (elements (t_views T)));
      if decide (length obs < 2)%nat then Ok (T, inr false)
      else if sufficient_angle (eo_cos_min opts) ((fun vf => g_ray g vf.1 vf.2) <$> obs) then
        match g_triangulate g obs with
        | None => Ok (T, inr false)
        | Some d =>
            if eo_adjust opts then Ok (Track true d (t_views T), inl PAdjust)
            else Ok (Track (t_est T) d (t_views T), inl PAccept)
        end
      else Ok (T, inr false)
  | PAdjust =>
      obs ← get_observations r t (o (elements (t_views T)));
      let '(d, success) := g_adjust g obs (t_data T) in
      Ok (Track false d (t_views T), if success : bool then inl PAccept else inr false)
  | PAccept =>
      obs ← get_observations r t (o (elements (t_views T)));
      if acceptable_loop (t_data T) obs 0%Qc 0 then Ok (Track true (t_data T) (t_views T), inr true)
      else Ok (T, inr false)
  end.

(** A call of TrackEstimator::EstimateTrackSet (estimate_track.cc:191-203): the tracks still to do, the step of the
    first of them, the local set of estimated tracks, and whether it has returned. *)
Record task := Task { k_todo : list N; k_phase : phase; k_found : gset N; k_done : bool }.
Record est_state := EstState { e_recon : recon F C D; e_found : gset N; e_tasks : list task }.

(** One step of task [i]; no effect if it has returned or does not exist. *)
Definition task_step (o : order N) (s : est_state) (i : nat) : outcome est_state :=
  match e_tasks s !! i with
  | None => Ok s
  | Some k =>
      if k_done k then Ok s
      else
        match k_todo k with
        | [] =>
            Ok (EstState (e_recon s) (k_found k ∪ e_found s) (<[i := Task [] (k_phase k) (k_found k) true]> (e_tasks s)))
        | t :: todo =>
            '(T, res) ← track_step o (e_recon s) t (k_phase k);
            let r' := set_tracks (e_recon s) (<[t := T]> (rc_tracks (e_recon s))) in
            let k' := match res with
                      | inl p => Task (t :: todo) p (k_found k) false
                      | inr b => Task todo PStart (if b : bool then {[t]} ∪ k_found k else k_found k) false
                      end in
            Ok (EstState r' (e_found s) (<[i := k']> (e_tasks s)))
        end
  end.

(** estimate_track.cc:173-177: the intervals given to the thread pool.  [i] is an int compared with a size_t.  An interval
    of step 0 never ends. *)
Fixpoint interval_loop (fuel : nat) (size step i : Z) : outcome (list (Z * Z)) :=
  match fuel with
  | O => Hang
  | S fuel =>
      if decide (i mod 2 ^ 64 < size)%Z then
        l ← interval_loop fuel size step (i + step);
        Ok ((i, Z.min size (i + step)) :: l)
      else Ok []
  end.
(** estimate_track.cc:166-177, with the division by the number of threads, and the test of threadpool.cc:82. *)
Definition intervals (size : Z) : outcome (list (Z * Z)) :=
  let threads := Z.min (eo_threads opts) size in
  if decide (threads = 0)%Z then UB
  else _ ← check (bool_decide (1 <= threads)%Z);
    interval_loop (S (Z.to_nat size)) size (Z.min (eo_step opts) (Z.quot size threads)) 0.

(** The tracks with numbers start ... end-1 of the list. *)
Definition interval_tracks (l : list N) (iv : Z * Z) : list N :=
  take (Z.to_nat (iv.2 - iv.1)) (drop (Z.to_nat iv.1) l).

(** estimate_track.cc:144-151: the tracks that are not estimated. *)
Fixpoint unestimated_tracks r (ids : list N) : outcome (list N) :=
  match ids with
  | [] => Ok []
  | t :: ids =>
      T ← or_ub (rc_tracks r !! t);
      l ← unestimated_tracks r ids;
      Ok (if t_est T then l else t :: l)
  end.

(** What EstimateTracks returns: the summary (estimate_track.h:81-91), and the reconstruction. *)
Record est_summary := EstSummary { es_input : Z; es_attempts : Z; es_found : gset N }.

(** The state when all tasks were given to the pool. *)
Definition start_state r (l : list N) (ivs : list (Z * Z)) : est_state :=
  EstState r ∅ ((fun iv => Task (interval_tracks l iv) PStart ∅ false) <$> ivs).

(** estimate_track.cc:136-189, EstimateTracks, under a schedule.  pool.reset waits until all tasks have returned; a
    schedule under which they have not is no complete run (None). *)
Definition estimate_tracks (o : order N) (ids : gset N) (sched : list nat) r
    : outcome (option (recon F C D * est_summary)) :=
  l ← unestimated_tracks r (o (elements ids));
  let input := (Z.of_nat (size ids) - Z.of_nat (length l))%Z in
  let attempts := Z.of_nat (length l) in
  if decide (length l = 0%nat) then Ok (Some (r, EstSummary input attempts ∅))
  else
    ivs ← intervals (Z.of_nat (length l));
    s ← run_steps (task_step o) (start_state r l ivs) sched;
    Ok (if forallb k_done (e_tasks s) then Some (e_recon s, EstSummary input attempts (e_found s)) else None).

(** estimate_track.cc:120-134, EstimateAllTracks. *)
Definition estimate_all_tracks (o : order N) (sched : list nat) r : outcome (option (recon F C D * est_summary)) :=
  let tracks := foldl (fun (s : gset N) u => match rc_views r !! u with
                                  | Some v => if v_est v then list_to_set (o (elements (dom (v_feats v)))) ∪ s else s
                                  | None => s end) ∅ (o (elements (dom (rc_views r)))) in
  estimate_tracks o tracks sched r.
End estimator.
Arguments geometry : clear implicits.
