(** Independent specification of COLMAP files. *)
From stdpp Require Import gmap strings.
From Verif Require Import Base Reconstruction_Model SfmQueries_Spec.

Section spec.
Context {F C D W P T S A K : Type} (dims : C -> W) (pose : C -> P) (point : D -> T) (intr : N -> S) (linear : S -> A).
Notation recon := (recon F C D).

(** The images are the estimated views, each once: with their ids, poses, groups and names, and with exactly their features of
    estimated tracks, each once. *)
Definition images_shown (r : recon) (images : list (N * P * N * string * list (F * N))) : Prop :=
  NoDup ((fun i => i.1.1.1.1) <$> images) /\
  (forall u, est_view r u -> exists p g n obs, (u, p, g, n, obs) ∈ images) /\
  forall u p g n obs, (u, p, g, n, obs) ∈ images ->
    exists v, rc_views r !! u = Some v /\ v_est v = true /\ p = pose (v_data v) /\ rc_view_group r !! u = Some g /\ n = v_name v /\
      NoDup obs.*2 /\ forall f t, (f, t) ∈ obs <-> v_feats v !! t = Some f /\ est_track r t.

(** There is one camera for each group of an image.  It has the image size of one of its views and the intrinsics of all,
    with the distortion parameters [d1] and [d2]. *)
Definition cameras_shown (d1 d2 : S -> K) (r : recon) (cameras : list (N * W * A * K * K)) : Prop :=
  NoDup ((fun c => c.1.1.1.1) <$> cameras) /\
  (forall u g, est_view r u -> rc_view_group r !! u = Some g -> exists w a x y, (g, w, a, x, y) ∈ cameras) /\
  forall g w a x y, (g, w, a, x, y) ∈ cameras ->
    (exists u v, rc_views r !! u = Some v /\ v_est v = true /\ rc_view_group r !! u = Some g /\ w = dims (v_data v)) /\
    forall u v, rc_views r !! u = Some v -> v_est v = true -> rc_view_group r !! u = Some g ->
      a = linear (intr (v_intr v)) /\ x = d1 (intr (v_intr v)) /\ y = d2 (intr (v_intr v)).

(** The points are the estimated tracks that an estimated view sees, or no view at all, each once.  A point refers to an image
    and a position exactly if the feature at that position in that image refers to the point. *)
Definition points_shown (r : recon) (images : list (N * P * N * string * list (F * N))) (points : list (N * T * list (N * nat))) : Prop :=
  NoDup ((fun p => p.1.1) <$> points) /\
  (forall t, est_track r t -> ((exists u, sees r u t /\ est_view r u) \/ forall u, ~ sees r u t) -> exists p obs, (t, p, obs) ∈ points) /\
  forall t p obs, (t, p, obs) ∈ points ->
    est_track r t /\ (exists tr, rc_tracks r !! t = Some tr /\ p = point (t_data tr)) /\ NoDup obs /\
    forall u k, (u, k) ∈ obs <-> exists q g n fs f, (u, q, g, n, fs) ∈ images /\ fs !! k = Some (f, t).
End spec.
