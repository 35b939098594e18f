(** Independent specification of Bundler files. *)
From stdpp Require Import gmap strings.
From Verif Require Import Base Reconstruction_Model SfmQueries_Spec BundlerFile_Model.

Section spec.
Context {F C D L V T X S : Type} (prior : C -> option L) (camera : C -> S -> V) (point : D -> T) (centered : C -> S -> F -> X) (intr : N -> S).
Notation recon := (recon F C D).

(** The files show the estimated part of [r]: the cameras and the lines of the list file are those of the estimated views
    [us], in the same order; the points are those of the estimated tracks [ts] that an estimated view sees, or no view at all;
    each once and counted.  The observations of a point are exactly those of its track by estimated views, each once and
    counted, and refer to the position of the camera in the file. *)
Definition bundler_shows (r : recon) (file : bundler_files L V T X) (us ts : list N) : Prop :=
  (NoDup us /\ forall u, u ∈ us <-> est_view r u) /\
  (NoDup ts /\ forall t, t ∈ ts <-> est_track r t /\ ((exists u, sees r u t /\ est_view r u) \/ forall u, ~ sees r u t)) /\
  bf_num_views file = length (bf_cameras file) /\ bf_num_tracks file = length (bf_points file) /\
  Forall2 (fun u l => exists v, rc_views r !! u = Some v /\ l = (v_name v, prior (v_data v))) us (bf_list file) /\
  Forall2 (fun u c => exists v, rc_views r !! u = Some v /\ c = camera (v_data v) (intr (v_intr v))) us (bf_cameras file) /\
  Forall2 (fun t p => exists tr, rc_tracks r !! t = Some tr /\ p.1.1 = point (t_data tr) /\ p.1.2 = length p.2 /\ NoDup p.2.*1 /\
    forall i x, (i, x) ∈ p.2 <->
      exists u v f, us !! i = Some u /\ rc_views r !! u = Some v /\ v_feats v !! t = Some f /\ x = centered (v_data v) (intr (v_intr v)) f) ts (bf_points file).
End spec.
