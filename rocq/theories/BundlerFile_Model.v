(** Model of /repo/src/theia/io/write_bundler_files.cc.  The files are modelled by the numbers, names and lists that are
    written, in their order, not by their characters. *)
From stdpp Require Import gmap strings.
From Verif Require Import Base Reconstruction_Model ReconstructionBuilder_Model.

(** What is written to the bundle file: the numbers of views and tracks, the cameras, and for each track its position and
    color, the number of its observations, and for each of those the index of the camera and the feature (the key 0 of 151 is
    left out); and to the list file: the name of each view and its prior focal length, if it is set. *)
Record bundler_files (L V T X : Type) := BundlerFiles {
  bf_num_views : nat; bf_num_tracks : nat; bf_cameras : list V; bf_points : list (T * nat * list (nat * X)); bf_list : list (string * option L) }.
Arguments BundlerFiles {L V T X}.
Arguments bf_num_views {L V T X}.
Arguments bf_num_tracks {L V T X}.
Arguments bf_cameras {L V T X}.
Arguments bf_points {L V T X}.
Arguments bf_list {L V T X}.

Section model.
Context {F C D : Type}.
Notation recon := (recon F C D).
(** The prior focal length of a view (93-96), the camera lines of a view (110-124), the position and color of a track (131-136)
    and a feature relative to the principal point (145-147): arguments.  [intr p] are the intrinsics that pointer [p] points
    to, [pinhole] tells their model type. *)
Context {L V T X S : Type} (prior : C -> option L) (camera : C -> S -> V) (point : D -> T) (centered : C -> S -> F -> X)
  (intr : N -> S) (pinhole : S -> bool).

(** 87-125, the loop over the views: list file, cameras, indices of views.  The index is that of the loop, an [int], here
    without bound.  [LOG(FATAL)] ends the program (103). *)
Definition bundler_view (r : recon) (st : list (string * option L) * list V * gmap N nat) (u : N) : outcome (list (string * option L) * list V * gmap N nat) :=
  let '(names, cams, idx) := st in
  let idx := <[u := length names]> idx in
  v ← or_ub (rc_views r !! u);
  let names := names ++ [(v_name v, prior (v_data v))] in
  _ ← check (pinhole (intr (v_intr v)));
  Ok (names, cams ++ [camera (v_data v) (intr (v_intr v))], idx).
(** 139-153, the loop over the views of a track. *)
Definition bundler_observation (r : recon) (idx : gmap N nat) (t : N) (l : list (nat * X)) (u : N) : outcome (list (nat * X)) :=
  i ← or_die (idx !! u);
  v ← or_ub (rc_views r !! u);
  f ← or_ub (v_feats v !! t);
  Ok (l ++ [(i, centered (v_data v) (intr (v_intr v)) f)]).
(** 129-155, the loop over the tracks.  [ot t] is the order of the set of views of track [t]. *)
Definition bundler_track (ot : N -> order N) (r : recon) (idx : gmap N nat) (l : list (T * nat * list (nat * X))) (t : N) : outcome (list (T * nat * list (nat * X))) :=
  tr ← or_ub (rc_tracks r !! t);
  obs ← run_steps (bundler_observation r idx t) [] (ot t (elements (t_views tr)));
  Ok (l ++ [(point (t_data tr), size (t_views tr), obs)]).
(** 59-157, WriteBundleFile.  The two flags tell which files can be opened; the empty bundle file that is left if only the
    list file cannot be opened is not shown.  Writing does not fail here. *)
Definition write_bundle (o : order N) (ot : N -> order N) (open1 open2 : bool) (r : recon) : outcome (bool * option (bundler_files L V T X)) :=
  if negb open1 then Ok (false, None)
  else if negb open2 then Ok (false, None)
  else
    '(names, cams, idx) ← run_steps (bundler_view r) ([], [], ∅) (o (elements (dom (rc_views r))));
    points ← run_steps (bundler_track ot r idx) [] (o (elements (dom (rc_tracks r))));
    Ok (true, Some (BundlerFiles (size (dom (rc_views r))) (size (dom (rc_tracks r))) cams points names)).
(** 161-168, WriteBundlerFiles. *)
Definition write_bundler (o : order N) (ot : N -> order N) (open1 open2 : bool) (r : recon) : outcome (bool * option (bundler_files L V T X)) :=
  e ← create_estimated o r;
  write_bundle o ot open1 open2 e.
End model.
