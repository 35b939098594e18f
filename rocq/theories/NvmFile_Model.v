(** Model of /repo/src/theia/io/write_nvm_file.cc.  The file is modelled by the numbers, names and lists that are written, in
    their order, not by its characters: names with spaces are not told apart from several words. *)
From stdpp Require Import gmap strings.
From Verif Require Import Base Reconstruction_Model.

(** What is written: the number of cameras, the name and the parameters of each, the number of points, and for each point its
    position and color, the number of its observations, and for each of those the index of the camera, the index of the
    feature and the centered feature. *)
Record nvm_file (V T X : Type) := NvmFile {
  nvm_num_cameras : nat; nvm_cameras : list (string * V);
  nvm_num_points : nat; nvm_points : list (T * nat * list (nat * nat * X)) }.
Arguments NvmFile {V T X}.
Arguments nvm_num_cameras {V T X}.
Arguments nvm_cameras {V T X}.
Arguments nvm_num_points {V T X}.
Arguments nvm_points {V T X}.

Section model.
Context {F C D V T X : Type}.
Notation recon := (recon F C D).
(** The camera model type and parameters of a view (72-92), the point and color of a track (112-117), and a feature minus the
    principal point (125-128): arguments. *)
Context (pinhole : view F C -> bool) (camera : view F C -> V) (point : D -> T) (centered : view F C -> F -> X).

(** 96-100: each feature of view [u] is mapped to its position.  The two nested maps are one map of pairs. *)
Fixpoint number_features (u : N) (k : nat) (m : gmap (N * N) nat) (ts : list N) : gmap (N * N) nat :=
  match ts with
  | [] => m
  | t :: ts => number_features u (S k) (<[(u, t) := k]> m) ts
  end.
(** 66-102, the loop over the views: cameras, indices of views, indices of features.  The indices are [int]s, here without
    bound.  [ov u] is the order of the map of features of view [u]. *)
Definition nvm_view (ov : N -> order N) (r : recon) (st : list (string * V) * gmap N nat * gmap (N * N) nat) (u : N)
    : outcome (list (string * V) * gmap N nat * gmap (N * N) nat) :=
  let '(cams, idx, feats) := st in
  let i := size idx in
  let idx := <[u := i]> idx in
  v ← or_ub (rc_views r !! u);
  _ ← check (pinhole v);
  Ok (cams ++ [(v_name v, camera v)], idx, number_features u 0 feats (ov u (elements (dom (v_feats v))))).
(** 120-136, the loop over the views of a track. *)
Definition nvm_observation (r : recon) (idx : gmap N nat) (feats : gmap (N * N) nat) (t : N) (l : list (nat * nat * X)) (u : N) : outcome (list (nat * nat * X)) :=
  v ← or_ub (rc_views r !! u);
  f ← or_ub (v_feats v !! t);
  k ← or_die (feats !! (u, t));
  i ← or_die (idx !! u);
  Ok (l ++ [(i, k, centered v f)]).
(** 108-138, the loop over the tracks.  [ot t] is the order of the set of views of track [t]. *)
Definition nvm_track (ot : N -> order N) (r : recon) (idx : gmap N nat) (feats : gmap (N * N) nat) (l : list (T * nat * list (nat * nat * X))) (t : N)
    : outcome (list (T * nat * list (nat * nat * X))) :=
  tr ← or_ub (rc_tracks r !! t);
  obs ← run_steps (nvm_observation r idx feats t) [] (ot t (elements (t_views tr)));
  Ok (l ++ [(point (t_data tr), size (t_views tr), obs)]).

(** 51-144, WriteNVMFile.  [o] is the order of the sets of ids.  Writing does not fail here. *)
Definition write_nvm (o : order N) (ov ot : N -> order N) (opened : bool) (r : recon) : outcome (bool * option (nvm_file V T X)) :=
  if negb opened then Ok (false, None)
  else
    let views := o (elements (dom (rc_views r))) in
    '(cams, idx, feats) ← run_steps (nvm_view ov r) ([], ∅, ∅) views;
    let tracks := o (elements (dom (rc_tracks r))) in
    points ← run_steps (nvm_track ot r idx feats) [] tracks;
    Ok (true, Some (NvmFile (length views) cams (length tracks) points)).
End model.
