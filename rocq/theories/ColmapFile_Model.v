(** Model of /repo/src/theia/io/write_colmap_files.cc.  The files are modelled by the numbers, names and lists that are
    written, in their order, not by their characters. *)
From stdpp Require Import gmap strings.
From Verif Require Import Base Reconstruction_Model ReconstructionBuilder_Model.

Section model.
Context {F C D : Type}.
Notation recon := (recon F C D).
(** The image size of a view (86-87), its pose (113-116) and the point and color of a track (144-150): arguments.  [intr p] are
    the intrinsics that pointer [p] points to: [pinhole] their model type (76), [linear] the focal length and the principal
    point (87-88), [k1] and [k2] the radial distortion; [k2] is not used. *)
Context {W P T S A K : Type} (dims : C -> W) (pose : C -> P) (point : D -> T)
  (intr : N -> S) (pinhole : S -> bool) (linear : S -> A) (k1 k2 : S -> K).

(** A line of cameras.txt: group, image size, focal length and principal point, two distortion parameters. *)
Definition camera_line : Type := N * W * A * K * K.
(** Two lines of images.txt: view, pose, group, name; features with the ids of their tracks. *)
Definition image_lines : Type := N * P * N * string * list (F * N).
(** A line of points3D.txt: track, point and color; views with the index of the feature. *)
Definition point_line : Type := N * T * list (N * nat).

(** 70-94, the loop over the groups.  [og g] is the order of the set of views of group [g]; the first of an empty set is
    undefined.  The flag is false once the function has returned false (82): later groups are skipped. *)
Definition colmap_camera (og : N -> order N) (r : recon) (st : list camera_line * bool) (g : N) : outcome (list camera_line * bool) :=
  let '(l, go) := st in
  if negb go then Ok (l, go)
  else
    X ← or_die (rc_groups r !! g);
    u ← or_ub (head (og g (elements (X : gset N))));
    v ← or_ub (rc_views r !! u);
    let s := intr (v_intr v) in
    if negb (pinhole s) then Ok (l, false)
    else Ok (l ++ [(g, dims (v_data v), linear s, k1 s, k1 s)], true).
(** 60-98, WriteCamerasFile, after the file has been opened. *)
Definition cameras_file (o : order N) (og : N -> order N) (r : recon) : outcome (list camera_line * bool) :=
  run_steps (colmap_camera og r) ([], true) (o (elements (dom (rc_groups r)))).

(** 123-127, the loop over the features of a view. *)
Definition colmap_feature (v : view F C) (l : list (F * N)) (t : N) : outcome (list (F * N)) :=
  f ← or_ub (v_feats v !! t);
  Ok (l ++ [(f, t)]).
(** 109-129, the loop over the views.  [ov u] is the order of the map of features of view [u]. *)
Definition colmap_image (ov : N -> order N) (r : recon) (l : list image_lines) (u : N) : outcome (list image_lines) :=
  v ← or_ub (rc_views r !! u);
  obs ← run_steps (colmap_feature v) [] (ov u (elements (dom (v_feats v))));
  Ok (l ++ [(u, pose (v_data v), default kInvalidId (rc_view_group r !! u), v_name v, obs)]).
(** 100-132, WriteImagesFile, after the file has been opened. *)
Definition images_file (o : order N) (ov : N -> order N) (r : recon) : outcome (list image_lines) :=
  run_steps (colmap_image ov r) [] (o (elements (dom (rc_views r)))).

(** [std::find] of 155-157, minus the beginning: the length of the list if there is none. *)
Fixpoint find_index (t : N) (l : list N) : nat :=
  match l with
  | [] => 0
  | x :: l => if decide (x = t) then 0 else 1 + find_index t l
  end.
(** 151-160, the loop over the views of a track. *)
Definition colmap_observation (ov : N -> order N) (r : recon) (t : N) (l : list (N * nat)) (u : N) : outcome (list (N * nat)) :=
  v ← or_ub (rc_views r !! u);
  Ok (l ++ [(u, find_index t (ov u (elements (dom (v_feats v)))))]).
(** 142-162, the loop over the tracks.  [ot t] is the order of the set of views of track [t]. *)
Definition colmap_point (ov ot : N -> order N) (r : recon) (l : list point_line) (t : N) : outcome (list point_line) :=
  tr ← or_ub (rc_tracks r !! t);
  obs ← run_steps (colmap_observation ov r t) [] (ot t (elements (t_views tr)));
  Ok (l ++ [(t, point (t_data tr), obs)]).
(** 134-166, WritePointsFile, after the file has been opened. *)
Definition points_file (o : order N) (ov ot : N -> order N) (r : recon) : outcome (list point_line) :=
  run_steps (colmap_point ov ot r) [] (o (elements (dom (rc_tracks r)))).

(** 170-192, WriteColmapFiles.  The three flags tell which files can be opened; writing does not fail here.  The result is the
    returned value and the contents of the files that were written. *)
Definition write_colmap (o : order N) (og ov ot : N -> order N) (open1 open2 open3 : bool) (r : recon)
    : outcome (bool * option (list camera_line) * option (list image_lines) * option (list point_line)) :=
  e ← create_estimated o r;
  if negb open1 then Ok (false, None, None, None)
  else
    '(cs, go) ← cameras_file o og e;
    if negb go then Ok (false, Some cs, None, None)
    else if negb open2 then Ok (false, Some cs, None, None)
    else
      is ← images_file o ov e;
      if negb open3 then Ok (false, Some cs, Some is, None)
      else
        ps ← points_file o ov ot e;
        Ok (true, Some cs, Some is, Some ps).
End model.
