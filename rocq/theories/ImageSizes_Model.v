(** Model of /repo/src/theia/io/populate_image_sizes.cc. *)
From stdpp Require Import gmap strings.
From Verif Require Import Base Reconstruction_Model.

Section model.
Context {F C D I : Type}.
Notation recon := (recon F C D).
(** The path of the image of a view (68-69, 76-77), whether there is such a file (70) and the width and height of the image in it,
    zero if it cannot be read (78): arguments.  [with_size] sets the image size of a camera (81), [with_center] the principal
    point of its intrinsics to half of the size (82).  The files do not change during the call. *)
Context (path : string -> string) (file_exists : string -> bool) (image_size : string -> Z * Z)
  (with_size : Z * Z -> C -> C) (with_center : Z * Z -> I -> I).

(** 67-74, the first loop: are all files there? *)
Definition find_file (r : recon) (found : bool) (u : N) : outcome bool :=
  if negb found then Ok false
  else
    v ← or_ub (rc_views r !! u);
    Ok (file_exists (path (v_name v))).
(** 75-83, the second loop.  The intrinsics object is in the heap, where views may share it. *)
Definition set_size (st : recon * gmap N I) (u : N) : outcome (recon * gmap N I) :=
  let '(r, h) := st in
  v ← or_ub (rc_views r !! u);
  let s := image_size (path (v_name v)) in
  _ ← check (bool_decide (0 < s.1)%Z);
  let r := rc_set_view r u (v_est v) (with_size s (v_data v)) in
  i ← or_ub (h !! v_intr v);
  Ok (r, <[v_intr v := with_center s i]> h).
(** 61-86, PopulateImageSizesAndPrincipalPoints. *)
Definition populate (o : order N) (r : recon) (h : gmap N I) : outcome (bool * recon * gmap N I) :=
  let us := o (elements (dom (rc_views r))) in
  found ← run_steps (find_file r) true us;
  if negb found then Ok (false, r, h)
  else '(r, h) ← run_steps set_size (r, h) us; Ok (true, r, h).
End model.
