(** Model of /repo/src/theia/io/import_nvm_file.cc, after the file has been parsed by the library of VisualSFM (73-80). *)
From stdpp Require Import gmap strings.
From Verif Require Import Base Reconstruction_Model.

Section model.
Context {F C D : Type} (c0 : C) (d0 : D).
Notation recon := (recon F C D).

(** 91-118, one view.  The name is that of the file without its directory; the camera data stands for the pose and for the
    intrinsics, which no other view shares since the view is added without a group. *)
Definition import_view (o : order N) (r : recon) (nc : string * C) : outcome recon :=
  '(r, id) ← rc_add_view c0 o r nc.1;
  _ ← check (negb (bool_decide (id = kInvalidId)));
  Ok (rc_set_view r id true nc.2).
(** 120-128, the measurements of point [j]: feature, index of the point, index of the camera.  The map from points to
    measurements is a filter here.  Indices are not negative and below 2^32; the index of the camera is used as a view id. *)
Definition measured (meas : list (F * nat * nat)) (j : nat) : list (N * F) :=
  (fun m => (N.of_nat m.2, m.1.1)) <$> filter (fun m => m.1.2 = j) meas.
(** 130-146, one point.  [FindOrDie] ends the program for a point without measurements (139). *)
Definition import_point (meas : list (F * nat * nat)) (st : recon * nat) (d : D) : outcome (recon * nat) :=
  let '(r, j) := st in
  _ ← check (negb (bool_decide (length (measured meas j) = 0)%nat));
  '(r, id) ← rc_add_track d0 r (measured meas j);
  _ ← check (negb (bool_decide (id = kInvalidId)));
  Ok (rc_set_track r id true d, S j).
(** 66-149, ImportNVMFile. *)
Definition import_nvm (o : order N) (cameras : list (string * C)) (points : list D) (meas : list (F * nat * nat)) (r : recon) : outcome recon :=
  r ← run_steps (import_view o) r cameras;
  '(r, _) ← run_steps (import_point meas) (r, 0%nat) points;
  Ok r.
End model.
