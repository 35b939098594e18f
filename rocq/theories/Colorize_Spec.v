(** What is expected of ColorizeReconstruction. *)
From stdpp Require Import gmap strings.
From Coq Require Import QArith Qcanon Qround.
From Verif Require Import Base Reconstruction_Model Colorize_Model.

Section spec.
Context {C P : Type}.
Notation recon := (recon feature C (P * bytes)).
(** The pixel of the image file of view [u] that the feature of track [t] lies in. *)
Definition pixel_of (files : string -> option image) (dir : string) (r : recon) (t u : N) : option vec :=
  v ← rc_views r !! u;
  f ← v_feats v !! t;
  im ← files (dir ++ v_name v)%string;
  Some (im_pixel im (Qfloor (this f.1)) (Qfloor (this f.2))).
(** The mean of a channel of some pixels, as a number from 0 to 255 without its fraction. *)
Definition sum (l : list Qc) : Qc := foldr Qcplus (Q2Qc 0) l.
Definition mean_byte (l : list Qc) : Z := Qfloor (this (Q2Qc 255 * sum l / Q2Qc (inject_Z (Z.of_nat (length l))))%Qc).
Definition mean_color (l : list vec) : bytes :=
  (mean_byte ((fun c : vec => c.1.1) <$> l), mean_byte ((fun c : vec => c.1.2) <$> l), mean_byte ((fun c : vec => c.2) <$> l)).
Definition track_color (files : string -> option image) (dir : string) (r : recon) (t : N) (T : track (P * bytes)) : bytes :=
  mean_color (omap (pixel_of files dir r t) (elements (t_views T))).

Definition unit_range (q : Qc) : Prop := (Q2Qc 0 <= q <= 1)%Qc.
(** A color image with pixels from zero to one that the features lie in. *)
Definition good_image (im : image) (feats : gmap N feature) : Prop :=
  im_channels im = 3%Z /\ (im_width im <= 2 ^ 31)%Z /\ (im_height im <= 2 ^ 31)%Z /\
  (forall x y, unit_range (im_pixel im x y).1.1 /\ unit_range (im_pixel im x y).1.2 /\ unit_range (im_pixel im x y).2) /\
  (forall t f, feats !! t = Some f -> (0 <= this f.1)%Q /\ (this f.1 < inject_Z (im_width im))%Q /\ (0 <= this f.2)%Q /\ (this f.2 < inject_Z (im_height im))%Q).
Definition colorable (files : string -> option image) (dir : string) (r : recon) : Prop :=
  (forall u v, rc_views r !! u = Some v -> exists im, files (dir ++ v_name v)%string = Some im /\ good_image im (v_feats v)) /\
  (forall t T, rc_tracks r !! t = Some T -> t_views T <> ∅).
(** The tasks are scheduled until they are done: the one of a view with n features at least n + 1 times. *)
Definition complete (r : recon) (ov : order N) (sched : list nat) : Prop :=
  forall i u v, ov (elements (dom (rc_views r))) !! i = Some u -> rc_views r !! u = Some v ->
    (S (size (v_feats v)) <= count_occ Nat.eq_dec sched i)%nat.
End spec.
