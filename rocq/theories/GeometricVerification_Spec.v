(** Independent specification of the geometric verification of matches. *)
From stdpp Require Import gmap strings.
From Coq Require Import Reals QArith_base Qcanon.
From Verif Require Import Base Reconstruction_Model BundleAdjust_Model SfmQueries_Model Priors_Model Priors_Spec Localize_Spec GeometricVerification_Model.

(** [l'] are the elements of [l] that satisfy [Q], in the same order. *)
Inductive selects {A} (Q : A -> Prop) : list A -> list A -> Prop :=
| selects_nil : selects Q [] []
| selects_yes a l l' : Q a -> selects Q l l' -> selects Q (a :: l) (a :: l')
| selects_no a l l' : ~ Q a -> selects Q l l' -> selects Q (a :: l) l'.

(** The matches refer to keypoints of the two images. *)
Definition in_range (ks1 ks2 : list pixel) (ms : list (nat * nat)) : Prop :=
  forall m, m ∈ ms -> (m.1 < length ks1 /\ m.2 < length ks2)%nat.
(** [cs] are the keypoints of the matches [ms]. *)
Definition seen (ks1 ks2 : list pixel) (ms : list (nat * nat)) (cs : list (pixel * pixel)) : Prop :=
  Forall2 (fun m c => ks1 !! m.1 = Some c.1 /\ ks2 !! m.2 = Some c.2) ms cs.

(** An error threshold for images with 1024 pixels, for an image of another size (unchanged if the size is not known). *)
Definition scaled (threshold : R) (p : prior) (t : R) : Prop :=
  (p_width p = 0 /\ p_height p = 0 -> t = threshold)%Z /\
  (~ (p_width p = 0 /\ p_height p = 0)%Z -> t = threshold * (IZR (Z.max (p_width p) (p_height p)) / 1024))%R.

(** A prior that the cameras accept: a known camera model, a positive focal length, no negative image size. *)
Definition valid_prior (p : prior) : Prop :=
  (exists ty, names_model p ty) /\ positive_focal p /\ (0 <= p_width p)%Z /\ (0 <= p_height p)%Z.

Section spec.
Context {X P : Type}.

(** The errors of a pair of normalized features for a relative pose (rotation and position), and with focal lengths. *)
Definition relative_error : Type := list R -> list R -> X * X -> R.
Definition focal_relative_error : Type := R -> R -> list R -> list R -> X * X -> R.

(** The intrinsics of an adjusted camera: all constant, or all but the focal length. *)
Definition intrinsics_kept (constant : bool) (i i' : intrinsics) : Prop :=
  i_type i' = i_type i /\ length (i_params i') = length (i_params i) /\
  forall j, (constant = true \/ j <> 0%nat) -> i_params i' !! j = i_params i !! j.

(** The contract of the estimators: inliers have errors below the threshold, poses have three numbers, focal lengths are
    positive; the adjustment keeps the pose of the first camera, the constant intrinsics and the number of points. *)
Definition solver_contract (err : relative_error) (ferr : focal_relative_error) (z : solvers X P) : Prop :=
  (forall th ns r, z_relative z th ns = Some r ->
     length (l_rotation r) = 3%nat /\ length (l_position r) = 3%nat /\ inliers_of (err (l_rotation r) (l_position r)) th ns (l_inliers r)) /\
  (forall th ns r, z_uncalibrated z th ns = Some r ->
     length (l_rotation r) = 3%nat /\ length (l_position r) = 3%nat /\ (0 < l_focal1 r)%R /\ (0 < l_focal2 r)%R /\
     inliers_of (ferr (l_focal1 r) (l_focal2 r) (l_rotation r) (l_position r)) th ns (l_inliers r)) /\
  (forall k1 k2 cs c1 c2 ps c1' c2' ps' ok, z_adjust z k1 k2 cs c1 c2 ps = (c1', c2', ps', ok) ->
     length ps' = length ps /\ tc_ext c1' = tc_ext c1 /\ tc_size c1' = tc_size c1 /\ tc_size c2' = tc_size c2 /\
     length (tc_ext c2') = length (tc_ext c2) /\
     intrinsics_kept k1 (tc_intr c1) (tc_intr c1') /\ intrinsics_kept k2 (tc_intr c2) (tc_intr c2')).

Context (y : geometry X P) (err : relative_error) (ferr : focal_relative_error).

(** A camera with the parameters of the prior, and with focal length [f] if one is given. *)
Definition calibrated_as (p : prior) (f : option R) (c : two_view_camera) : Prop :=
  exists ty ps, names_model p ty /\ agrees ty p (i_params (create ty)) ps /\
    tc_intr c = Intrinsics ty (match f with None => ps | Some f => <[0%nat := f]> ps end).

(** The two-view geometry (focal lengths, rotation, position) was estimated with the inliers [inl], indices of [cs].
    With focal lengths for both images they are used, and the errors are those of the normalized features with the
    threshold in pixels divided by them; otherwise the focal lengths are a result of the estimator. *)
Definition estimated (opts : verify_options) (p1 p2 : prior) (cs : list (pixel * pixel)) (f1 f2 : R) (rot pos : list R)
    (inl : list nat) : Prop :=
  length rot = 3%nat /\ length pos = 3%nat /\ NoDup inl /\
  exists t1 t2, scaled (vo_sampson opts) p1 t1 /\ scaled (vo_sampson opts) p2 t2 /\
  match p_focal p1, p_focal p2 with
  | Some g1, Some g2 => f1 = g1 /\ f2 = g2 /\ exists c1 c2, calibrated_as p1 None c1 /\ calibrated_as p2 None c2 /\
      forall i, i ∈ inl -> exists c, cs !! i = Some c /\
        (err rot pos (y_normalized y (tc_intr c1) c.1, y_normalized y (tc_intr c2) c.2) < t1 * t2 / (g1 * g2))%R
  | _, _ => (0 < f1)%R /\ (0 < f2)%R /\ exists c1 c2, calibrated_as p1 (Some 1%R) c1 /\ calibrated_as p2 (Some 1%R) c2 /\
      forall i, i ∈ inl -> exists c, cs !! i = Some c /\
        (ferr f1 f2 rot pos (y_normalized y (tc_intr c1) c.1, y_normalized y (tc_intr c2) c.2) < t1 * t2)%R
  end.

(** The point [p] is not behind the camera and is seen at a distance below [max] from the pixel. *)
Definition near (c : two_view_camera) (x : pixel) (p : P) (max : Qc) : Prop :=
  exists e, y_error y c x p = Some e /\ (e < max * max)%Qc.
Definition near_both (ks1 ks2 : list pixel) (c1 c2 : two_view_camera) (max : Qc) (m : nat * nat) (p : P) : Prop :=
  exists k1 k2, ks1 !! m.1 = Some k1 /\ ks2 !! m.2 = Some k2 /\ near c1 k1 p max /\ near c2 k2 p max.
(** [p] is the first point of match [m]: the angle between the rays is large enough and [p] is near. *)
Definition first_point (opts : verify_options) (ks1 ks2 : list pixel) (c1 c2 : two_view_camera) (m : nat * nat) (p : P) : Prop :=
  near_both ks1 ks2 c1 c2 (vo_triangulation opts) m p /\
  exists k1 k2, ks1 !! m.1 = Some k1 /\ ks2 !! m.2 = Some k2 /\ y_midpoint y c1 c2 k1 k2 = Some p /\
    (dot (y_ray y c1 k1) (y_ray y c2 k2) < vo_cos_angle opts)%Qc.

(** [v'] has norm one and the direction of [v], unless [v] is zero. *)
Definition unit_of (v v' : list R) : Prop :=
  exists a b c a' b' c', v = [a; b; c]%R /\ v' = [a'; b'; c']%R /\
    ((a = 0 /\ b = 0 /\ c = 0 /\ v' = v) \/
     exists n, 0 < n /\ a = n * a' /\ b = n * b' /\ c = n * c' /\ a' * a' + b' * b' + c' * c' = 1)%R.

(** What the adjustment makes of the matches [ms]: of those with a first point for the cameras [c1] and [c2], the ones
    that are near their adjusted points in the adjusted cameras remain. *)
Definition adjusted (z : solvers X P) (opts : verify_options) (p1 p2 : prior) (ks1 ks2 : list pixel) (c1 c2 : two_view_camera)
    (ms : list (nat * nat)) (c1' c2' : two_view_camera) (ms' : list (nat * nat)) : Prop :=
  exists tri ps cs ps' kept,
    selects (fun m => exists p, first_point opts ks1 ks2 c1 c2 m p) ms tri /\
    Forall2 (first_point opts ks1 ks2 c1 c2) tri ps /\ seen ks1 ks2 tri cs /\
    z_adjust z (bool_decide (p_focal p1 <> None)) (bool_decide (p_focal p2 <> None)) cs c1 c2 ps = (c1', c2', ps', true) /\
    selects (fun mp => near_both ks1 ks2 c1' c2' (vo_final opts) mp.1 mp.2) (zip tri ps') kept /\ ms' = kept.*1.
End spec.
