(** Model of the camera intrinsics priors: CameraIntrinsicsPrior (/repo/src/theia/sfm/camera_intrinsics_prior.h),
    SetFromCameraIntrinsicsPriors and CameraIntrinsicsPriorFromIntrinsics of the five camera models and of Camera
    (/repo/src/theia/sfm/camera/*.cc), the copies of a Camera (camera.cc:78-118), and SetCameraIntrinsicsFromPriors
    (/repo/src/theia/sfm/set_camera_intrinsics_from_priors.cc).

    doubles are reals.  Intrinsics objects live in the heap of the model of bundle adjustment; a new object gets the
    identity [rc_next_ptr] of the model of Reconstruction.  An object that is no longer used stays in the heap. *)
From stdpp Require Import gmap strings.
From Coq Require Import Reals.
From Verif Require Import Base Reconstruction_Model BundleAdjust_Model.

(** camera_intrinsics_prior.h:49-97.  A Prior<N> that is not set is [None]: its values are never read.  The priors for
    the extrinsics and the GPS priors are not modelled: none of the functions here reads them. *)
Record prior := Prior {
  p_width : Z; p_height : Z; p_model : string; p_focal : option R; p_point : option (R * R); p_aspect : option R; p_skew : option R;
  p_radial : option (R * R * R * R); p_tangential : option (R * R) }.

(** camera_intrinsics_model_type.h:56-73. *)
Definition type_of_string (s : string) : outcome model_type :=
  if decide (s = "PINHOLE") then Ok Pinhole
  else if decide (s = "PINHOLE_RADIAL_TANGENTIAL") then Ok PinholeRadialTangential
  else if decide (s = "FISHEYE") then Ok Fisheye
  else if decide (s = "FOV") then Ok FOV
  else if decide (s = "DIVISION_UNDISTORTION") then Ok DivisionUndistortion
  else CheckFail.

(** 75-95.  (INVALID is not a value of [model_type]: no object has it as its type.) *)
Definition string_of_type (ty : model_type) : string :=
  match ty with
  | Pinhole => "PINHOLE" | PinholeRadialTangential => "PINHOLE_RADIAL_TANGENTIAL" | Fisheye => "FISHEYE"
  | FOV => "FOV" | DivisionUndistortion => "DIVISION_UNDISTORTION"
  end.

(** fov_camera_model.h:144. *)
Definition kDefaultOmega : R := (3 / 4)%R.

(** The constructors: pinhole_camera_model.cc:56-65, pinhole_radial_tangential_camera_model.cc:56-68,
    fisheye_camera_model.cc:56-67, fov_camera_model.cc:56-62, division_undistortion_camera_model.cc:56-62;
    camera_intrinsics_model.cc:49-73, Create. *)
Definition create (ty : model_type) : intrinsics :=
  Intrinsics ty
    match ty with
    | Pinhole => [1; 1; 0; 0; 0; 0; 0]
    | PinholeRadialTangential => [1; 1; 0; 0; 0; 0; 0; 0; 0; 0]
    | Fisheye => [1; 1; 0; 0; 0; 0; 0; 0; 0]
    | FOV => [1; 1; 0; 0; kDefaultOmega]
    | DivisionUndistortion => [1; 1; 0; 0; 0]
    end%R.

(** camera_intrinsics_model.cc:192-206, SetFocalLength. *)
Definition set_focal_length (f : R) (ps : list R) : outcome (list R) :=
  if Rlt_dec 0 f then Ok (<[0%nat := f]> ps) else CheckFail.

(** 224-237, SetPrincipalPoint, with the indices of the enums InternalParametersIndex of the five headers. *)
Definition set_principal_point (ty : model_type) (x y : R) (ps : list R) : list R :=
  match ty with
  | FOV | DivisionUndistortion => <[3%nat := y]> (<[2%nat := x]> ps)
  | _ => <[4%nat := y]> (<[3%nat := x]> ps)
  end.

(** The scale of the largest image dimension: fisheye_camera_model.cc:83-89, and line 80 of the others. *)
Definition focal_scale (ty : model_type) : R := match ty with Fisheye => 2 / 5 | _ => 6 / 5 end%R.

Definition has_size (p : prior) : bool := negb (bool_decide (p_width p = 0)%Z) && negb (bool_decide (p_height p = 0)%Z).

(** SetFromCameraIntrinsicsPriors: pinhole_camera_model.cc:74-107, pinhole_radial_tangential_camera_model.cc:79-119,
    fisheye_camera_model.cc:76-115, fov_camera_model.cc:72-101, division_undistortion_camera_model.cc:74-103. *)
Definition set_focal_prior (ty : model_type) (p : prior) (ps : list R) : outcome (list R) :=
  match p_focal p with
  | Some f => set_focal_length f ps
  | None => if has_size p then set_focal_length (focal_scale ty * IZR (Z.max (p_width p) (p_height p))) ps else Ok ps
  end.
Definition set_other_priors (ty : model_type) (p : prior) (ps : list R) : list R :=
  let ps := match p_point p with
            | Some (x, y) => set_principal_point ty x y ps
            | None => if has_size p then set_principal_point ty (IZR (p_width p) / 2) (IZR (p_height p) / 2) ps else ps
            end in
  let ps := match p_aspect p with Some a => <[1%nat := a]> ps | None => ps end in
  let ps := match ty, p_skew p with
            | (Pinhole | PinholeRadialTangential | Fisheye), Some s => <[2%nat := s]> ps
            | _, _ => ps
            end in
  let ps := match ty, p_radial p with
            | Pinhole, Some (k1, k2, _, _) => <[6%nat := k2]> (<[5%nat := k1]> ps)
            | PinholeRadialTangential, Some (k1, k2, k3, _) => <[7%nat := k3]> (<[6%nat := k2]> (<[5%nat := k1]> ps))
            | Fisheye, Some (k1, k2, k3, k4) => <[8%nat := k4]> (<[7%nat := k3]> (<[6%nat := k2]> (<[5%nat := k1]> ps)))
            | (FOV | DivisionUndistortion), Some (k1, _, _, _) => <[4%nat := k1]> ps
            | FOV, None => <[4%nat := kDefaultOmega]> ps
            | DivisionUndistortion, None => <[4%nat := 0%R]> ps
            | _, None => ps
            end in
  let ps := match ty, p_tangential p with
            | PinholeRadialTangential, Some (t1, t2) => <[9%nat := t2]> (<[8%nat := t1]> ps)
            | _, _ => ps
            end in
  ps.
Definition set_from_prior (ty : model_type) (p : prior) (ps : list R) : outcome (list R) :=
  ps ← set_focal_prior ty p ps;
  Ok (set_other_priors ty p ps).

(** CameraIntrinsicsPriorFromIntrinsics: pinhole_camera_model.cc:109-128, pinhole_radial_tangential_camera_model.cc:121-145,
    fisheye_camera_model.cc:117-138, fov_camera_model.cc:103-119, division_undistortion_camera_model.cc:105-121.  Unset
    values of a Prior are zero (camera_intrinsics_prior.h:53). *)
Definition prior_of_intrinsics (i : intrinsics) : prior :=
  let ps := i_params i in
  let g (j : nat) : R := default 0%R (ps !! j) in
  match i_type i with
  | Pinhole =>
      Prior 0 0 (string_of_type Pinhole) (Some (g 0)) (Some (g 3, g 4)) (Some (g 1)) (Some (g 2)) (Some (g 5, g 6, 0%R, 0%R)) None
  | PinholeRadialTangential =>
      Prior 0 0 (string_of_type PinholeRadialTangential) (Some (g 0)) (Some (g 3, g 4)) (Some (g 1)) (Some (g 2))
        (Some (g 5, g 6, g 7, 0%R)) (Some (g 8, g 9))
  | Fisheye =>
      Prior 0 0 (string_of_type Fisheye) (Some (g 0)) (Some (g 3, g 4)) (Some (g 1)) (Some (g 2)) (Some (g 5, g 6, g 7, g 8)) None
  | FOV =>
      Prior 0 0 (string_of_type FOV) (Some (g 0)) (Some (g 2, g 3)) (Some (g 1)) None (Some (g 4, 0%R, 0%R, 0%R)) None
  | DivisionUndistortion =>
      Prior 0 0 (string_of_type DivisionUndistortion) (Some (g 0)) (Some (g 2, g 3)) (Some (g 1)) None (Some (g 4, 0%R, 0%R, 0%R)) None
  end%nat.

(** camera.h: the data members of a Camera. *)
Record camera := Camera { c_extrinsics : list R; c_intr : N; c_size : Z * Z }.

(** camera.cc:133-139, Camera::CameraIntrinsicsPriorFromIntrinsics. *)
Definition prior_of_camera (h : gmap N intrinsics) (c : camera) : outcome prior :=
  i ← or_ub (h !! c_intr c);
  let p := prior_of_intrinsics i in
  Ok (Prior (c_size c).1 (c_size c).2 (p_model p) (p_focal p) (p_point p) (p_aspect p) (p_skew p) (p_radial p) (p_tangential p)).

(** camera.cc:120-131, Camera::SetFromCameraIntrinsicsPriors; [next] is the identity of the next object that is created. *)
Definition set_camera_from_prior (p : prior) (h : gmap N intrinsics) (next : N) (c : camera)
    : outcome (gmap N intrinsics * N * camera) :=
  ty ← type_of_string (p_model p);
  i ← or_ub (h !! c_intr c);
  let '(next', ptr, i) := if decide (i_type i = ty) then (next, c_intr c, i) else ((next + 1)%N, next, create ty) in
  ps ← set_from_prior (i_type i) p (i_params i);
  Ok (<[ptr := Intrinsics (i_type i) ps]> h, next', Camera (c_extrinsics c) ptr (p_width p, p_height p)).

(** camera.cc:78-97, copy and assignment: the intrinsics are shared. *)
Definition copy_camera (c : camera) : camera := Camera (c_extrinsics c) (c_intr c) (c_size c).

(** 99-118, DeepCopy. *)
Definition deep_copy (h : gmap N intrinsics) (next : N) (c : camera) : outcome (gmap N intrinsics * N * camera) :=
  i ← or_ub (h !! c_intr c);
  Ok (<[next := Intrinsics (i_type (create (i_type i))) (i_params i)]> h, (next + 1)%N, Camera (c_extrinsics c) next (c_size c)).

Section model.
Context {F : Type}.
Notation recon := (recon F (list R) (list R)).

(** The cameras of the views: the image sizes are kept in [sizes]. *)
Definition state : Type := recon * gmap N intrinsics * gmap N (Z * Z).

Definition view_camera (s : gmap N (Z * Z)) (u : N) (v : view F (list R)) : camera :=
  Camera (v_data v) (v_intr v) (default (0, 0)%Z (s !! u)).
Definition set_view_intr (r : recon) (u ptr : N) : recon :=
  set_views r (alter (fun v => View (v_name v) (v_est v) ptr (v_data v) (v_feats v)) u (rc_views r)).
Definition set_next_ptr (r : recon) (next : N) : recon :=
  Recon (rc_next_track r) (rc_next_view r) (rc_next_group r) (rc_names r) (rc_views r) (rc_tracks r) (rc_view_group r) (rc_groups r) next.

(** set_camera_intrinsics_from_priors.cc:49-74, InitializeRepresentativeCameraInGroup: the loop, with [rep] the
    representative so far. *)
Fixpoint representative (r : recon) (rep : N) (l : list N) : N :=
  match l with
  | [] => rep
  | u :: l =>
      match rc_views r !! u with
      | None => representative r rep l
      | Some v => if v_est v then u else representative r u l
      end
  end.

(** 109-123, the other views of the group. *)
Definition share_step (rep ptr : N) (size : Z * Z) (st : recon * gmap N (Z * Z)) (u : N) : recon * gmap N (Z * Z) :=
  match rc_views st.1 !! u with
  | None => st
  | Some _ => if decide (rep = u) then st else (set_view_intr st.1 u ptr, <[u := size]> st.2)
  end.

(** 86-124, one group; [priors] are the priors of the views, [ov] the iteration order of the group. *)
Definition group_step (ov : N -> order N) (priors : N -> prior) (st : state) (g : N) : outcome state :=
  let '(r, h, s) := st in
  let l := ov g (elements (rc_groups r !!! g)) in
  let rep := representative r kInvalidId l in
  v ← or_ub (rc_views r !! rep);
  '(h, next, c) ← set_camera_from_prior (priors rep) h (rc_next_ptr r) (view_camera s rep v);
  let r := set_next_ptr (set_view_intr r rep (c_intr c)) next in
  let s := <[rep := c_size c]> s in
  let '(r, s) := foldl (share_step rep (c_intr c) (c_size c)) (r, s) l in
  Ok (r, h, s).

(** 82-125, SetCameraIntrinsicsFromPriors. *)
Definition set_intrinsics_from_priors (og : order N) (ov : N -> order N) (priors : N -> prior) (st : state) : outcome state :=
  run_steps (group_step ov priors) st (og (elements (dom (rc_groups st.1.1)))).
End model.
