(** Independent specification of camera intrinsics priors. *)
From stdpp Require Import gmap strings.
From Coq Require Import Reals.
From Verif Require Import Base Reconstruction_Model BundleAdjust_Model SfmQueries_Spec BundleAdjust_Spec Priors_Model.

(** The intrinsic parameters of the five camera models and their positions in the parameter array, from the enums in
    pinhole_camera_model.h:86-94, pinhole_radial_tangential_camera_model.h:91-102, fisheye_camera_model.h:67-77,
    fov_camera_model.h:69-75, division_undistortion_camera_model.h:76-82. *)
Inductive parameter := FocalLength | AspectRatio | Skew | PrincipalPointX | PrincipalPointY | Radial1 | Radial2 | Radial3 | Radial4 |
  Tangential1 | Tangential2.
Definition position_of (ty : model_type) (a : parameter) : option nat :=
  match ty, a with
  | _, FocalLength => Some 0
  | _, AspectRatio => Some 1
  | (FOV | DivisionUndistortion), PrincipalPointX => Some 2
  | (FOV | DivisionUndistortion), PrincipalPointY => Some 3
  | (FOV | DivisionUndistortion), Radial1 => Some 4
  | (FOV | DivisionUndistortion), _ => None
  | _, Skew => Some 2
  | _, PrincipalPointX => Some 3
  | _, PrincipalPointY => Some 4
  | _, Radial1 => Some 5
  | _, Radial2 => Some 6
  | (PinholeRadialTangential | Fisheye), Radial3 => Some 7
  | Fisheye, Radial4 => Some 8
  | PinholeRadialTangential, Tangential1 => Some 8
  | PinholeRadialTangential, Tangential2 => Some 9
  | _, _ => None
  end.

(** The value of a parameter of an intrinsics object. *)
Definition value_of (i : intrinsics) (a : parameter) : option R := j ← position_of (i_type i) a; i_params i !! j.

(** What a prior says about a parameter. *)
Definition given (p : prior) (a : parameter) : option R :=
  match a with
  | FocalLength => p_focal p
  | AspectRatio => p_aspect p
  | Skew => p_skew p
  | PrincipalPointX => fst <$> p_point p
  | PrincipalPointY => snd <$> p_point p
  | Radial1 => (fun k => k.1.1.1) <$> p_radial p
  | Radial2 => (fun k => k.1.1.2) <$> p_radial p
  | Radial3 => (fun k => k.1.2) <$> p_radial p
  | Radial4 => (fun k => k.2) <$> p_radial p
  | Tangential1 => fst <$> p_tangential p
  | Tangential2 => snd <$> p_tangential p
  end.

(** The value for a parameter without a prior: a median viewing angle and the image center if the image size is known; the
    distortion of the two models with a single distortion parameter starts from its default. *)
Definition guessed (ty : model_type) (p : prior) (a : parameter) : option R :=
  match a with
  | FocalLength =>
      if decide (p_width p <> 0 /\ p_height p <> 0)%Z
      then Some ((if decide (ty = Fisheye) then 4 / 10 else 12 / 10) * IZR (Z.max (p_width p) (p_height p)))%R else None
  | PrincipalPointX => if decide (p_width p <> 0 /\ p_height p <> 0)%Z then Some (IZR (p_width p) / 2)%R else None
  | PrincipalPointY => if decide (p_width p <> 0 /\ p_height p <> 0)%Z then Some (IZR (p_height p) / 2)%R else None
  | Radial1 => match ty with FOV => Some (75 / 100)%R | DivisionUndistortion => Some 0%R | _ => None end
  | _ => None
  end.

(** [ps'] are parameters of the model [ty] that agree with the prior; what it does not determine is as in [ps]. *)
Definition agrees (ty : model_type) (p : prior) (ps ps' : list R) : Prop :=
  length ps' = num_parameters ty /\
  forall a j, position_of ty a = Some j ->
    ps' !! j = match given p a with Some x => Some x | None => match guessed ty p a with Some x => Some x | None => ps !! j end end.

(** The name of a model; the focal length of the prior or the guessed one is positive. *)
Definition names_model (p : prior) (ty : model_type) : Prop :=
  p_model p = match ty with
              | Pinhole => "PINHOLE" | PinholeRadialTangential => "PINHOLE_RADIAL_TANGENTIAL" | Fisheye => "FISHEYE"
              | FOV => "FOV" | DivisionUndistortion => "DIVISION_UNDISTORTION" end%string.
Definition positive_focal (p : prior) : Prop :=
  match p_focal p with
  | Some f => (0 < f)%R
  | None => (p_width p = 0 \/ p_height p = 0 \/ 0 < p_width p \/ 0 < p_height p)%Z
  end.
Definition usable (p : prior) : Prop := positive_focal p /\ exists ty, names_model p ty.

Section spec.
Context {F : Type}.
Notation recon := (recon F (list R) (list R)).

(** Every intrinsics object has been created before. *)
Definition created (r : recon) (h : gmap N intrinsics) : Prop := forall p, is_Some (h !! p) -> (p < rc_next_ptr r)%N.

(** [r'] is [r] with other intrinsics of the views. *)
Definition same_but_intrinsics (r r' : recon) : Prop :=
  rc_next_track r' = rc_next_track r /\ rc_next_view r' = rc_next_view r /\ rc_next_group r' = rc_next_group r /\
  rc_names r' = rc_names r /\ rc_tracks r' = rc_tracks r /\ rc_view_group r' = rc_view_group r /\ rc_groups r' = rc_groups r /\
  forall u, option_Forall2 (fun v v' => v_name v' = v_name v /\ v_est v' = v_est v /\ v_data v' = v_data v /\ v_feats v' = v_feats v)
              (rc_views r !! u) (rc_views r' !! u).

(** The intrinsics of view [u]. *)
Definition intrinsics_of (r : recon) (h : gmap N intrinsics) (u : N) (i : intrinsics) : Prop :=
  exists v, rc_views r !! u = Some v /\ h !! v_intr v = Some i.

(** What the intrinsics of a group start from: those of its views if the model stays the same, otherwise the default
    parameters of the new model (focal length and aspect ratio 1, no distortion). *)
Definition starts_from (i : intrinsics) (ty : model_type) : list R :=
  if decide (i_type i = ty) then i_params i
  else match ty with FOV => [1; 1; 0; 0; 75 / 100] | _ => 1 :: 1 :: replicate (num_parameters ty - 2) 0 end%R.

(** The intrinsics of group [g] come from the prior of view [rep], which is one of its estimated views if there are any. *)
Definition set_from_view (priors : N -> prior) (r : recon) (h : gmap N intrinsics) (r' : recon) (h' : gmap N intrinsics)
    (s' : gmap N (Z * Z)) (g rep : N) : Prop :=
  rc_view_group r !! rep = Some g /\
  ((exists u, rc_view_group r !! u = Some g /\ est_view r u) -> est_view r rep) /\
  forall u, rc_view_group r !! u = Some g ->
    s' !! u = Some (p_width (priors rep), p_height (priors rep)) /\
    exists i ty ps', intrinsics_of r h u i /\ names_model (priors rep) ty /\ intrinsics_of r' h' u (Intrinsics ty ps') /\
      agrees ty (priors rep) (starts_from i ty) ps'.
End spec.
