(** Vocabulary of the camera properties. *)
From stdpp Require Import gmap.
From Coq Require Import Reals.
From Verif Require Import Base Reconstruction_Model Camera_Model.
Local Open Scope R_scope.

(** The position of a world point in the coordinate frame of a camera. *)
Definition in_frame (c : pose) (p : vec3) : vec3 := mapply (rot_of_aa (p_aa c)) (vsub p (p_pos c)).

Definition fisheye (i : intrinsics) : Prop :=
  match i with Fisheye _ _ _ _ _ _ _ _ _ => True | _ => False end.

(** The squared distance of a point (in the frame of the camera) from the optical axis. *)
Definition off_axis2 (p : vec3) : R := x3 p * x3 p + y3 p * y3 p.

(** Pinhole cameras (with or without the tangential terms) whose distortion parameters are zero, and
    whose focal length and aspect ratio are not. *)
Definition ideal_pinhole (i : intrinsics) : Prop :=
  match i with
  | Pinhole f ar _ _ _ k1 k2 => f <> 0 /\ ar <> 0 /\ k1 = 0 /\ k2 = 0
  | RadialTangential f ar _ _ _ k1 k2 k3 t1 t2 =>
      f <> 0 /\ ar <> 0 /\ k1 = 0 /\ k2 = 0 /\ k3 = 0 /\ t1 = 0 /\ t2 = 0
  | _ => False
  end.

(** The point at a given depth along the ray of a pixel. *)
Definition ray_point (i : intrinsics) (c : pose) (q : vec2) (depth : R) : vec3 :=
  vadd (p_pos c) (vscale depth (pixel_ray i c q)).

(** Product of a projection matrix and a homogeneous point. *)
Definition mat34_apply (P : mat34) (X : vec4) : vec3 :=
  vadd (mapply (m_left P) (V3 (x4 X) (y4 X) (z4 X))) (vscale (w4 X) (m_last P)).
Definition mat34_scale (k : R) (P : mat34) : mat34 := M34 (mscale k (m_left P)) (vscale k (m_last P)).

(** Upper triangular calibration matrices with a positive diagonal. *)
Definition calibration (K : mat3) : Prop :=
  x3 (row1 K) = 0 /\ x3 (row2 K) = 0 /\ y3 (row2 K) = 0 /\
  0 < x3 (row0 K) /\ 0 < y3 (row1 K) /\ 0 < z3 (row2 K).

(** Contract of the nearest-rotation projection: it does not move rotations. *)
Definition keeps_rotations (f : mat3 -> mat3) : Prop := forall M, rotation M -> f M = M.
