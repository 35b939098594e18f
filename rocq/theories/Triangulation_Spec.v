(** Independent specification of triangulation: images of a point, errors that are minimized, angle of two rays. *)
From stdpp Require Import gmap strings.
From Coq Require Import Reals.
From Verif Require Import Base Camera_Model Camera_Spec Alignment_Model Alignment_Spec Epipolar_Spec.
Local Open Scope R_scope.

Definition dot4 (X Y : vec4) : R := x4 X * x4 Y + y4 X * y4 Y + z4 X * z4 Y + w4 X * w4 Y.
Definition scale4 (k : R) (X : vec4) : vec4 := V4 (k * x4 X) (k * y4 X) (k * z4 X) (k * w4 X).
Definition unit4 (X : vec4) : Prop := dot4 X X = 1.

(** [p] is the image of the homogeneous point [X]: the projection is a multiple of (p, 1). *)
Definition image (P : mat34) (X : vec4) (p : vec2) : Prop := exists s, mat34_apply P X = vscale s (point_h p).
(** [c] is the center of the camera [P], the only point without image. *)
Definition camera_at (P : mat34) (c : vec3) : Prop := det3 (m_left P) <> 0 /\ vadd (mapply (m_left P) c) (m_last P) = V3 0 0 0.
(** The homogeneous point [X] is not on the line through [c1] and [c2], which are different. *)
Definition off_baseline (X : vec4) (c1 c2 : vec3) : Prop :=
  cross (vsub (V3 (x4 X) (y4 X) (z4 X)) (vscale (w4 X) c1)) (vsub c2 c1) <> V3 0 0 0.
(** [v] is the point [X] with length 1. *)
Definition same_point (v X : vec4) : Prop := unit4 v /\ exists k, v = scale4 k X.

(** The error of the point [X] for the measured image [p], of the equations x Z = X and y Z = Y. *)
Definition dlt_error (P : mat34) (p : vec2) (X : vec4) : R :=
  let v := mat34_apply P X in
  (x2 p * z3 v - x3 v) * (x2 p * z3 v - x3 v) + (y2 p * z3 v - y3 v) * (y2 p * z3 v - y3 v).
(** Sum of the squared distances of the projections of [X] from points of the rays of the measured images, with the
    given parameters. *)
Definition view_error (views : list (mat34 * vec2)) (params : list R) (X : vec4) : R :=
  Rsum (fun v => sqdist (mat34_apply v.1.1 X) (vscale v.2 (point_h v.1.2))) (zip views params).
(** Sum of the squared distances of [p] from points of the rays with the given parameters. *)
Definition ray_error (rays : list (vec3 * vec3)) (params : list R) (p : vec3) : R :=
  Rsum (fun r => sqdist p (vadd r.1.1 (vscale r.2 r.1.2))) (zip rays params).
(** All directions are multiples of one vector. *)
Definition parallel_rays (directions : list vec3) : Prop := exists v, v <> V3 0 0 0 /\ Forall (fun d => cross v d = V3 0 0 0) directions.

(** The angle, in degrees from 0 to 180, between two unit vectors. *)
Definition angle_degrees (a b : vec3) (t : R) : Prop := 0 <= t <= 180 /\ dot a b = cos (t * PI / 180).
