(** Independent specification of two-view geometry: epipolar constraint, correspondences of a point in front of both
    cameras, closest points of two rays, distance of matrices. *)
From stdpp Require Import gmap strings.
From Coq Require Import Reals.
From Verif Require Import Base Camera_Model Camera_Spec Alignment_Model Alignment_Spec.
Local Open Scope R_scope.

(** y^T F x. *)
Definition epipolar (F : mat3) (x y : vec3) : R := dot y (mapply F x).
(** The image point [p] as a homogeneous vector, moved by an offset that does not touch the third coordinate. *)
Definition point_h (p : vec2) : vec3 := V3 (x2 p) (y2 p) 1.
Definition offset_h (d : vec2) : vec3 := V3 (x2 d) (y2 d) 0.
(** The constraint y^T F x = 0, to first order in the offsets [dx] and [dy] of the two points. *)
Definition first_order (F : mat3) (x y dx dy : vec2) : R :=
  epipolar F (point_h x) (point_h y) + epipolar F (offset_h dx) (point_h y) + epipolar F (point_h x) (offset_h dy).

(** The matrix of the map v |-> t x v, the essential matrix of the motion X |-> R X + t. *)
Definition skew (t : vec3) : mat3 := M3 (V3 0 (- z3 t) (y3 t)) (V3 (z3 t) 0 (- x3 t)) (V3 (- y3 t) (x3 t) 0).
Definition essential (Rot : mat3) (t : vec3) : mat3 := mmul (skew t) Rot.
(** The vector of length 1 in the direction of [v]. *)
Definition unit_of (v : vec3) : vec3 := vscale (/ sqrt (dot v v)) v.

(** [f1] and [f2] are the images of a point in front of two calibrated cameras, the first at the origin and the second
    with orientation [Rot] at [c].  The point is not on the line through the cameras. *)
Definition seen_by_both (Rot : mat3) (c : vec3) (f : vec2 * vec2) : Prop :=
  exists X, 0 < z3 X /\ perspective X = f.1 /\
    0 < z3 (mapply Rot (vsub X c)) /\ perspective (mapply Rot (vsub X c)) = f.2 /\ cross X c <> V3 0 0 0.

(** The points with parameters [z1] and [z2] on the rays from the origin with direction [d1] and from [p] with
    direction [d2] are closest to each other. *)
Definition closest (d1 p d2 : vec3) (z1 z2 : R) : Prop :=
  forall s1 s2, sqdist (vscale z1 d1) (vadd p (vscale z2 d2)) <= sqdist (vscale s1 d1) (vadd p (vscale s2 d2)).

(** Squared Frobenius distance of two matrices. *)
Definition mdist (A B : mat3) : R := sqdist (row0 A) (row0 B) + sqdist (row1 A) (row1 B) + sqdist (row2 A) (row2 B).
Definition nearest_rotation (M Rot : mat3) : Prop :=
  rotation Rot /\ forall Rot', rotation Rot' -> mdist Rot M <= mdist Rot' M.
Definition farthest_rotation (M Rot : mat3) : Prop :=
  rotation Rot /\ forall Rot', rotation Rot' -> mdist Rot' M <= mdist Rot M.

(** The camera with projection matrix [R | t] is at -R^T t. *)
Definition center (P : mat34) : vec3 := vopp (mapply (mtrans (m_left P)) (m_last P)).

(** The rotation by 180 degrees about the direction of [t]. *)
Definition half_turn (t : vec3) : mat3 := madd (mscale 2 (outer (unit_of t) (unit_of t))) (mscale (-1) mid).
