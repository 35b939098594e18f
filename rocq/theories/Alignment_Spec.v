(** Independent specification of alignment: the squared distance that is minimized, the contract of the singular
    value decomposition. *)
From stdpp Require Import gmap strings.
From Coq Require Import Reals.
From Verif Require Import Base Reconstruction_Model Camera_Model Alignment_Model.
Local Open Scope R_scope.

Definition Rsum {A} (f : A -> R) (l : list A) : R := foldr (fun a s => f a + s) 0 l.

(** The point [p] moved by scale, rotation and translation. *)
Definition move (s : R) (Rot : mat3) (t p : vec3) : vec3 := vadd (vscale s (mapply Rot p)) t.
Definition sqdist (a b : vec3) : R := dot (vsub a b) (vsub a b).

(** The weighted sum of squared distances between the right points and the moved left points. *)
Definition misfit (ps : list (vec3 * vec3 * R)) (s : R) (Rot : mat3) (t : vec3) : R :=
  Rsum (fun p => p.2 * sqdist p.1.2 (move s Rot t p.1.1)) ps.

(** A singular value decomposition of [A]: orthogonal U and V and ordered non-negative singular values with
    A = U diag(S) V^T. *)
Definition orthogonal (M : mat3) : Prop := mmul M (mtrans M) = mid.
Definition is_svd (A : mat3) (d : mat3 * vec3 * mat3) : Prop :=
  let '(U, sv, V) := d in
  orthogonal U /\ orthogonal V /\ 0 <= z3 sv <= y3 sv /\ y3 sv <= x3 sv /\
  A = mmul (mmul U (diag3 (x3 sv) (y3 sv) (z3 sv))) (mtrans V).
Definition svd_contract (svd : mat3 -> mat3 * vec3 * mat3) : Prop := forall A, is_svd A (svd A).

(** Three points that are not on a line. *)
Definition not_collinear (a b c : vec3) : Prop := cross (vsub b a) (vsub c a) <> V3 0 0 0.

(** The two clouds and the weights can be aligned: same sizes, not empty, no negative weight, some positive weight. *)
Definition alignable (left right : list vec3) (weights : list R) : Prop :=
  length left = length right /\ length left = length weights /\ left <> [] /\
  Forall (fun w => 0 <= w) weights /\ Exists (fun w => 0 < w) weights.
(** All points that count are the same. *)
Definition coincident (left : list vec3) (weights : list R) : Prop :=
  exists c, forall i l w, left !! i = Some l -> weights !! i = Some w -> 0 < w -> l = c.

(** The position of the view with a given name. *)
Definition position {F} (r : recon F pose vec4) (n : string) (p : vec3) : Prop :=
  exists u v, rc_views r !! u = Some v /\ v_name v = n /\ p = p_pos (v_data v).
