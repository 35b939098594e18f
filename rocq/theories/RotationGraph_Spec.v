(** Independent specification for rotations on a view graph. *)
From stdpp Require Import gmap.
From Coq Require Import Reals.
From Verif Require Import ViewGraph_Model Camera_Model RotationGraph_Model.
Open Scope R_scope.

(** The angle of a rotation, in degrees: the trace is 1 + 2 cos. *)
Definition trace (M : mat3) : R := x3 (row0 M) + y3 (row1 M) + z3 (row2 M).
Definition angle_degrees (M : mat3) : R := acos ((trace M - 1) / 2) * (180 / PI).

(** The rotation from the frame of view [a] to that of [b], for an edge in either direction: the stored value belongs to
    the direction from the smaller to the larger id. *)
Definition relative (c : view_graph two_view) (a b : N) (M : mat3) : Prop :=
  exists i, vg_get_edge c a b = Some i /\
    M = if decide (a < b)%N then rot_of_aa (tv_rotation i) else mtrans (rot_of_aa (tv_rotation i)).

(** Going from [a] to [b] to [w] and back to [a] turns by less than [max] degrees. *)
Definition good_cycle (c : view_graph two_view) (max : R) (a b w : N) : Prop :=
  exists M1 M2 M3, relative c a b M1 /\ relative c b w M2 /\ relative c w a M3 /\
    angle_degrees (mmul M3 (mmul M2 M1)) < max.

(** The orientations agree with the relative rotation of [a] and [b] up to [max] degrees: M = R_b R_a^T up to a small
    rotation. *)
Definition agrees (c : view_graph two_view) (orientations : gmap N vec3) (max : R) (a b : N) : Prop :=
  exists M wa wb, relative c a b M /\ orientations !! a = Some wa /\ orientations !! b = Some wb /\
    angle_degrees (mmul (mtrans M) (mmul (rot_of_aa wb) (mtrans (rot_of_aa wa)))) <= max.

(** [c'] is [c] with exactly the edges in [keep] left; no view is removed. *)
Definition restricted (c c' : view_graph two_view) (keep : N -> N -> Prop) : Prop :=
  (forall a b i, vg_get_edge c' a b = Some i <-> vg_get_edge c a b = Some i /\ keep a b) /\
  (forall v, vg_has_view c' v = vg_has_view c v) /\
  (forall v ns', vg_neighbors c' v = Some ns' ->
     forall u, u ∈ ns' <-> vg_has_edge c' v u = true).

(** [T] is a tree of edges of the graph that connects the views in [X]. *)
Definition tree_on (c : view_graph two_view) (X : gset N) (T : gset (N * N)) : Prop :=
  (forall a b, (a, b) ∈ T -> (a < b)%N /\ a ∈ X /\ b ∈ X /\ vg_has_edge c a b = true) /\
  (forall a b, a ∈ X -> b ∈ X -> rtc (fun x y => (x, y) ∈ T \/ (y, x) ∈ T) a b) /\
  S (size T) = size X.

(** The number of verified matches on the edges in [T]. *)
Definition matches (c : view_graph two_view) (e : N * N) : Z :=
  match vg_get_edge c e.1 e.2 with Some i => tv_matches i | None => 0%Z end.
Definition total_matches (c : view_graph two_view) (T : gset (N * N)) : Z :=
  foldr Z.add 0%Z (matches c <$> elements T).
Definition maximum_tree (c : view_graph two_view) (X : gset N) (T : gset (N * N)) : Prop :=
  tree_on c X T /\ forall T', tree_on c X T' -> (total_matches c T' <= total_matches c T)%Z.

(** The orientations of [a] and [b] satisfy R_b = M R_a for the rotation M of the edge. *)
Definition chained (c : view_graph two_view) (orientations : gmap N vec3) (a b : N) : Prop :=
  exists M wa wb, relative c a b M /\ orientations !! a = Some wa /\ orientations !! b = Some wb /\
    rot_of_aa wb = mmul M (rot_of_aa wa).
