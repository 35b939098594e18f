(** Independent specification of the relative translation filter. *)
From stdpp Require Import gmap.
From Coq Require Import Reals.
From Verif Require Import ViewGraph_Model Camera_Model RotationGraph_Model.
Open Scope R_scope.

(** [t] is the measured translation from view [a] to view [b] in the world frame.  The value on an edge belongs to the
    direction from the smaller to the larger id, in the frame of the smaller one. *)
Definition direction (c : view_graph two_view) (orientations : gmap N vec3) (a b : N) (t : vec3) : Prop :=
  exists i o, vg_get_edge c a b = Some i /\ orientations !! (N.min a b) = Some o /\
    t = (if decide (a < b)%N then mapply (mtrans (rot_of_aa o)) (tv_position i)
         else vopp (mapply (mtrans (rot_of_aa o)) (tv_position i))).

(** There are positions of the views from which all measured translations come, up to scale. *)
Definition consistent_translations (c : view_graph two_view) (orientations : gmap N vec3) : Prop :=
  exists pos : N -> vec3, forall a b t, direction c orientations a b t ->
    exists s, 0 < s /\ t = vscale s (vsub (pos b) (pos a)).

(** The steps of the closed walk through [v], [rest] and back to [v]. *)
Definition cycle_steps (v : N) (rest : list N) : list (N * N) := zip (v :: rest) (rest ++ [v]).

(** All steps go forward along the axis, by more than [m]: no positions have such translations. *)
Definition forward_cycle (c : view_graph two_view) (orientations : gmap N vec3) (axis : vec3) (m : R) (steps : list (N * N)) : Prop :=
  Forall (fun ab => exists t, direction c orientations ab.1 ab.2 t /\ m < dot t axis) steps.

(** Every edge has an orientation of its first view. *)
Definition oriented (c : view_graph two_view) (orientations : gmap N vec3) : Prop :=
  forall a b, (a < b)%N -> vg_has_edge c a b = true -> is_Some (orientations !! a).

(** How far the step from [a] to [b] goes along the axis against a ranking of the views. *)
Definition penalty (rank : N -> nat) (axis : vec3) (a b : N) (t : vec3) : R :=
  if decide (rank a < rank b)%nat then Rmax 0 (- dot t axis) else Rmax 0 (dot t axis).
