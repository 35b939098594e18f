(** Independent specification of nearest-neighbour matching, by feature indices. *)
From stdpp Require Import gmap.
From Verif Require Import Base Matching_Model.

Section spec.
Context {Desc D : Type} (lt : D -> D -> bool) (dist : Desc -> Desc -> D) (ratio : D -> D -> bool).

(** [lt] is a strict total order (distances are not NaN). *)
Definition total_order : Prop :=
  (forall x, lt x x = false) /\
  (forall x y z, lt x y = true -> lt y z = true -> lt x z = true) /\
  (forall x y, lt x y = true \/ x = y \/ lt y x = true).

(** Feature [j] of [others] is nearest to [d]: no other is nearer. *)
Definition nearest (d : Desc) (others : list Desc) (j : nat) : Prop :=
  exists dj, others !! j = Some dj /\
    forall k dk, others !! k = Some dk -> lt (dist d dk) (dist d dj) = false.

(** [j] passes the ratio test: against the nearest of the other features. *)
Definition passes_ratio (d : Desc) (others : list Desc) (j : nat) : Prop :=
  exists dj k dk, others !! j = Some dj /\ k ≠ j /\ others !! k = Some dk /\
    (forall l dl, l ≠ j -> others !! l = Some dl -> lt (dist d dl) (dist d dk) = false) /\
    ratio (dist d dj) (dist d dk) = true.

(** [j] is a nearest feature that passes the tests switched on in the options. *)
Definition acceptable (opt : options) (d : Desc) (others : list Desc) (j : nat) : Prop :=
  nearest d others j /\ (use_lowes_ratio opt = true -> passes_ratio d others j).

(** [j] is the only nearest feature. *)
Definition only_nearest (d : Desc) (others : list Desc) (j : nat) : Prop :=
  nearest d others j /\ forall k, nearest d others k -> k = j.

End spec.
