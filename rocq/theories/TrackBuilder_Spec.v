(** Independent specification of track building. *)
From stdpp Require Import gmap.
From Verif Require Import Base ConnectedComponents_Spec.

Section spec.
Context {F : Type}.

(** A correspondence joins two image features: (view, feature) pairs. *)
Definition corr := ((N * F) * (N * F))%type.

(** [k] occurs in a correspondence. *)
Definition occurs (cs : list corr) (k : N * F) : Prop := exists e, e ∈ cs /\ (k = e.1 \/ k = e.2).

(** Joined by a chain of correspondences. *)
Definition chained (cs : list corr) : N * F -> N * F -> Prop :=
  rtc (fun k k' => (k, k') ∈ cs \/ (k', k) ∈ cs).

(** [names] lists image features without repetition; [es] are the correspondences, with the position of
    an image feature in that list in place of the image feature. *)
Definition numbering (cs : list corr) (names : list (N * F)) (es : list (N * N)) : Prop :=
  NoDup names /\
  Forall2 (fun (c : corr) (e : N * N) =>
    names !! N.to_nat e.1 = Some c.1 /\ names !! N.to_nat e.2 = Some c.2) cs es.

(** [tr] holds, for every view that has a feature in the component [X], exactly one of those features. *)
Definition one_per_view (names : list (N * F)) (X : gset N) (tr : list (N * F)) : Prop :=
  NoDup tr.*1 /\
  (forall k, k ∈ tr -> exists i, i ∈ X /\ names !! N.to_nat i = Some k) /\
  (forall i k, i ∈ X -> names !! N.to_nat i = Some k -> k.1 ∈ tr.*1).

(** The tracks of a list of correspondences: one for each connected component (grown edge by edge, no
    larger than [max]) with at least [min] image features. *)
Definition are_tracks (min max : N) (cs : list corr) (tracks : list (list (N * F))) : Prop :=
  exists names es Xs, numbering cs names es /\ NoDup Xs /\
    (forall X, X ∈ Xs <-> X ∈ spec_adds max es /\ (min <= N.of_nat (size X))%N) /\
    Forall2 (one_per_view names) Xs tracks.

End spec.
Arguments corr F : clear implicits.
