(** Independent specification of PLY files. *)
From stdpp Require Import gmap strings pretty.
From Verif Require Import Base Reconstruction_Model SfmQueries_Spec.

(** The text of a PLY file with these vertices: the header announces exactly as many as there are. *)
Definition ply_text (vertices : list string) : list string :=
  ["ply"; "format ascii 1.0"; "element vertex " +:+ pretty (N.of_nat (length vertices));
   "property float x"; "property float y"; "property float z"; "property uchar red"; "property uchar green"; "property uchar blue"; "end_header"]
  ++ vertices.

Section spec.
Context {F C D : Type}.
Notation recon := (recon F C D).
Implicit Types r : recon.
(** Track [t] is estimated and seen by at least [min] views. *)
Definition well_observed r (min : Z) (t : N) : Prop :=
  est_track r t /\ exists X : gset N, (min <= Z.of_nat (size X))%Z /\ forall u, u ∈ X <-> sees r u t.
(** The lines are those of the tracks [ts] and of the cameras of the views [us], with the data of [r]. *)
Definition shows r (track_line : D -> string) (view_line : C -> string) (ts us : list N) (lines : list string) : Prop :=
  exists l1 l2, lines = l1 ++ l2 /\
    Forall2 (fun t l => exists T, rc_tracks r !! t = Some T /\ l = track_line (t_data T)) ts l1 /\
    Forall2 (fun u l => exists v, rc_views r !! u = Some v /\ l = view_line (v_data v)) us l2.
End spec.
