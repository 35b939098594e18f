(** Independent specification of importing NVM files. *)
From stdpp Require Import gmap strings.
From Verif Require Import Base Reconstruction_Model.

Section spec.
Context {F C D : Type}.
Notation recon := (recon F C D).

(** [r] is the content of the file: its views are the cameras, its tracks the points, all estimated, and its features are
    exactly the measurements of the points. *)
Definition is_content (cameras : list (string * C)) (points : list D) (meas : list (F * nat * nat)) (r : recon) : Prop :=
  (forall u v, rc_views r !! u = Some v -> exists i, u = N.of_nat i /\ cameras !! i = Some (v_name v, v_data v) /\ v_est v = true /\
     forall t f, v_feats v !! t = Some f <-> exists j, t = N.of_nat j /\ (j < length points)%nat /\ (f, j, i) ∈ meas) /\
  (forall i, (i < length cameras)%nat -> is_Some (rc_views r !! N.of_nat i)) /\
  (forall t tr, rc_tracks r !! t = Some tr -> exists j, t = N.of_nat j /\ points !! j = Some (t_data tr) /\ t_est tr = true /\
     forall u, u ∈ t_views tr <-> exists i f, u = N.of_nat i /\ (f, j, i) ∈ meas) /\
  (forall j, (j < length points)%nat -> is_Some (rc_tracks r !! N.of_nat j)).
End spec.
