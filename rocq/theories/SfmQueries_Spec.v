(** Independent specification of queries and of the changes of the estimated flags. *)
From stdpp Require Import gmap strings.
From Coq Require Import QArith_base Qcanon.
From Verif Require Import Base Reconstruction_Model.

Section spec.
Context {F C D : Type}.
Implicit Types r : recon F C D.

(** Tracks list exactly the views that have a feature of them: what property C08 says of every reachable
    reconstruction. *)
Definition consistent r : Prop := forall u t,
  (exists T, rc_tracks r !! t = Some T /\ u ∈ t_views T) <-> (exists v, rc_views r !! u = Some v /\ is_Some (v_feats v !! t)).

(** View [u] has a feature of track [t]. *)
Definition sees r (u t : N) : Prop := exists v, rc_views r !! u = Some v /\ is_Some (v_feats v !! t).

(** View [u] is estimated; track [t] is estimated. *)
Definition est_view r (u : N) : Prop := exists v, rc_views r !! u = Some v /\ v_est v = true.
Definition est_track r (t : N) : Prop := exists T, rc_tracks r !! t = Some T /\ t_est T = true.

(** Two reconstructions are equal up to the estimated flags of the tracks in [ts]; those are cleared. *)
Definition tracks_cleared r r' (ts : gset N) : Prop :=
  r' = set_tracks r (rc_tracks r') /\
  forall t, rc_tracks r' !! t = (fun T => Track (if decide (t ∈ ts) then false else t_est T) (t_data T) (t_views T)) <$> rc_tracks r !! t.
Definition views_cleared r r' (us : gset N) : Prop :=
  r' = set_views r (rc_views r') /\
  forall u, rc_views r' !! u = (fun v => View (v_name v) (if decide (u ∈ us) then false else v_est v) (v_intr v) (v_data v) (v_feats v)) <$> rc_views r !! u.

(** At least [n] estimated views see track [t]; view [u] sees at least [n] estimated tracks. *)
Definition seen_by r (n : nat) (t : N) : Prop :=
  exists us : gset N, (n <= size us)%nat /\ forall u, u ∈ us -> sees r u t /\ est_view r u.
Definition sees_many r (n : nat) (u : N) : Prop :=
  exists ts : gset N, (n <= size ts)%nat /\ forall t, t ∈ ts -> sees r u t /\ est_track r t.

Section outliers.
  Context (depth : view F C -> D -> Qc) (sq_error : view F C -> D -> F -> Qc) (ray : view F C -> D -> Qc * Qc * Qc).
  Context (max_error cos_min : Qc).

  (** A track is an outlier: the point is behind an estimated view that sees it, or the mean squared error over these
      views is above the square of the threshold, or no two of them see it under a sufficient angle. *)
  Definition behind r (t : N) (T : track D) : Prop :=
    exists u v, u ∈ t_views T /\ rc_views r !! u = Some v /\ v_est v = true /\ (depth v (t_data T) < 0)%Qc.
  Definition error_in r (t : N) (T : track D) (u : N) : Qc :=
    match rc_views r !! u with
    | Some v => match v_feats v !! t with Some f => sq_error v (t_data T) f | None => 0%Qc end
    | None => 0%Qc
    end.
  Definition estimated_observers r (T : track D) : gset N :=
    filter (fun u => (v_est <$> rc_views r !! u) = Some true) (t_views T).
  Definition sum_over (us : gset N) (f : N -> Qc) : Qc := foldr (fun u s => (f u + s)%Qc) 0%Qc (elements us).
  Definition large_error r (t : N) (T : track D) : Prop :=
    let us := estimated_observers r T in
    us <> ∅ /\ (max_error * max_error < sum_over us (error_in r t T) / Q2Qc (Z.of_nat (size us) # 1))%Qc.
  Definition wide r (T : track D) : Prop :=
    exists u1 u2 v1 v2, u1 <> u2 /\ u1 ∈ estimated_observers r T /\ u2 ∈ estimated_observers r T /\
      rc_views r !! u1 = Some v1 /\ rc_views r !! u2 = Some v2 /\
      let a := ray v1 (t_data T) in let b := ray v2 (t_data T) in
      (a.1.1 * b.1.1 + a.1.2 * b.1.2 + a.2 * b.2 < cos_min)%Qc.
  Definition outlier r (t : N) (T : track D) : Prop := behind r t T \/ large_error r t T \/ ~ wide r T.
End outliers.
End spec.
