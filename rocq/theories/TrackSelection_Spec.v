(** Independent specification of the choice of tracks for bundle adjustment. *)
From stdpp Require Import gmap.
From Coq Require Import QArith_base Qcanon.
From Verif Require Import Base Reconstruction_Model SfmQueries_Spec.

Section spec.
Context {F C D : Type}.
Implicit Types r : recon F C D.

(** At least [n] of the tracks in [S] are estimated tracks seen by view [u]. *)
Definition covered r (S : gset N) (u : N) (n : nat) : Prop :=
  exists X : gset N, (n <= size X)%nat /\ forall t, t ∈ X -> t ∈ S /\ sees r u t /\ est_track r t.

(** The feature of track [t] in view [u] is [f]. *)
Definition feature_is r (u t : N) (f : F) : Prop := exists v, rc_views r !! u = Some v /\ v_feats v !! t = Some f.

(** [x] lies in cell number [i] of a line divided into cells of width [w]; the cell 0 reaches to both sides because
    the conversion to an integer rounds towards zero. *)
Definition in_cell (w x : Qc) (i : Z) : Prop :=
  let y := (x / w)%Qc in
  if decide (0 < i)%Z then (Q2Qc (i # 1) <= y)%Qc /\ (y < Q2Qc ((i + 1) # 1))%Qc
  else if decide (i < 0)%Z then (Q2Qc ((i - 1) # 1) < y)%Qc /\ (y <= Q2Qc (i # 1))%Qc
  else (Q2Qc ((-1) # 1) < y)%Qc /\ (y < Q2Qc (1 # 1))%Qc.
Definition feature_in_cell (pos : F -> Qc * Qc) (size : Z) (f : F) (c : Z * Z) : Prop :=
  in_cell (Q2Qc (size # 1)) (pos f).1 c.1 /\ in_cell (Q2Qc (size # 1)) (pos f).2 c.2.

(** The number of estimated views that see a track, and the mean of the squared errors in them. *)
Definition track_length r (t : N) (n : nat) : Prop :=
  exists T, rc_tracks r !! t = Some T /\ n = size (estimated_observers r T).
Definition mean_error (sq_error : view F C -> D -> F -> Qc) r (t : N) (e : Qc) : Prop :=
  exists T, rc_tracks r !! t = Some T /\
    let us := estimated_observers r T in
    e = (sum_over us (error_in sq_error r t T) / Q2Qc (Z.of_nat (size us) # 1))%Qc.

(** A track is better than another: longer (lengths above the threshold count as equal), or equally long and with a
    smaller error. *)
Definition better (sq_error : view F C -> D -> F -> Qc) r (threshold : Z) (t t' : N) : Prop :=
  exists n n' e e', track_length r t n /\ track_length r t' n' /\ mean_error sq_error r t e /\ mean_error sq_error r t' e' /\
    ((Z.min (Z.of_nat n') threshold < Z.min (Z.of_nat n) threshold)%Z \/ (Z.min (Z.of_nat n') threshold = Z.min (Z.of_nat n) threshold /\ (e < e')%Qc)).
(** What the program computes instead: shorter first. *)
Definition shorter (sq_error : view F C -> D -> F -> Qc) r (threshold : Z) (t t' : N) : Prop :=
  exists n n' e e', track_length r t n /\ track_length r t' n' /\ mean_error sq_error r t e /\ mean_error sq_error r t' e' /\
    ((Z.min (Z.of_nat n) threshold < Z.min (Z.of_nat n') threshold)%Z \/ (Z.min (Z.of_nat n) threshold = Z.min (Z.of_nat n') threshold /\ (e < e')%Qc)).
End spec.
