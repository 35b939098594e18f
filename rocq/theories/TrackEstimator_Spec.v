(** Independent specification of the triangulation of tracks. *)
From stdpp Require Import gmap.
From Coq Require Import QArith_base Qcanon.
From Verif Require Import Base Reconstruction_Model SfmQueries_Spec TrackEstimator_Model.

Section spec.
Context {F C D : Type} (g : geometry F C D) (opts : est_options).
Implicit Types r : recon F C D.

(** The observations of a track in estimated views, in the iteration order [o]. *)
Definition observation r (t u : N) : option (view F C * F) :=
  v ← rc_views r !! u; if v_est v then f ← v_feats v !! t; Some (v, f) else None.
Definition observations (o : order N) r (t : N) (T : track D) : list (view F C * F) :=
  omap (observation r t) (o (elements (t_views T))).

(** A pair of observations has a large enough angle. *)
Definition wide_angle (obs : list (view F C * F)) : Prop :=
  exists i j a b, (i < j)%nat /\ obs !! i = Some a /\ obs !! j = Some b /\
    let x := g_ray g a.1 a.2 in let y := g_ray g b.1 b.2 in
    (x.1.1 * y.1.1 + x.1.2 * y.1.2 + x.2 * y.2 < eo_cos_min opts)%Qc.
(** The point is in front of all cameras and the mean squared error is below the square of the threshold. *)
Definition fits (d : D) (obs : list (view F C * F)) : Prop :=
  (forall vf, vf ∈ obs -> ~ (g_depth g vf.1 d < 0)%Qc) /\
  (foldr (fun vf s => g_error g vf.1 d vf.2 + s)%Qc 0%Qc obs / Q2Qc (Z.of_nat (length obs) # 1) < eo_max_error opts * eo_max_error opts)%Qc.

(** The track [T] number [t] may become [T'], with success [b]. *)
Inductive estimation (o : order N) r (t : N) (T : track D) : track D -> bool -> Prop :=
| est_few : (length (observations o r t T) < 2)%nat \/ ~ wide_angle (observations o r t T) -> estimation o r t T T false
| est_failed : (2 <= length (observations o r t T))%nat -> wide_angle (observations o r t T) ->
    g_triangulate g (observations o r t T) = None -> estimation o r t T T false
| est_not_adjusted d d' : (2 <= length (observations o r t T))%nat -> wide_angle (observations o r t T) ->
    g_triangulate g (observations o r t T) = Some d -> eo_adjust opts = true ->
    g_adjust g (observations o r t T) d = (d', false) -> estimation o r t T (Track false d' (t_views T)) false
| est_tested d d' b : (2 <= length (observations o r t T))%nat -> wide_angle (observations o r t T) ->
    g_triangulate g (observations o r t T) = Some d ->
    (if eo_adjust opts then g_adjust g (observations o r t T) d = (d', true) else d' = d) ->
    (b = true <-> fits d' (observations o r t T)) -> estimation o r t T (Track b d' (t_views T)) b.
End spec.
