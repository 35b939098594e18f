(** Independent specification of NVM files. *)
From stdpp Require Import gmap strings.
From Verif Require Import Base Reconstruction_Model NvmFile_Model.

Section spec.
Context {F C D V T X : Type}.
Notation recon := (recon F C D).
Context (camera : view F C -> V) (point : D -> T) (centered : view F C -> F -> X).

(** The file shows [r]: the cameras are those of the views [us], the points those of the tracks [ts], each once and counted;
    [fs u] numbers the features of view [u]; the observations of a point are exactly those of its track, each once and
    counted, and refer to the position of the camera in the file and to the number of the feature. *)
Definition nvm_shows (r : recon) (file : nvm_file V T X) (us ts : list N) (fs : N -> list N) : Prop :=
  (NoDup us /\ forall u, u ∈ us <-> is_Some (rc_views r !! u)) /\
  (NoDup ts /\ forall t, t ∈ ts <-> is_Some (rc_tracks r !! t)) /\
  (forall u v, rc_views r !! u = Some v -> NoDup (fs u) /\ forall t, t ∈ fs u <-> is_Some (v_feats v !! t)) /\
  nvm_num_cameras file = length (nvm_cameras file) /\ nvm_num_points file = length (nvm_points file) /\
  Forall2 (fun u c => exists v, rc_views r !! u = Some v /\ c = (v_name v, camera v)) us (nvm_cameras file) /\
  Forall2 (fun t p => exists tr, rc_tracks r !! t = Some tr /\ p.1.1 = point (t_data tr) /\ p.1.2 = length p.2 /\ NoDup (fst <$> p.2) /\
    forall i k x, (i, k, x) ∈ p.2 <->
      exists u v f, us !! i = Some u /\ rc_views r !! u = Some v /\ fs u !! k = Some t /\ v_feats v !! t = Some f /\ x = centered v f) ts (nvm_points file).
End spec.
