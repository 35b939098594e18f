(** Property theorems about queries and changes of the estimated flags. *)
From stdpp Require Import gmap strings sorting.
From Coq Require Import QArith_base Qcanon.
From Verif Require Import Base Reconstruction_Model SfmQueries_Model SfmQueries_Spec SfmQueries_Proofs.

(** Every reconstruction reached through its interface meets the hypothesis of the theorems below. *)
Theorem reachable_consistent : forall (F C D : Type) (c0 : C) (d0 : D) (ops : list (rc_op F C D)) r rs,
  (N.of_nat (length ops) < 2 ^ 32)%N -> run_obs (rc_step c0 d0) rc_empty ops = Ok (r, rs) -> consistent r.
Proof. exact @reachable_consistent_lemma. Qed.
Print Assumptions reachable_consistent.

(** C44.  FindCommonTracksInViews: the tracks seen by all views, in increasing order. *)
Theorem common_tracks_exact : forall (F C D : Type) (o : order N) (r : recon F C D) (us : list N),
  (2 <= length us)%nat -> (forall u, u ∈ us -> is_Some (rc_views r !! u)) ->
  exists l, find_common_tracks o r us = Ok l /\ StronglySorted N.lt l /\
    forall t, t ∈ l <-> forall u, u ∈ us -> sees r u t.
Proof. exact @find_common_tracks_lemma. Qed.
Print Assumptions common_tracks_exact.

(** C44.  With fewer than two views the call aborts. *)
Theorem common_tracks_few : forall (F C D : Type) (o : order N) (r : recon F C D) (us : list N),
  (length us < 2)%nat -> find_common_tracks o r us = CheckFail.
Proof.
  intros F C D o r us Hl. unfold find_common_tracks. rewrite bool_decide_eq_false_2 by lia. reflexivity.
Qed.
Print Assumptions common_tracks_few.

(** C44.  The first missing view aborts the call, unless the views before it have no track in common: then it is never
    looked up and the result is empty. *)
Theorem common_tracks_missing : forall (F C D : Type) (o : order N) (r : recon F C D) (pre : list N) (u : N) (post : list N),
  (forall w, w ∈ pre -> is_Some (rc_views r !! w)) -> rc_views r !! u = None ->
  (pre = [] \/ (exists t, forall w, w ∈ pre -> sees r w t) -> find_common_tracks o r (pre ++ u :: post) = CheckFail) /\
  (pre <> [] -> ~ (exists t, forall w, w ∈ pre -> sees r w t) -> find_common_tracks o r (pre ++ u :: post) = Ok []).
Proof. exact @find_common_tracks_missing_lemma. Qed.
Print Assumptions common_tracks_missing.

(** C57.  FindCommonViewsByName: each name that views of both reconstructions have, once. *)
Theorem common_views_exact : forall (F C D : Type) (c0 : C) (d0 : D) (ops1 ops2 : list (rc_op F C D)) (o : order N)
    (r1 r2 : recon F C D) rs1 rs2,
  (N.of_nat (length ops1) < 2 ^ 32)%N -> (N.of_nat (length ops2) < 2 ^ 32)%N ->
  run_obs (rc_step c0 d0) rc_empty ops1 = Ok (r1, rs1) -> run_obs (rc_step c0 d0) rc_empty ops2 = Ok (r2, rs2) ->
  exists l, find_common_views_by_name o r1 r2 = Ok l /\ NoDup l /\
    forall n, n ∈ l <-> (exists u v, rc_views r1 !! u = Some v /\ v_name v = n) /\
                        (exists u v, rc_views r2 !! u = Some v /\ v_name v = n).
Proof. exact @find_common_views_lemma. Qed.
Print Assumptions common_views_exact.

(** C43.  SetOutlierTracksToUnestimated: exactly the estimated outlier tracks of the given set are cleared, nothing else
    changes and their number is returned. *)
Theorem outlier_tracks_exact : forall (F C D : Type) (depth : view F C -> D -> Qc) (sq_error : view F C -> D -> F -> Qc)
    (ray : view F C -> D -> Qc * Qc * Qc) (max_error cos_min : Qc) (o : order N) (ids : gset N) (r : recon F C D),
  consistent r -> (forall t, t ∈ ids -> is_Some (rc_tracks r !! t)) ->
  exists r' ts, set_outlier_tracks depth sq_error ray o ids max_error cos_min r = Ok (r', size ts) /\ tracks_cleared r r' ts /\
    forall t, t ∈ ts <-> t ∈ ids /\ exists T, rc_tracks r !! t = Some T /\ t_est T = true /\
                         outlier depth sq_error ray max_error cos_min r t T.
Proof. exact @set_outlier_tracks_lemma. Qed.
Print Assumptions outlier_tracks_exact.

(** C43.  The form without a set looks at all tracks. *)
Theorem outlier_tracks_all : forall (F C D : Type) (depth : view F C -> D -> Qc) (sq_error : view F C -> D -> F -> Qc)
    (ray : view F C -> D -> Qc * Qc * Qc) (max_error cos_min : Qc) (o : order N) (r : recon F C D),
  consistent r ->
  exists r' ts, set_all_outlier_tracks depth sq_error ray o max_error cos_min r = Ok (r', size ts) /\ tracks_cleared r r' ts /\
    forall t, t ∈ ts <-> exists T, rc_tracks r !! t = Some T /\ t_est T = true /\
                         outlier depth sq_error ray max_error cos_min r t T.
Proof. exact @set_all_outlier_tracks_lemma. Qed.
Print Assumptions outlier_tracks_all.

(** C43.  A second call with the same arguments clears nothing, whatever the iteration orders. *)
Theorem outlier_tracks_idempotent : forall (F C D : Type) (depth : view F C -> D -> Qc) (sq_error : view F C -> D -> F -> Qc)
    (ray : view F C -> D -> Qc * Qc * Qc) (max_error cos_min : Qc) (o o' : order N) (ids : gset N) (r r' : recon F C D) n,
  consistent r -> (forall t, t ∈ ids -> is_Some (rc_tracks r !! t)) ->
  set_outlier_tracks depth sq_error ray o ids max_error cos_min r = Ok (r', n) ->
  set_outlier_tracks depth sq_error ray o' ids max_error cos_min r' = Ok (r', 0%nat).
Proof. exact @set_outlier_tracks_twice_lemma. Qed.
Print Assumptions outlier_tracks_idempotent.

(** C43.  A track id without a track is undefined behaviour. *)
Theorem outlier_tracks_missing : forall (F C D : Type) (depth : view F C -> D -> Qc) (sq_error : view F C -> D -> F -> Qc)
    (ray : view F C -> D -> Qc * Qc * Qc) (max_error cos_min : Qc) (o : order N) (ids : gset N) (r : recon F C D) t,
  consistent r -> t ∈ ids -> rc_tracks r !! t = None ->
  set_outlier_tracks depth sq_error ray o ids max_error cos_min r = UB.
Proof. exact @set_outlier_tracks_missing_lemma. Qed.
Print Assumptions outlier_tracks_missing.

(** C58.  SetUnderconstrainedTracksToUnestimated and SetUnderconstrainedViewsToUnestimated. *)
Theorem underconstrained_tracks_exact : forall (F C D : Type) (o : order N) (r : recon F C D), consistent r ->
  exists r' ts, set_underconstrained_tracks o r = Ok (r', size ts) /\ tracks_cleared r r' ts /\
    forall t, t ∈ ts <-> est_track r t /\ ~ seen_by r 2 t.
Proof. exact @set_underconstrained_tracks_lemma. Qed.
Print Assumptions underconstrained_tracks_exact.

Theorem underconstrained_views_exact : forall (F C D : Type) (o : order N) (r : recon F C D), consistent r ->
  exists r' us, set_underconstrained_views o r = Ok (r', size us) /\ views_cleared r r' us /\
    forall u, u ∈ us <-> est_view r u /\ ~ sees_many r 3 u.
Proof. exact @set_underconstrained_views_lemma. Qed.
Print Assumptions underconstrained_views_exact.

(** C58.  The sets of estimated views and tracks. *)
Theorem estimated_sets_exact : forall (F C D : Type) (o : order N) (r : recon F C D),
  (forall u, u ∈ estimated_views o r <-> est_view r u) /\ (forall t, t ∈ estimated_tracks o r <-> est_track r t).
Proof. intros F C D o r. split; [apply estimated_views_lemma|apply estimated_tracks_lemma]. Qed.
Print Assumptions estimated_sets_exact.

(** C59.  SetReconstructionFromEstimatedPoses: exactly the existing views with a position and an orientation get
    that pose and become estimated; nothing else changes. *)
Theorem estimated_poses_exact : forall (F C D P Q : Type) (pose : P -> Q -> C -> C) (o : order (N * P))
    (orientations : gmap N Q) (positions : gmap N P) (r : recon F C D),
  (forall u, is_Some (positions !! u) -> ~ est_view r u) ->
  exists r', set_estimated_poses pose o orientations positions r = Ok r' /\ r' = set_views r (rc_views r') /\
    forall u, rc_views r' !! u =
      match rc_views r !! u, positions !! u, orientations !! u with
      | Some v, Some p, Some q => Some (View (v_name v) true (v_intr v) (pose p q (v_data v)) (v_feats v))
      | x, _, _ => x
      end.
Proof. exact @set_estimated_poses_lemma. Qed.
Print Assumptions estimated_poses_exact.

(** C59.  A position for a view that is estimated already aborts the call. *)
Theorem estimated_poses_abort : forall (F C D P Q : Type) (pose : P -> Q -> C -> C) (o : order (N * P))
    (orientations : gmap N Q) (positions : gmap N P) (r : recon F C D) u,
  is_Some (positions !! u) -> est_view r u -> set_estimated_poses pose o orientations positions r = CheckFail.
Proof. exact @set_estimated_poses_abort_lemma. Qed.
Print Assumptions estimated_poses_abort.

(** A reconstruction with three estimated views and one that is not, and five tracks.  Features, cameras and points are
    numbers on a line. *)
Definition q (z : Z) : Qc := Q2Qc (z # 1).
Definition sample_ops : list (rc_op Qc Qc Qc) :=
  [OAddView ord_id "a"; OAddView ord_id "b"; OAddView ord_id "c"; OAddView ord_id "d";
   OAddTrack [(0, q 1); (1, q 1)]; OAddTrack [(0, q 2); (1, q 2); (2, q 9)]; OAddTrack [(1, q 0); (2, q 0)];
   OAddTrack [(2, q 0); (3, q 0)]; OAddTrack [(0, q 5); (1, q 5); (2, q 5)];
   OSetView 0 true (q 0); OSetView 1 true (q 1); OSetView 2 true (q 2);
   OSetTrack 0 true (q 1); OSetTrack 1 true (q 2); OSetTrack 2 true (q (-1)); OSetTrack 3 true (q 0); OSetTrack 4 true (q 5)]%N.
Definition sample : option (recon Qc Qc Qc) :=
  match run_obs (rc_step (q 0) (q 0)) rc_empty sample_ops with Ok (r, _) => Some r | _ => None end.
Definition s_depth (v : view Qc Qc) (d : Qc) : Qc := d.
Definition s_error (v : view Qc Qc) (d f : Qc) : Qc := ((d - f) * (d - f))%Qc.
Definition s_ray (v : view Qc Qc) (d : Qc) : Qc * Qc * Qc := (v_data v, q 1, q 0).

(** Tracks 1 (large error), 2 (behind) and 3 (one estimated view) are outliers, 0 and 4 are not. *)
Example outliers_sample :
  match sample with
  | Some r => match set_all_outlier_tracks s_depth s_error s_ray ord_id (q 2) (q 2) r with
              | Ok (r', n) => bool_decide (n = 3%nat /\ elements (estimated_tracks ord_id r') = [0; 4]%N)
              | _ => false end
  | None => false
  end = true.
Proof. vm_compute. reflexivity. Qed.

Example common_sample :
  match sample with
  | Some r => match find_common_tracks ord_rev r [0; 1; 2]%N, find_common_tracks ord_id r [0; 3; 77]%N,
                    find_common_tracks ord_id r [0; 1; 77]%N with
              | Ok l, Ok l', CheckFail => bool_decide (l = [1; 4]%N /\ l' = [])
              | _, _, _ => false end
  | None => false
  end = true.
Proof. vm_compute. reflexivity. Qed.

(** Track 3 has one estimated view; view 3 is not estimated, so after the removal view 2 (tracks 1, 2, 4) still has
    three tracks. *)
Example underconstrained_sample :
  match sample with
  | Some r => match set_underconstrained_tracks ord_id r with
              | Ok (r', n) =>
                  bool_decide (n = 1%nat /\ estimated_tracks ord_id r' = {[0; 1; 2; 4]}%N) &&
                  match set_underconstrained_views ord_id r' with
                  | Ok (r'', m) => bool_decide (m = 0%nat)
                  | _ => false end
              | _ => false end
  | None => false
  end = true.
Proof. vm_compute. reflexivity. Qed.

Example poses_sample :
  match sample with
  | Some r => match set_estimated_poses (fun p q0 c => (p + q0)%Qc) ord_id {[3%N := q 4; 9%N := q 4]} {[3%N := q 7; 8%N := q 1]} r with
              | Ok r' => bool_decide (v_est <$> rc_views r' !! 3%N = Some true) &&
                         match v_data <$> rc_views r' !! 3%N with Some c => bool_decide (c = q 11) | None => false end
              | _ => false end
  | None => false
  end = true.
Proof. vm_compute. reflexivity. Qed.

Example common_names_sample :
  match sample with
  | Some r => match find_common_views_by_name ord_id r r with Ok l => bool_decide (length l = 4%nat) | _ => false end
  | None => false
  end = true.
Proof. vm_compute. reflexivity. Qed.
