(** Property theorems about the parallel triangulation of tracks. *)
From stdpp Require Import prelude gmap strings.
From Coq Require Import QArith_base Qcanon.
From Verif Require Import Base Reconstruction_Model SfmQueries_Model SfmQueries_Spec SfmQueries_Proofs SfmQueries_Props
  TrackEstimator_Model TrackEstimator_Spec TrackEstimator_Proofs.

(** C60.  EstimateTracks under any schedule: no abort; when all workers have finished, each given track that was not
    estimated has become what the specification says, the summary has the successful ones and the counts, and nothing
    else has changed.  The run is complete if each of the workers is scheduled often enough. *)
Theorem estimate_tracks_exact : forall (F C D : Type) (g : geometry F C D) (opts : est_options) (o : order N)
    (r : recon F C D) (ids : gset N) (sched : list nat),
  consistent r -> (forall t, t ∈ ids -> is_Some (rc_tracks r !! t)) -> (Z.of_nat (size ids) < 2 ^ 31)%Z ->
  (1 <= eo_threads opts)%Z -> (1 <= eo_step opts)%Z ->
  exists res, estimate_tracks g opts o ids sched r = Ok res /\
    (forall r' sm, res = Some (r', sm) ->
       r' = set_tracks r (rc_tracks r') /\
       (forall t T, t ∈ ids -> rc_tracks r !! t = Some T -> t_est T = false ->
          exists T' b, rc_tracks r' !! t = Some T' /\ estimation g opts o r t T T' b /\ t_est T' = b /\ t_views T' = t_views T /\
            (t ∈ es_found sm <-> b = true)) /\
       (forall t, t ∉ ids \/ est_track r t -> rc_tracks r' !! t = rc_tracks r !! t /\ t ∉ es_found sm) /\
       (exists ts : gset N, (forall t, t ∈ ts <-> t ∈ ids /\ ~ est_track r t) /\ es_attempts sm = Z.of_nat (size ts) /\
          es_input sm = (Z.of_nat (size ids) - Z.of_nat (size ts))%Z)) /\
    ((forall i, (i < size ids)%nat -> (3 * size ids + 1 <= length (filter (eq i) sched))%nat) -> res <> None).
Proof.
  intros F C D g opts o r ids sched Hc Hex Hsize Hth Hst.
  destruct (estimate_tracks_sound g opts o r ids sched Hc Hex Hsize Hth Hst) as (res & Hres & Hall & Hfair).
  exists res. split; [done|]. split; [|done]. intros r' sm E. destruct (Hall r' sm E) as (H1 & H2 & H3 & H4 & H5).
  split; [done|]. split; [|split].
  - intros t T Ht HT He. destruct (H2 t T) as [H6 H7]; [apply elem_of_to_estimate; eauto|done|].
    exists (final g opts o r t T).1, (final g opts o r t T).2. split; [done|].
    pose proof (final_estimation g opts o r t T) as Hf. split; [done|]. destruct Hf; cbn; done.
  - intros t Ht. apply H3. intros [Ht' (T & HT & He)]%elem_of_to_estimate. destruct Ht as [Ht | (T' & HT' & He')]; [done|congruence].
  - exists (list_to_set (to_estimate o r ids)). split; [|split].
    + intros t. rewrite elem_of_list_to_set, elem_of_to_estimate. split.
      * intros [Ht (T & HT & He)]. split; [done|]. intros (T' & HT' & He'). congruence.
      * intros [Ht Hn]. split; [done|]. destruct (Hex t Ht) as [T HT]. exists T. split; [done|].
        destruct (t_est T) eqn:He; [|done]. destruct Hn. by exists T.
    + rewrite H4, size_list_to_set; [done|apply to_estimate_NoDup].
    + rewrite H5, size_list_to_set; [done|apply to_estimate_NoDup].
Qed.

(** C60.  The specification determines the track and the success. *)
Theorem estimation_unique : forall (F C D : Type) (g : geometry F C D) (opts : est_options) (o : order N) (r : recon F C D)
    t T T1 b1 T2 b2,
  estimation g opts o r t T T1 b1 -> estimation g opts o r t T T2 b2 -> T1 = T2 /\ b1 = b2.
Proof.
  intros F C D g opts o r t T T1 b1 T2 b2 H1%estimation_final H2%estimation_final. rewrite H1 in H2. by injection H2.
Qed.

(** C60.  The result depends neither on the schedule nor on the number of threads and the step size. *)
Theorem estimate_tracks_deterministic : forall (F C D : Type) (g : geometry F C D) (opts opts' : est_options) (o : order N)
    (r : recon F C D) (ids : gset N) (sched sched' : list nat) r1 sm1 r2 sm2,
  consistent r -> (forall t, t ∈ ids -> is_Some (rc_tracks r !! t)) -> (Z.of_nat (size ids) < 2 ^ 31)%Z ->
  (1 <= eo_threads opts)%Z -> (1 <= eo_step opts)%Z -> (1 <= eo_threads opts')%Z -> (1 <= eo_step opts')%Z ->
  eo_max_error opts = eo_max_error opts' -> eo_cos_min opts = eo_cos_min opts' -> eo_adjust opts = eo_adjust opts' ->
  estimate_tracks g opts o ids sched r = Ok (Some (r1, sm1)) ->
  estimate_tracks g opts' o ids sched' r = Ok (Some (r2, sm2)) -> r1 = r2 /\ sm1 = sm2.
Proof.
  intros F C D g opts opts' o r ids sched sched' r1 sm1 r2 sm2 Hc Hex Hsize Ht Hs Ht' Hs' E1 E2 E3 R1 R2.
  destruct (estimate_tracks_sound g opts o r ids sched Hc Hex Hsize Ht Hs) as (res & Hres & Hall & _).
  rewrite R1 in Hres. injection Hres as <-. destruct (Hall r1 sm1 eq_refl) as (A1 & A2 & A3 & A4 & A5). clear Hall.
  destruct (estimate_tracks_sound g opts' o r ids sched' Hc Hex Hsize Ht' Hs') as (res & Hres & Hall & _).
  rewrite R2 in Hres. injection Hres as <-. destruct (Hall r2 sm2 eq_refl) as (B1 & B2 & B3 & B4 & B5). clear Hall.
  assert (Hfin : forall t T, final g opts o r t T = final g opts' o r t T).
  { intros t T. assert (Hacc : forall d obs s n, acceptable_loop g opts d obs s n = acceptable_loop g opts' d obs s n).
    { intros d obs. induction obs as [|[v f] obs IH]; intros s n; cbn [acceptable_loop]; [by rewrite E1|]. by rewrite IH. }
    unfold final. rewrite E2, E3. destruct (decide _); [done|]. destruct (sufficient_angle _ _); [|done].
    destruct (g_triangulate _ _) as [d|]; [|done]. cbv zeta. by rewrite Hacc. }
  assert (Hm : rc_tracks r1 = rc_tracks r2).
  { apply map_eq. intros t. destruct (decide (t ∈ to_estimate o r ids)) as [Hin|Hin].
    - pose proof Hin as (_ & T & HT & _)%elem_of_to_estimate.
      destruct (A2 t T Hin HT) as [-> _]. destruct (B2 t T Hin HT) as [-> _]. by rewrite Hfin.
    - destruct (A3 t Hin) as [-> _]. by destruct (B3 t Hin) as [-> _]. }
  split; [rewrite A1, B1; by f_equal|].
  assert (Hf : es_found sm1 = es_found sm2).
  { apply set_eq. intros t. destruct (decide (t ∈ to_estimate o r ids)) as [Hin|Hin].
    - pose proof Hin as (_ & T & HT & _)%elem_of_to_estimate.
      destruct (A2 t T Hin HT) as [_ ->]. destruct (B2 t T Hin HT) as [_ ->]. by rewrite Hfin.
    - destruct (A3 t Hin) as [_ ?]. by destruct (B3 t Hin) as [_ ?]. }
  destruct sm1, sm2; cbn in *; congruence.
Qed.

(** C60.  EstimateAllTracks is EstimateTracks for the tracks that an estimated view sees. *)
Theorem estimate_all_tracks_exact : forall (F C D : Type) (g : geometry F C D) (opts : est_options) (o : order N) (r : recon F C D),
  exists ids, (forall t, t ∈ ids <-> exists u, est_view r u /\ sees r u t) /\
    forall sched, estimate_all_tracks g opts o sched r = estimate_tracks g opts o ids sched r.
Proof. exact @estimate_all_sound. Qed.

(** C60.  Other options: no thread is a division by zero, a negative number aborts, step size zero never ends and with a
    negative step size no track is estimated, though the summary reports the attempts. *)
Theorem estimate_tracks_bad_options : forall (F C D : Type) (g : geometry F C D) (opts : est_options) (o : order N)
    (r : recon F C D) (ids : gset N) (sched : list nat),
  (forall t, t ∈ ids -> is_Some (rc_tracks r !! t)) -> (Z.of_nat (size ids) < 2 ^ 31)%Z ->
  (exists t T, t ∈ ids /\ rc_tracks r !! t = Some T /\ t_est T = false) ->
  (eo_threads opts = 0%Z -> estimate_tracks g opts o ids sched r = UB) /\
  ((eo_threads opts < 0)%Z -> estimate_tracks g opts o ids sched r = CheckFail) /\
  ((1 <= eo_threads opts)%Z -> eo_step opts = 0%Z -> estimate_tracks g opts o ids sched r = Hang) /\
  ((1 <= eo_threads opts)%Z -> (- 2 ^ 31 <= eo_step opts < 0)%Z -> exists res, estimate_tracks g opts o ids sched r = Ok res /\
     forall r' sm, res = Some (r', sm) -> r' = r /\ es_found sm = ∅).
Proof. exact @estimate_tracks_options. Qed.

(** Three estimated views and one that is not; tracks 0 to 4 of which 0 is estimated already. *)
Definition te_ops : list (rc_op Qc Qc Qc) := (take 12 sample_ops ++ [OSetTrack 0 true (q 7)])%N.
Definition te_sample : option (recon Qc Qc Qc) :=
  match run_obs (rc_step (q 0) (q 0)) rc_empty te_ops with Ok (r, _) => Some r | _ => None end.
Definition te_geometry : geometry Qc Qc Qc :=
  Geometry s_depth s_error (fun v f => (v_data v, q 1, q 0))
    (fun obs => match obs with (_, f) :: _ => Some f | [] => None end) (fun _ d => (d + q 0, true)%Qc).
Definition te_opts (threads step : Z) : est_options := EstOptions threads (q 2) (q 4) true step.

(** Track 1 has a large error, track 3 has one estimated view; tracks 2 and 4 are estimated.  Two workers take turns. *)
Example te_sample_run :
  match te_sample with
  | Some r => match estimate_all_tracks te_geometry (te_opts 2 20) ord_id (concat (replicate 8 [0; 1]%nat)) r with
              | Ok (Some (r', sm)) => bool_decide (elements (es_found sm) = [2; 4]%N /\ es_attempts sm = 4%Z /\ es_input sm = 1%Z /\
                                                   elements (estimated_tracks ord_id r') = [0; 2; 4]%N)
              | _ => false end
  | None => false end = true.
Proof. vm_compute. reflexivity. Qed.

(** One worker per track in reverse order gives the same tracks. *)
Example te_sample_run' :
  match te_sample with
  | Some r => match estimate_all_tracks te_geometry (te_opts 8 1) ord_id (concat (replicate 4 [3; 2; 1; 0]%nat)) r with
              | Ok (Some (r', sm)) => bool_decide (elements (es_found sm) = [2; 4]%N)
              | _ => false end
  | None => false end = true.
Proof. vm_compute. reflexivity. Qed.

(** The sample meets the hypotheses. *)
Example te_sample_consistent : exists r, te_sample = Some r /\ consistent r /\ is_Some (rc_tracks r !! 1%N) /\
  (exists T, rc_tracks r !! 1%N = Some T /\ t_est T = false).
Proof.
  assert (H : match run_obs (rc_step (q 0) (q 0)) rc_empty te_ops with
              | Ok (r, _) => bool_decide ((t_est <$> rc_tracks r !! 1%N) = Some false) | _ => false end = true) by (vm_compute; reflexivity).
  unfold te_sample. destruct (run_obs (rc_step (q 0) (q 0)) rc_empty te_ops) as [[r rs]| | |] eqn:E; [|discriminate H..].
  exists r. split; [reflexivity|]. split.
  - eapply reachable_consistent_lemma; [|exact E]. cbn. lia.
  - clear E. apply bool_decide_eq_true, fmap_Some in H as (T & HT & He). split; [by exists T|]. exists T. done.
Qed.

Print Assumptions estimate_tracks_exact.
Print Assumptions estimation_unique.
Print Assumptions estimate_tracks_deterministic.
Print Assumptions estimate_all_tracks_exact.
Print Assumptions estimate_tracks_bad_options.
