(** Properties of the track builder. *)
From stdpp Require Import gmap strings.
From Verif Require Import Base ConnectedComponents_Model ConnectedComponents_Spec Reconstruction_Model
  TrackBuilder_Model TrackBuilder_Spec TrackBuilder_Proofs.

(** C15.  BuildTracks succeeds and does exactly what AddTrack does for a list of tracks. These are the
    components of the correspondence graph with at least [min] features, one feature per view. *)
Theorem track_builder_exact : forall (F : Type) (EF : EqDecision F) (CF : Countable F) (C D : Type)
    (c0 : C) (d0 : D) (cs : list (corr F)) (min max : Z) (ops : list (rc_op F C D)) r rs
    (ofe : order ((N * F) * N)) (on : order N) (oc : order (N * gset N)),
  (2 <= min < 2 ^ 31)%Z -> (0 < max < 2 ^ 31)%Z ->
  Forall (fun e => e.1.1 ≠ e.2.1) cs -> (2 * N.of_nat (length cs) < 2 ^ 31)%N ->
  (N.of_nat (length ops) + 2 * N.of_nat (length cs) < 2 ^ 32)%N ->
  run_obs (rc_step c0 d0) rc_empty ops = Ok (r, rs) ->
  (forall k, occurs cs k -> is_Some (rc_views r !! k.1)) ->
  exists b0 b b' r' tracks ids,
    tb_new min max = Ok b0 /\ run_steps tb_add b0 cs = Ok b /\
    tb_build d0 ofe on oc b r = Ok (b', r') /\
    run_obs (rc_step c0 d0) r (OAddTrack <$> tracks) = Ok (r', RId <$> ids) /\ kInvalidId ∉ ids /\
    are_tracks (Z.to_N min) (Z.to_N max) cs tracks.
Proof. exact @track_builder_lemma. Qed.
Print Assumptions track_builder_exact.

(** C15.  Every such list of tracks is valid: each track has at least two features in different views,
    no more than the maximum, all of them joined by correspondences; no feature is in two tracks. *)
Theorem track_builder_valid : forall (F : Type)
    (min max : N) (cs : list (corr F)) tracks,
  (2 <= min)%N -> (0 < max)%N -> Forall (fun e => e.1.1 ≠ e.2.1) cs -> are_tracks min max cs tracks ->
  (forall tr, tr ∈ tracks ->
     NoDup tr.*1 /\ (2 <= length tr)%nat /\ (N.of_nat (length tr) <= max)%N /\
     (forall k, k ∈ tr -> occurs cs k) /\ (forall k k', k ∈ tr -> k' ∈ tr -> chained cs k k')) /\
  (forall i j tr tr' k, tracks !! i = Some tr -> tracks !! j = Some tr' -> k ∈ tr -> k ∈ tr' -> i = j).
Proof. exact @tracks_shape. Qed.
Print Assumptions track_builder_valid.

(** C15.  Nothing is left out when the maximum is no restriction: a feature with at least [min] features
    in its chain of correspondences has its view in a track of that chain. *)
Theorem track_builder_complete : forall (F : Type) (EF : EqDecision F) (CF : Countable F)
    (min max : N) (cs : list (corr F)) tracks,
  are_tracks min max cs tracks -> (2 * N.of_nat (length cs) <= max)%N ->
  forall k (S : gset (N * F)), occurs cs k -> (min <= N.of_nat (size S))%N ->
    (forall k', k' ∈ S -> chained cs k k') ->
    exists tr, tr ∈ tracks /\ k.1 ∈ tr.*1 /\ forall k', k' ∈ tr -> chained cs k k'.
Proof. exact @tracks_complete. Qed.
Print Assumptions track_builder_complete.

(** C16, the part that holds: when no view has two features in one chain of correspondences, every track
    has at least [min] features. *)
Theorem min_track_length_partial : forall (F : Type)
    (min max : N) (cs : list (corr F)) tracks,
  are_tracks min max cs tracks ->
  (forall k k', occurs cs k -> chained cs k k' -> k.1 = k'.1 -> k = k') ->
  forall tr, tr ∈ tracks -> (min <= N.of_nat (length tr))%N.
Proof. exact @tracks_min_length. Qed.
Print Assumptions min_track_length_partial.

(** A concrete run: three views, minimum length 3, features are numbers. *)
Definition sample_recon : outcome (recon N unit unit * list rc_res) :=
  run_obs (rc_step tt tt) rc_empty
    [OAddView ord_id "a"; OAddView ord_id "b"; OAddView ord_id "c"].
Definition sample_build (min max : Z) (cs : list (corr N)) : outcome (recon N unit unit) :=
  '(r, _) ← sample_recon;
  b0 ← tb_new min max;
  b ← run_steps tb_add b0 cs;
  '(_, r') ← tb_build tt ord_id ord_rev ord_id b r;
  Ok r'.
(** The views of every track of the result, or [None] after an abort. *)
Definition track_views (o : outcome (recon N unit unit)) : option (list (list N)) :=
  match o with Ok r => Some ((fun p => elements (t_views p.2)) <$> map_to_list (rc_tracks r)) | _ => None end.

(** A chain over three views gives one track of three; the pair is too short for minimum 3. *)
Example sample_build_ok :
  track_views (sample_build 3 10 [((0, 7), (1, 8)); ((1, 8), (2, 9)); ((0, 5), (1, 6))]%N)
  = Some [[0; 1; 2]]%N.
Proof. vm_compute. reflexivity. Qed.

(** C16 is false: features 7 and 5 of view 0 are both matched to feature 8 of view 1. The component has
    three features, the minimum is three, but the track that is added has only two observations. *)
Theorem min_track_length_refuted : exists (cs : list (corr N)) r T,
  Forall (fun e => e.1.1 ≠ e.2.1) cs /\ sample_build 3 10 cs = Ok r /\
  rc_tracks r !! 0%N = Some T /\ (size (t_views T) < 3)%nat.
Proof.
  set (cs := [((0, 7), (1, 8)); ((0, 5), (1, 8))]%N : list (corr N)).
  assert (H : match sample_build 3 10 cs with
              | Ok r => match rc_tracks r !! 0%N with
                        | Some T => bool_decide (size (t_views T) < 3)%nat
                        | None => false end
              | _ => false end = true) by (vm_compute; reflexivity).
  destruct (sample_build 3 10 cs) as [r| | |] eqn:E; try discriminate H.
  destruct (rc_tracks r !! 0%N) as [T|] eqn:ET; [|discriminate H].
  exists cs, r, T. split; [|split; [exact E|split; [exact ET|exact (proj1 (bool_decide_eq_true _) H)]]].
  repeat constructor; simpl; lia.
Qed.
Print Assumptions min_track_length_refuted.

(** With minimum length 1 and a maximum of 1, the singletons make BuildTracks abort. *)
Theorem min_one_aborts : exists cs : list (corr N),
  Forall (fun e => e.1.1 ≠ e.2.1) cs /\ sample_build 1 1 cs = CheckFail.
Proof.
  exists [((0, 7), (1, 8))]%N. split; [repeat constructor; simpl; lia|].
  assert (H : match sample_build 1 1 [((0, 7), (1, 8))]%N with CheckFail => true | _ => false end = true)
    by (vm_compute; reflexivity).
  destruct (sample_build _ _ _); try discriminate H. reflexivity.
Qed.
Print Assumptions min_one_aborts.

(** The hypotheses of [track_builder_exact] hold for that run. *)
Example sample_meets_hypotheses :
  let cs := [((0, 7), (1, 8)); ((1, 8), (2, 9)); ((0, 5), (1, 6))]%N : list (corr N) in
  Forall (fun e => e.1.1 ≠ e.2.1) cs /\
  exists r rs, sample_recon = Ok (r, rs) /\ forall k, occurs cs k -> is_Some (rc_views r !! k.1).
Proof.
  split; [repeat constructor; simpl; lia|].
  assert (H : match sample_recon with
              | Ok (r, _) => forallb (fun u => bool_decide (is_Some (rc_views r !! u))) [0; 1; 2]%N
              | _ => false end = true) by (vm_compute; reflexivity).
  destruct sample_recon as [[r rs]| | |] eqn:E; try discriminate H.
  exists r, rs. split; [done|]. intros k (e & He & Hk).
  apply Is_true_true, forallb_True in H. rewrite Forall_forall in H.
  eapply bool_decide_unpack, (H k.1). clear H E.
  repeat (apply elem_of_cons in He as [->|He]); [..|by apply elem_of_nil in He];
    destruct Hk as [-> | ->]; simpl; set_solver.
Qed.
