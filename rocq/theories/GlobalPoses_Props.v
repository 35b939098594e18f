(** C130: the poses that global reconstruction gives to the cameras, and what the adjustment of the positions leaves alone. *)
From stdpp Require Import gmap strings.
From Coq Require Import Reals QArith_base Qcanon Lra.
From Verif Require Import Camera_Model.
From Verif Require Import Base ViewGraph_Model Reconstruction_Model SfmQueries_Model SfmQueries_Spec SfmQueries_Props
  TrackEstimator_Model BundleAdjust_Model BundleAdjust_Spec BundleAdjust_Props Localize_Model Localize_Spec Priors_Model Priors_Props
  Incremental_Model Incremental_Spec Incremental_Props IncrementalCases_Props RotationGraph_Model GlobalReconstruction_Model GlobalReconstruction_Spec
  GlobalReconstruction_Props GlobalReconstructionCases_Props.

Lemma poses_six {F} G so opts priors og ov graph (r : recon F (list R) (list R)) h sizes p : input_ok r h priors ->
  estimate_poses G so opts priors og ov graph r h sizes = Ok p -> six (po_recon p).
Proof.
  intros (Hc & Hg & Ha & Hs & Hcr & H6 & Hn & Hp) Hrun. unfold estimate_poses in Hrun.
  apply bind_Ok in Hrun as ([g1 [|]] & _ & Hrun); cbn [negb] in Hrun; [|injection Hrun as <-; exact H6].
  destruct (priors_set_groups og ov priors r h sizes Hg Ha Hs Hcr Hp) as (r1 & h1 & s1 & Epr & Hsame & _). rewrite Epr in Hrun. cbn [mbind outcome_bind] in Hrun. clear Epr.
  assert (H61 : six r1). { destruct (same_but_facts r r1 Hsame) as (_ & _ & _ & _ & S1 & _). exact (S1 H6). }
  apply bind_Ok in Hrun as ([[|] os] & _ & Hrun); cbn [negb] in Hrun; [|injection Hrun as <-; exact H61].
  apply bind_Ok in Hrun as ([g2 os2] & _ & Hrun). apply bind_Ok in Hrun as (g3 & _ & Hrun). apply bind_Ok in Hrun as ([g4 os4] & _ & Hrun). apply bind_Ok in Hrun as ([ok ps] & _ & Hrun).
  injection Hrun as <-. exact H61.
Qed.

(** If no round of triangulation is asked for, every view that got a position is estimated and its camera has the
    estimated position (the first three numbers) and orientation (the other three); the other views are as they were. *)
Theorem global_stored_poses : forall (F P W : Type) (w : world F P W) (E : nat -> env F P W) G so opts priors og ov grid graph r h sizes x p ps,
  (go_retriangulations opts < 0)%Z ->
  estimate_poses G so opts priors og ov graph r h sizes = Ok p -> po_positions p = Some ps -> input_ok r h priors ->
  estimate_globally w E G so opts priors og ov grid graph r h sizes = Ok x ->
  forall u v q o, rc_views (po_recon p) !! u = Some v ->
    ((ps !! u = None \/ po_orientations p !! u = None) -> rc_views (n_recon (gl_state x)) !! u = Some v) /\
    (ps !! u = Some q -> po_orientations p !! u = Some o ->
     exists v', rc_views (n_recon (gl_state x)) !! u = Some v' /\ v_est v' = true /\
       v_data v' = [Camera_Model.x3 q; Camera_Model.y3 q; Camera_Model.z3 q; Camera_Model.x3 o; Camera_Model.y3 o; Camera_Model.z3 o] /\
       v_name v' = v_name v /\ v_intr v' = v_intr v /\ v_feats v' = v_feats v).
Proof.
  intros F P W w E G so opts priors og ov grid graph r h sizes x p ps Hneg Hp Hps Hin Hx u v q o Hv. pose proof (poses_six _ _ _ _ _ _ _ _ _ _ _ Hin Hp) as H6.
  unfold estimate_globally in Hx. rewrite Hp in Hx. cbn [mbind outcome_bind] in Hx. rewrite Hps in Hx.
  destruct (set_estimated_poses global_pose (gr_positions (G 6%nat)) (po_orientations p) ps (po_recon p)) as [r2| | |] eqn:E2; try discriminate.
  cbn [mbind outcome_bind] in Hx. replace (Z.to_nat (go_retriangulations opts + 1)) with 0%nat in Hx by lia.
  cbn [structure_rounds mbind outcome_bind] in Hx. injection Hx as <-. cbn [gl_state n_recon].
  assert (Hfresh : forall u, is_Some (ps !! u) -> ~ est_view (po_recon p) u).
  { intros u' Hu Hu'.
    rewrite (estimated_poses_abort _ _ _ _ _ global_pose (gr_positions (G 6%nat)) (po_orientations p) ps (po_recon p) u' Hu Hu') in E2. discriminate E2. }
  destruct (estimated_poses_exact _ _ _ _ _ global_pose (gr_positions (G 6%nat)) (po_orientations p) ps (po_recon p) Hfresh) as (r3 & E3 & _ & Hv3).
  rewrite E2 in E3. injection E3 as <-. split.
  - intros Hn. rewrite Hv3, Hv. destruct Hn as [-> | Hn]; [reflexivity|]. rewrite Hn. destruct (ps !! u); reflexivity.
  - intros Hq Ho. eexists. rewrite Hv3, Hv, Hq, Ho. split; [reflexivity|]. cbn [v_est v_data v_name v_intr v_feats]. split; [reflexivity|].
    split; [|auto]. assert (L : length (v_data v) = 6%nat) by exact (H6 u v Hv).
    destruct (v_data v) as [|d1 [|d2 [|d3 [|d4 [|d5 [|d6 [|d7 l]]]]]]]; try discriminate L.
    unfold global_pose, set_orientation, set_position, list3; reflexivity.
Qed.
Print Assumptions global_stored_poses.

(** The adjustment of positions and points leaves the orientation of every camera and all intrinsics alone, and the whole
    camera of a view that is not estimated. *)
Theorem adjust_positions_keeps : forall (F P W : Type) (w : world F P W) (E : nat -> env F P W) opts (s s' : inc F),
  environment_ok E -> consistent (n_recon s) -> grouped (n_recon s) -> allocated (n_recon s) (n_heap s) -> sized (n_heap s) ->
  adjust_positions w E opts s = Ok s' ->
  (forall u v, rc_views (n_recon s) !! u = Some v -> exists v', rc_views (n_recon s') !! u = Some v' /\
     (forall i, (3 <= i < 6)%nat -> v_data v' !! i = v_data v !! i) /\ (v_est v = false -> v_data v' = v_data v)) /\
  n_heap s' = n_heap s.
Proof.
  intros F P W w E opts s s' (err & ferr & cerr & HE) Hc Hg Ha Hz Hrun. unfold adjust_positions in Hrun.
  apply bind_Ok in Hrun as ([s1 chosen] & Hsel & Hrun).
  assert (Hs1 : n_recon s1 = n_recon s /\ n_heap s1 = n_heap s).
  { unfold selected_tracks in Hsel. destruct (io_subsample (go_common opts)).
    - apply bind_Ok in Hsel as ([g c] & _ & Hsel). injection Hsel as <- _. split; reflexivity.
    - injection Hsel as <- _. split; reflexivity. }
  destruct Hs1 as [Hr1 Hh1]. apply bind_Ok in Hrun as ([s2 ok] & Hadj & Hrun). injection Hrun as <-.
  unfold adjust in Hadj. apply bind_Ok in Hadj as ([[r2 h2] sm] & Hba & Hadj). injection Hadj as <- _.
  rewrite <- Hr1 in Hc, Hg. rewrite <- Hr1, <- Hh1 in Ha. rewrite <- Hh1 in Hz |- *. unfold with_heap. cbn [n_recon n_heap].
  destruct (adjust_changes_only _ _ _ _ _ _ _ _ _ _ _ _ Hc Hg Ha (proj2 (HE (n_tick s1))) Hba) as [(_ & Hv & _ & Hi) _].
  split.
  - intros u v Huv. specialize (Hv u). rewrite <- Hr1 in Huv. rewrite Huv in Hv. inversion Hv as [v1 v2 HT E1 E2|]; subst. exists v2. split; [reflexivity|].
    destruct HT as (_ & _ & _ & _ & _ & H1 & _ & H2 & _). split; [exact (H2 eq_refl)|]. intros He. apply H1. right. left. exact He.
  - apply map_eq. intros p. specialize (Hi p). destruct (n_heap s1 !! p) as [i|] eqn:Ep; inversion Hi as [i1 i2 HT E1 E2|E1 E2]; subst; [|reflexivity].
    f_equal. destruct HT as (H1 & H2 & _ & H4). destruct i as [a b], i2 as [a' b']. cbn in *. subst a'. f_equal.
    apply list_eq. intros j. destruct (decide (j < length b)%nat) as [Hj|Hj].
    + apply H4. pose proof (Hz p _ Ep) as L. cbn in L. unfold kept.
      assert (j < length (layout a))%nat as Hlj by (destruct a; cbn in *; lia).
      destruct (lookup_lt_is_Some_2 _ _ Hlj) as [k Hk]. exists k. split; [exact Hk|]. unfold requested. apply N.bits_0.
    + rewrite !lookup_ge_None_2 by lia. reflexivity.
Qed.
Print Assumptions adjust_positions_keeps.

(** The run of [global_sample] without a round: views 0 and 1 are placed. *)
Definition roundless : global_options := GlobalOptions easy_options 30 LinearRotations 5 false false false 48 (8 / 100) (-1) true.
Example global_stored_sample : exists r p ps,
  let so := solvers_with (fun _ _ => nonlinear_positions along) in
  (go_retriangulations roundless < 0)%Z /\ input_ok r scene_heap (fun _ => plain_prior) /\ po_positions p = Some ps /\
  estimate_poses (fun _ => plain_orders) so roundless (fun _ => plain_prior) ord_id (fun _ => ord_id) couple r scene_heap ∅ = Ok p /\
  exists x, estimate_globally flat_world (fun _ => still_env) (fun _ => plain_orders) so roundless (fun _ => plain_prior) ord_id (fun _ => ord_id) None couple r scene_heap ∅ = Ok x.
Proof.
  destruct global_sample as (r & x & _ & _ & _ & _ & _ & Hin & _ & _ & _ & Hrun & Hsuc & _). exists r.
  unfold estimate_globally in Hrun.
  destruct (estimate_poses (fun _ => plain_orders) (solvers_with (fun _ _ => nonlinear_positions along)) linear_options (fun _ => plain_prior) ord_id (fun _ => ord_id) couple r scene_heap ∅) as [p| | |] eqn:Ep; [|discriminate Hrun..].
  cbn [mbind outcome_bind] in Hrun. exists p. destruct (po_positions p) as [ps|] eqn:Eps; [|injection Hrun as <-; discriminate Hsuc]. exists ps.
  assert (Ep' : estimate_poses (fun _ => plain_orders) (solvers_with (fun _ _ => nonlinear_positions along)) roundless (fun _ => plain_prior) ord_id (fun _ => ord_id) couple r scene_heap ∅ = Ok p) by exact Ep.
  split; [reflexivity|]. split; [exact Hin|]. split; [reflexivity|]. split; [exact Ep'|]. unfold estimate_globally. rewrite Ep'. cbn [mbind outcome_bind]. rewrite Eps.
  destruct (set_estimated_poses _ _ _ _ _) as [r2| | |]; [|discriminate Hrun..]. cbn [mbind outcome_bind]. eexists. reflexivity.
Qed.

(** Two estimated views that see three estimated tracks. *)
Example adjust_positions_sample : exists r s', let s := Inc r scene_heap ∅ [] 0 None 0 in
  environment_ok (fun _ => @still_env N unit unit) /\ consistent r /\ grouped r /\ allocated r scene_heap /\ sized scene_heap /\
  adjust_positions flat_world (fun _ => still_env) linear_options s = Ok s'.
Proof.
  destruct (scene_exists shared [true; true; false; false] true (fun r => match adjust_positions flat_world (fun _ => @still_env N unit unit) linear_options (Inc r scene_heap ∅ [] 0 None 0) with Ok _ => True | _ => False end)) as (r & _ & (Hc & Hg & Ha & Hs & _) & HR); [vm_compute; reflexivity|vm_compute; repeat split|].
  exists r. destruct (adjust_positions _ _ _ _) as [s'| | |] eqn:E; [|destruct HR..]. exists s'. cbn zeta. split; [apply still_ok|]. split; [exact Hc|]. split; [exact Hg|]. split; [exact Ha|]. split; [exact Hs|]. exact E.
Qed.
