(** Property theorems about the choice of tracks for bundle adjustment. *)
From stdpp Require Import gmap strings.
From Coq Require Import QArith_base Qcanon.
From Verif Require Import Base Reconstruction_Model SfmQueries_Model SfmQueries_Spec SfmQueries_Proofs
  TrackSelection_Model TrackSelection_Spec TrackSelection_Proofs.

(** C41.  SelectGoodTracksForBundleAdjustment for a set of views: no tracks are taken out; every track put in is an
    estimated track of one of the views; each view sees as many chosen tracks as the minimum demands, or all its
    estimated tracks; each occupied grid cell has a chosen track.  The cell size is [default size st]: the one of
    the first call in the process if there was one. *)
Theorem selection_coverage_partial : forall (F C D : Type) (sq_error : view F C -> D -> F -> Qc) (pos : F -> Qc * Qc)
    (o : order N) (oc : order (Z * Z)) (r : recon F C D) (views : gset N) (threshold size minimum : Z) (st : option Z)
    (chosen : gset N),
  consistent r -> (forall u, u ∈ views -> is_Some (rc_views r !! u)) -> default size st <> 0%Z ->
  exists st' chosen', select_tracks_in sq_error pos o oc r views threshold size minimum st chosen = Ok (st', chosen') /\
    chosen ⊆ chosen' /\
    (forall t, t ∈ chosen' -> t ∈ chosen \/ (est_track r t /\ exists u, u ∈ views /\ sees r u t)) /\
    (forall u n, u ∈ views -> (Z.of_nat n <= minimum)%Z -> sees_many r n u -> covered r chosen' u n) /\
    (forall u t f c, u ∈ views -> est_track r t -> feature_is r u t f -> feature_in_cell pos (default size st) f c ->
       exists t' f', t' ∈ chosen' /\ est_track r t' /\ feature_is r u t' f' /\ feature_in_cell pos (default size st) f' c) /\
    (st' = st \/ st' = Some (default size st)).
Proof.
  intros F C D sq_error pos o oc r views threshold size minimum st chosen Hc Hex Hs.
  destruct (select_tracks_in_lemma sq_error pos o oc r views threshold size minimum st chosen Hc Hex Hs)
    as (chosen' & H1 & H2 & H3 & H4 & H5).
  eexists _, chosen'. split; [exact H1|]. split; [done|]. split; [done|]. split; [done|]. split.
  - intros u t f c Hu He Hf Hcell. destruct (H5 u Hu t f c He Hf Hcell) as (t' & f' & A & B & A' & B' & _). by exists t', f'.
  - destruct (decide (views = ∅)); [by left|by right].
Qed.
Print Assumptions selection_coverage_partial.

(** C41.  The form without a set of views uses all estimated views, and selects estimated tracks only when it starts
    from an empty set. *)
Theorem selection_all_views_partial : forall (F C D : Type) (sq_error : view F C -> D -> F -> Qc) (pos : F -> Qc * Qc)
    (o : order N) (oc : order (Z * Z)) (r : recon F C D) (threshold size minimum : Z) (st : option Z),
  consistent r -> default size st <> 0%Z ->
  exists st' chosen, select_tracks sq_error pos o oc r threshold size minimum st ∅ = Ok (st', chosen) /\
    (forall t, t ∈ chosen -> est_track r t) /\
    (forall u n, est_view r u -> (Z.of_nat n <= minimum)%Z -> sees_many r n u -> covered r chosen u n) /\
    (forall u t f c, est_view r u -> est_track r t -> feature_is r u t f -> feature_in_cell pos (default size st) f c ->
       exists t' f', t' ∈ chosen /\ est_track r t' /\ feature_is r u t' f' /\ feature_in_cell pos (default size st) f' c).
Proof.
  intros F C D sq_error pos o oc r threshold size minimum st Hc Hs. unfold select_tracks.
  destruct (select_tracks_in_lemma sq_error pos o oc r (estimated_views o r) threshold size minimum st ∅ Hc)
    as (chosen' & H1 & H2 & H3 & H4 & H5); [|done|].
  { intros u (v & Hv & _)%estimated_views_lemma. by exists v. }
  eexists _, chosen'. split; [exact H1|]. split; [|split].
  - intros t [[]%elem_of_empty | [? _]]%H3. done.
  - intros u n Hu. apply H4. by apply estimated_views_lemma.
  - intros u t f c Hu He Hf Hcell. apply (estimated_views_lemma o) in Hu.
    destruct (H5 u Hu t f c He Hf Hcell) as (t' & f' & A & B & A' & B' & _). by exists t', f'.
Qed.
Print Assumptions selection_all_views_partial.

(** C42.  What holds of the choice in a cell of an estimated view: the chosen track is one of the SHORTEST (lengths above the
    threshold count as equal) and has the smallest error among those.  The full property says longest. *)
Theorem cell_choice_partial : forall (F C D : Type) (sq_error : view F C -> D -> F -> Qc) (pos : F -> Qc * Qc)
    (o : order N) (oc : order (Z * Z)) (r : recon F C D) (views : gset N) (threshold size minimum : Z) (st : option Z)
    (chosen : gset N),
  consistent r -> (forall u, u ∈ views -> is_Some (rc_views r !! u)) -> default size st <> 0%Z ->
  exists st' chosen', select_tracks_in sq_error pos o oc r views threshold size minimum st chosen = Ok (st', chosen') /\
    forall u t f c, u ∈ views -> est_view r u -> est_track r t -> feature_is r u t f ->
      feature_in_cell pos (default size st) f c ->
      exists t' f', t' ∈ chosen' /\ est_track r t' /\ feature_is r u t' f' /\ feature_in_cell pos (default size st) f' c /\
        forall t'' f'', est_track r t'' -> feature_is r u t'' f'' -> feature_in_cell pos (default size st) f'' c ->
          ~ shorter sq_error r threshold t'' t'.
Proof.
  intros F C D sq_error pos o oc r views threshold size minimum st chosen Hc Hex Hs.
  destruct (select_tracks_in_lemma sq_error pos o oc r views threshold size minimum st chosen Hc Hex Hs)
    as (chosen' & H1 & H2 & H3 & H4 & H5).
  eexists _, chosen'. split; [exact H1|].
  intros u t f c Hu Hest He Hf Hcell. destruct (H5 u Hu t f c He Hf Hcell) as (t' & f' & A & B & A' & B' & E).
  exists t', f'. do 4 (split; [done|]). by apply E.
Qed.
Print Assumptions cell_choice_partial.

(** C42.  What holds of the additional tracks of a view: those with the smallest ids are taken, whatever their length
    and error, and no more than the minimum demands. *)
Theorem top_up_partial : forall (F C D : Type) (sq_error : view F C -> D -> F -> Qc) (o : order N) (r : recon F C D)
    (views : gset N) (u : N) (v : view F C) (stats : gmap N statistics) (threshold minimum : Z) (chosen : gset N),
  consistent r -> (forall u, u ∈ views -> is_Some (rc_views r !! u)) -> u ∈ views -> rc_views r !! u = Some v ->
  compute_statistics sq_error o r views threshold = Ok stats -> (0 <= minimum)%Z ->
  exists X : gset N, select_top o r stats v minimum chosen = Ok (X ∪ chosen) /\ X ## chosen /\
    (forall t, t ∈ X -> sees r u t /\ est_track r t) /\
    (forall t t', t ∈ X -> t' ∉ X ∪ chosen -> sees r u t' -> est_track r t' -> (t < t')%N) /\
    (forall n, (Z.of_nat n <= minimum)%Z -> sees_many r n u -> covered r (X ∪ chosen) u n) /\
    (forall n, X <> ∅ -> (minimum < Z.of_nat n)%Z -> ~ covered r (X ∪ chosen) u n).
Proof.
  intros F C D sq_error o r views u v stats threshold minimum chosen Hc Hex Hu Hv Hstats Hmin.
  destruct (compute_statistics_sound sq_error o r views threshold Hc Hex) as (m & Hm & Hfor).
  rewrite Hstats in Hm. injection Hm as <-.
  destruct (select_top_sound sq_error o r u v stats threshold _ minimum chosen Hv Hfor) as (X & H1 & H2 & H3 & H4 & H5 & H6).
  { intros t Ht. by exists u. }
  { by left. }
  exists X. do 5 (split; [done|]). intros n Hne Hn (Y & HY & HYt).
  specialize (H6 Hne). assert (Hle : (size Y <= size (sel (X ∪ chosen) (est_of r v)))%nat).
  { apply subseteq_size. intros t Ht. destruct (HYt t Ht) as (A & (v' & Hv' & Hf) & B). unfold sel, est_of.
    rewrite !elem_of_filter. split; [done|]. split; [by apply track_est_iff|]. apply elem_of_dom. congruence. }
  lia.
Qed.
Print Assumptions top_up_partial.

(** Two views; tracks 0 and 1 are seen by both, track 2 by the first view only (and a view that is not estimated). *)
Definition q (z : Z) : Qc := Q2Qc (z # 1).
Definition sel_ops : list (rc_op (Qc * Qc) unit unit) :=
  [OAddView ord_id "a"; OAddView ord_id "b"; OAddView ord_id "c";
   OAddTrack [(0, (q 10, q 0)); (1, (q 15, q 0))]; OAddTrack [(0, (q 90, q 0)); (1, (q 90, q 0))];
   OAddTrack [(0, (q 12, q 0)); (2, (q 9, q 0))];
   OSetView 0 true tt; OSetView 1 true tt;
   OSetTrack 0 true tt; OSetTrack 1 true tt; OSetTrack 2 true tt]%N.
Definition sel_recon : recon (Qc * Qc) unit unit :=
  match run_obs (rc_step tt tt) rc_empty sel_ops with Ok (r, _) => r | _ => rc_empty end.
Definition sel_error (v : view (Qc * Qc) unit) (d : unit) (f : Qc * Qc) : Qc := q 1.
Definition static_after (x : outcome (option Z * gset N)) : option Z := match x with Ok (s, _) => s | _ => None end.

Example sel_recon_consistent : consistent sel_recon.
Proof.
  assert (H : match run_obs (rc_step tt tt) rc_empty sel_ops with Ok _ => true | _ => false end = true) by (vm_compute; reflexivity).
  unfold sel_recon. destruct (run_obs (rc_step tt tt) rc_empty sel_ops) as [[r rs]| | |] eqn:E; [|discriminate H..].
  eapply reachable_consistent_lemma; [|exact E]. cbn. lia.
Qed.

(** Hypotheses are met, and a run: one track per cell, then one more track in each view. *)
Example selection_sample :
  bool_decide (estimated_views ord_id sel_recon = {[0; 1]}%N) &&
  match select_tracks sel_error (fun f => f) ord_id ord_id sel_recon 10 50 0 None ∅ with
  | Ok (st, s) => bool_decide (st = Some 50%Z /\ s = {[0; 1; 2]}%N)
  | _ => false
  end = true.
Proof. vm_compute. reflexivity. Qed.

(** C41 is false as stated: the same call gives another result after a call with another cell size. *)
Theorem selection_history_refuted :
  exists (r : recon (Qc * Qc) unit unit) (st : option Z), consistent r /\
    st = static_after (select_tracks sel_error (fun f => f) ord_id ord_id r 10 1000 0 None ∅) /\
    (exists s, select_tracks sel_error (fun f => f) ord_id ord_id r 10 50 0 None ∅ = Ok (Some 50%Z, s) /\ 1%N ∈ s) /\
    (exists s, select_tracks sel_error (fun f => f) ord_id ord_id r 10 50 0 st ∅ = Ok (st, s) /\ 1%N ∉ s).
Proof.
  exists sel_recon, (Some 1000%Z). split; [apply sel_recon_consistent|]. split; [vm_compute; reflexivity|]. split.
  - destruct (select_tracks sel_error (fun f => f) ord_id ord_id sel_recon 10 50 0 None ∅) as [[st s]| | |] eqn:E.
    2-4: exfalso; revert E; vm_compute; discriminate.
    exists s. assert (H : match select_tracks sel_error (fun f => f) ord_id ord_id sel_recon 10 50 0 None ∅ with
                          | Ok (st, s) => bool_decide (st = Some 50%Z) && bool_decide (1%N ∈ s) | _ => false end = true)
      by (vm_compute; reflexivity).
    rewrite E in H. apply andb_true_iff in H as [H1%bool_decide_eq_true H2%bool_decide_eq_true]. clear E. split; [by rewrite H1|exact H2].
  - destruct (select_tracks sel_error (fun f => f) ord_id ord_id sel_recon 10 50 0 (Some 1000%Z) ∅) as [[st s]| | |] eqn:E.
    2-4: exfalso; revert E; vm_compute; discriminate.
    exists s. assert (H : match select_tracks sel_error (fun f => f) ord_id ord_id sel_recon 10 50 0 (Some 1000%Z) ∅ with
                          | Ok (st, s) => bool_decide (st = Some 1000%Z) && bool_decide (1%N ∉ s) | _ => false end = true)
      by (vm_compute; reflexivity).
    rewrite E in H. apply andb_true_iff in H as [H1%bool_decide_eq_true H2%bool_decide_eq_true]. clear E. split; [by rewrite H1|exact H2].
Qed.
Print Assumptions selection_history_refuted.

(** C42 is false as stated.  With one large cell, the chosen track of view 0 is the shorter track 2; the longer tracks 0 and 1
    of the same cell are not chosen for it. *)
Lemma sel_better : better sel_error sel_recon 10 0 2.
Proof.
  assert (H : forall t n, bool_decide ((fun T => size (estimated_observers sel_recon T)) <$> rc_tracks sel_recon !! t = Some n) = true ->
    track_length sel_recon t n).
  { intros t n Hb%bool_decide_eq_true. destruct (rc_tracks sel_recon !! t) as [T|] eqn:HT; [|discriminate Hb].
    exists T. split; [done|]. cbn [fmap option_fmap option_map] in Hb. by injection Hb. }
  assert (He : forall t e, bool_decide ((fun T => let us := estimated_observers sel_recon T in
      (sum_over us (error_in sel_error sel_recon t T) / Q2Qc (Z.of_nat (size us) # 1))%Qc) <$> rc_tracks sel_recon !! t = Some e) = true ->
    mean_error sel_error sel_recon t e).
  { intros t e Hb%bool_decide_eq_true. destruct (rc_tracks sel_recon !! t) as [T|] eqn:HT; [|discriminate Hb].
    exists T. split; [done|]. cbn [fmap option_fmap option_map] in Hb. by injection Hb. }
  exists 2%nat, 1%nat, (q 1), (q 1).
  split; [apply H; vm_compute; reflexivity|]. split; [apply H; vm_compute; reflexivity|].
  split; [apply He; vm_compute; reflexivity|]. split; [apply He; vm_compute; reflexivity|].
  left. cbn. lia.
Qed.

Theorem long_tracks_preferred_refuted :
  exists (r : recon (Qc * Qc) unit unit) (s : gset N),
    consistent r /\ est_view r 0 /\ est_track r 0 /\ est_track r 2 /\
    (exists f, feature_is r 0 0 f /\ feature_in_cell (fun f => f) 1000 f (0, 0)%Z) /\
    (exists f, feature_is r 0 2 f /\ feature_in_cell (fun f => f) 1000 f (0, 0)%Z) /\
    better sel_error r 10 0 2 /\
    select_tracks_in sel_error (fun f => f) ord_id ord_id r {[0%N]} 10 1000 1 None ∅ = Ok (Some 1000%Z, s) /\
    2%N ∈ s /\ 0%N ∉ s.
Proof.
  destruct (select_tracks_in sel_error (fun f => f) ord_id ord_id sel_recon {[0%N]} 10 1000 1 None ∅) as [[st s]| | |] eqn:E.
  2-4: vm_compute in E; discriminate E.
  assert (H : match select_tracks_in sel_error (fun f => f) ord_id ord_id sel_recon {[0%N]} 10 1000 1 None ∅ with
              | Ok (st, s) => bool_decide (st = Some 1000%Z) && (bool_decide (2%N ∈ s) && bool_decide (0%N ∉ s)) | _ => false end = true)
    by (vm_compute; reflexivity).
  rewrite E in H. apply andb_true_iff in H as [H1%bool_decide_eq_true [H2%bool_decide_eq_true H3%bool_decide_eq_true]%andb_true_iff].
  exists sel_recon, s. split; [apply sel_recon_consistent|].
  assert (HV : view_est sel_recon 0) by (vm_compute; reflexivity). split; [by apply view_est_iff|].
  assert (HT : track_est sel_recon 0) by (vm_compute; reflexivity). split; [by apply track_est_iff|].
  assert (HT2 : track_est sel_recon 2) by (vm_compute; reflexivity). split; [by apply track_est_iff|].
  assert (HF : forall t x, match rc_views sel_recon !! 0%N with Some v => bool_decide (v_feats v !! t = Some x) | None => false end = true ->
    feature_is sel_recon 0 t x).
  { intros t x Hb. destruct (rc_views sel_recon !! 0%N) as [v|] eqn:Hv; [|discriminate Hb]. exists v. split; [done|].
    by apply bool_decide_eq_true in Hb. }
  assert (HC : forall x c, bool_decide (trunc (x.1 / Q2Qc (1000 # 1))%Qc = c.1) && bool_decide (trunc (x.2 / Q2Qc (1000 # 1))%Qc = c.2) = true ->
    feature_in_cell (fun f => f) 1000 x c).
  { intros x c [C1%bool_decide_eq_true C2%bool_decide_eq_true]%andb_true_iff. split; by apply trunc_in_cell. }
  split. { exists (q 10, q 0). split; [apply HF; vm_compute; reflexivity|apply HC; vm_compute; reflexivity]. }
  split. { exists (q 12, q 0). split; [apply HF; vm_compute; reflexivity|apply HC; vm_compute; reflexivity]. }
  split; [apply sel_better|]. clear -E H1 H2 H3. split; [rewrite E; by rewrite H1|]. split; [exact H2|exact H3].
Qed.
Print Assumptions long_tracks_preferred_refuted.
