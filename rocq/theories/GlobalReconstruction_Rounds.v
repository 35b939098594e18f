(** Proofs about global reconstruction: the rounds of triangulation and bundle adjustment. *)
From stdpp Require Import gmap.
From Coq Require Import Reals QArith_base Qcanon Lra.
From Verif Require Import Base Reconstruction_Model ViewGraph_Model SfmQueries_Model SfmQueries_Spec SfmQueries_Proofs SfmQueries_Props
  TrackEstimator_Model TrackEstimator_Spec TrackSelection_Model TrackSelection_Props
  BundleAdjust_Model BundleAdjust_Spec BundleAdjust_Props
  Localize_Model Localize_Spec Localize_Proofs Priors_Model Priors_Spec Priors_Props
  Incremental_Model Incremental_Spec Incremental_Proofs Incremental_Under Incremental_Steps Incremental_Props.
From Verif Require Camera_Model.
From Verif Require Import GlobalReconstruction_Model GlobalReconstruction_Spec.

Section rounds.
Context {F P W : Type}.
Notation recon := (recon F (list R) (list R)).
Notation heap := (gmap N intrinsics).
Notation inc := (inc F).
Context (w : world F P W) (E : nat -> env F P W) (opts : global_options).
Context (err : pose_error (P:=P) (W:=W)) (ferr : focal_error (P:=P) (W:=W)) (cerr : model_type -> F -> list R -> list R -> list R -> R).
Context (HE : forall n, pose_contract err ferr (e_with_orientation (E n)) (e_calibrated (E n)) (e_uncalibrated (E n)) /\ ceres_contract cerr (e_solve (E n))).
Context (r0 : recon) (h0 : heap) (Hc0 : consistent r0) (Hg0 : grouped r0) (Ha0 : allocated r0 h0) (H60 : six r0).
Context (Hn0 : (Z.of_nat (size (dom (rc_tracks r0))) < 2 ^ 31)%Z).
Context (Hmin : (1 <= io_min_inliers (go_common opts) < 2 ^ 31)%Z) (Hthreads : (1 <= eo_threads (io_triangulation (go_common opts)))%Z) (Hstep : (1 <= eo_step (io_triangulation (go_common opts)))%Z).
Implicit Types (s : inc) (r : recon).
Notation good := (good (go_common opts) r0 h0).
Notation keep := (keep (go_common opts) r0 h0).

Lemma seen_mono r h r' h' n t : scene r h r' h' -> (forall u, est_view r u -> est_view r' u) -> seen_by r n t -> seen_by r' n t.
Proof. intros Hs Hf (us & Hn & Hu). exists us. split; [done|]. intros u Hin. destruct (Hu u Hin) as [K1 K2]. split; [by apply (scene_sees r h r' h' u t Hs)|by apply Hf]. Qed.

Lemma selected_safe s : good s -> exists s' chosen, selected_tracks w E opts s = Ok (s', chosen) /\ keep s s' /\ n_recon s' = n_recon s /\ n_heap s' = n_heap s /\ n_tick s' = n_tick s.
Proof.
  intros Hg. unfold selected_tracks. set (e := E (n_tick s)). destruct (io_subsample (go_common opts)) eqn:Hsub.
  - destruct (good_facts (go_common opts) r0 h0 Hc0 Hg0 Ha0 H60 s Hg) as (Hc & _). pose proof (proj2 Hg Hsub) as Hne.
    destruct (selection_coverage_partial F (list R) (list R) (g_error (w_geometry w (n_heap s))) (w_position w) (e_order e) (e_cells e) (n_recon s) (estimated_views (e_order e) (n_recon s))
        (io_track_length (go_common opts)) (io_cell_size (go_common opts)) (io_min_tracks (go_common opts)) (n_grid s) ∅ Hc) as (st' & chosen & Es & _ & _ & _ & _ & Hst); [|done|].
    { intros u (v & Hv & _)%estimated_views_lemma. by exists v. }
    unfold select_tracks. rewrite Es. cbn [mbind outcome_bind]. eexists _, _. split; [done|]. split; [|done].
    split; [|done]. split; [apply Hg|]. cbn. eapply select_grid_ok; [done|apply Hg|done].
  - eexists _, _. split; [done|]. split; [|done]. by apply keep_refl.
Qed.

Lemma adjust_positions_safe s : good s -> safe False (adjust_positions w E opts s) (fun s' => keep s s' /\ fewer (n_recon s) (n_recon s')).
Proof.
  intros Hg. unfold adjust_positions. destruct (selected_safe s Hg) as (s1 & chosen & -> & Hk & Er & _). cbn [mbind outcome_bind].
  eapply safe_bind. { apply (adjust_safe E (positions_only (go_common opts)) err ferr cerr HE r0 h0 Hc0 Hg0 Ha0 H60 False s1). exact (proj1 Hk). }
  intros [s2 ok] [Hk2 Hf2]. cbn [safe fst] in *. rewrite Er in Hf2. split; [|done]. eapply keep_trans; [exact Hk|exact Hk2].
Qed.

Lemma adjust_all_safe s : good s -> safe False (adjust_all w E opts s) (fun x => keep s x.1 /\ fewer (n_recon s) (n_recon x.1)).
Proof.
  intros Hg. unfold adjust_all. set (e := E (n_tick s)). destruct (selected_safe s Hg) as (s1 & chosen & -> & Hk & Er & Eh & _). cbn [mbind outcome_bind]. destruct chosen as [ts|].
  - destruct (set_tracks_in_views_ok (e_order e) (e_order e (elements (dom (rc_views (n_recon s1))))) ts (n_recon s1)) as (cl & Hcl & _).
    destruct (tracks_cleared_scene _ (n_heap s1) _ _ Hcl) as [H1 H2]. set (r2 := set_tracks_in_views _ _ _ _) in *.
    assert (Hk2 : keep s1 (with_recon s1 r2)) by (apply keep_with_recon; [exact (proj1 Hk)|done|done]).
    eapply safe_weaken; [apply (adjust_safe E (go_common opts) err ferr cerr HE r0 h0 Hc0 Hg0 Ha0 H60 False (with_recon s1 r2)); exact (proj1 Hk2)|].
    intros [s3 ok] [Hk3 Hf3]. cbn [fst] in *. split; [eapply keep_trans; [exact Hk|eapply keep_trans; [exact Hk2|exact Hk3]]|].
    intros t Ht. apply Hf3 in Ht. cbn [n_recon with_recon] in Ht. rewrite <- Er. eapply cleared_fewer; [exact Hcl|exact Ht].
  - assert (Hk2 : keep s1 (with_recon s1 (n_recon s1))) by (apply keep_with_recon; [exact (proj1 Hk)|apply scene_refl|done]).
    eapply safe_weaken; [apply (adjust_safe E (go_common opts) err ferr cerr HE r0 h0 Hc0 Hg0 Ha0 H60 False (with_recon s1 (n_recon s1))); exact (proj1 Hk2)|].
    intros [s3 ok] [Hk3 Hf3]. cbn [fst] in *. split; [eapply keep_trans; [exact Hk|eapply keep_trans; [exact Hk2|exact Hk3]]|]. rewrite <- Er. exact Hf3.
Qed.

Lemma est_views_size r : (size (estimated_views ord_id r) < S (size (dom (rc_views r))))%nat.
Proof.
  apply Nat.lt_succ_r, subseteq_size. intros u (v & Hv & _)%estimated_views_lemma. apply elem_of_dom. by exists v.
Qed.
Lemma remove_under_ok s : good s -> exists s', remove_underconstrained E s = Ok s' /\ good s' /\ (forall u, est_view (n_recon s') u -> est_view (n_recon s) u) /\
  (forall t, est_track (n_recon s') t -> seen_by (n_recon s') 2 t) /\ fewer (n_recon s) (n_recon s') /\
  (forall V T, well_constrained (n_recon s) V T -> well_constrained (n_recon s') V T).
Proof.
  intros Hg. destruct (good_facts (go_common opts) r0 h0 Hc0 Hg0 Ha0 H60 s Hg) as (Hc & _). unfold remove_underconstrained.
  destruct (loop_ok E (S (size (dom (rc_views (n_recon s))))) (n_tick s) (n_recon s) Hc (est_views_size _)) as (r' & k & tick' & us & ts & -> & Hcl & _ & _ & Hseen & _ & Hwell & _).
  cbn [mbind outcome_bind]. eexists. split; [done|]. cbn [n_recon]. split.
  { split; [|exact (proj2 Hg)]. cbn. eapply scene_trans; [exact (proj1 Hg)|]. by eapply flags_scene. }
  split; [intros u Hu; by apply (flags_est _ _ _ _ u Hcl) in Hu as [? _]|]. split; [done|]. split; [|done]. intros t Ht. by apply (flags_est_track _ _ _ _ t Hcl) in Ht as [? _].
Qed.

Notation clean := (clean w (go_common opts)).
Lemma outlier_views depth sq_error ray m c r r' t (T : track (list R)) : rc_views r' = rc_views r -> outlier depth sq_error ray m c r' t T -> outlier depth sq_error ray m c r t T.
Proof. destruct r, r'. cbn. intros ->. intros H. exact H. Qed.
Lemma remove_outliers_ok s : good s -> exists s', remove_outliers w E (go_common opts) s (dom (rc_tracks (n_recon s))) (io_max_error (go_common opts)) = Ok s' /\
  keep s s' /\ fewer (n_recon s) (n_recon s') /\ rc_views (n_recon s') = rc_views (n_recon s) /\ n_heap s' = n_heap s /\ clean s'.
Proof.
  intros Hg. destruct (good_facts (go_common opts) r0 h0 Hc0 Hg0 Ha0 H60 s Hg) as (Hc & _). unfold remove_outliers. set (g := w_geometry w (n_heap s)).
  destruct (outlier_tracks_exact F (list R) (list R) (g_depth g) (g_error g) (w_point_ray w) (io_max_error (go_common opts)) (eo_cos_min (io_triangulation (go_common opts))) (e_order (E (n_tick s))) (dom (rc_tracks (n_recon s))) (n_recon s) Hc)
    as (r' & ts & Er & Hcl & Hts); [by intros t Ht%elem_of_dom|]. rewrite Er. cbn [mbind outcome_bind]. eexists. split; [done|].
  destruct (tracks_cleared_scene _ (n_heap s) _ _ Hcl) as [H1 H2]. split; [by apply keep_with_recon|]. split; [by eapply cleared_fewer|].
  assert (Ev : rc_views r' = rc_views (n_recon s)) by (destruct Hcl as [-> _]; done). split; [done|]. split; [done|].
  intros t T HT Hest Hout. cbn [n_recon n_heap with_recon] in *. fold g in Hout. pose proof (proj2 Hcl t) as K. rewrite HT in K. destruct (rc_tracks (n_recon s) !! t) as [T0|] eqn:H0; [|discriminate K]. cbn in K. injection K as ->. cbn in Hest.
  destruct (decide (t ∈ ts)) as [I|I]; [discriminate Hest|]. apply I, Hts. split; [apply elem_of_dom; by exists T0|]. exists T0. split; [done|]. split; [done|]. destruct T0 as [e0 d0 v0]. cbn in *. subst e0.
  eapply outlier_views; [exact Ev|exact Hout].
Qed.

Lemma structure_rounds_safe n : forall first s, good s -> safe False (structure_rounds w E opts n first s)
  (fun x => good x.1 /\ (forall u, est_view (n_recon x.1) u -> est_view (n_recon s) u) /\
     (n <> O \/ (seen_twice s /\ clean s) -> seen_twice x.1 /\ (x.2 = true -> clean x.1))).
Proof.
  induction n as [|n IH]; intros first s Hg; cbn [structure_rounds].
  { cbn [safe fst snd]. split; [done|]. split; [by intros u|]. intros [K|[K1 K2]]; [by destruct K|]. by split. }
  eapply safe_bind; [apply (estimate_everything_safe w E (go_common opts) r0 h0 Hc0 Hg0 Ha0 H60 Hn0 Hthreads Hstep False s Hg)|]. intros s1 ((Hg1 & Hfl1 & _) & _).
  destruct (remove_under_ok s1 Hg1) as (s2 & E2 & Hg2 & Hv2 & Hs2 & Hf2 & _). rewrite E2. cbn [mbind outcome_bind].
  eapply (safe_bind False _ _ (fun s3 => keep s2 s3 /\ fewer (n_recon s2) (n_recon s3))).
  { destruct (first && go_refine_positions opts); [by apply adjust_positions_safe|]. cbn [safe]. split; [by apply keep_refl|by intros t]. }
  intros s3 [Hk3 Hf3]. eapply safe_bind; [apply (adjust_all_safe s3); exact (proj1 Hk3)|]. intros [s4 ok] [Hk4 Hf4]. cbn [fst] in *.
  assert (Hk : keep s2 s4) by (eapply keep_trans; [exact Hk3|exact Hk4]).
  assert (Hf : fewer (n_recon s2) (n_recon s4)) by (eapply fewer_trans; [exact Hf3|exact Hf4]).
  assert (Hv4 : forall u, est_view (n_recon s4) u -> est_view (n_recon s) u).
  { intros u Hu. apply Hfl1, Hv2. destruct Hk as (_ & Hfl & _). by apply Hfl. }
  assert (Hseen : forall s', good s' -> same_flags (n_recon s2) (n_recon s') -> fewer (n_recon s2) (n_recon s') -> seen_twice s').
  { intros s' Hg' Hfl Hfw t Ht. apply Hfw, Hs2 in Ht as (us & Hsz & Hus). exists us. split; [done|]. intros u Hin. destruct (Hus u Hin) as [K1 K2]. split; [|by apply Hfl].
    apply (scene_sees r0 h0 _ (n_heap s') u t (proj1 Hg')). by apply (scene_sees r0 h0 _ (n_heap s2) u t (proj1 Hg2)). }
  destruct ok.
  - destruct (remove_outliers_ok s4 (proj1 Hk4)) as (s5 & E5 & Hk5 & Hf5 & Ev5 & Eh5 & Hcl5). rewrite E5. cbn [mbind outcome_bind].
    eapply safe_weaken; [apply (IH false s5); exact (proj1 Hk5)|]. intros [s6 ok6] (G6 & V6 & S6). cbn [fst snd] in *. split; [done|]. split.
    { intros u Hu. apply Hv4. destruct Hk5 as (_ & Hfl & _). apply Hfl. by apply V6. }
    intros _. apply S6. right. split; [|done]. apply Hseen; [exact (proj1 Hk5)| |eapply fewer_trans; [exact Hf|exact Hf5]].
    intros u. destruct Hk5 as (_ & A & _). destruct Hk as (_ & B & _). rewrite (A u). apply B.
  - cbn [safe fst snd]. split; [exact (proj1 Hk)|]. split; [done|]. intros _. split; [|discriminate]. apply Hseen; [exact (proj1 Hk)|apply Hk|exact Hf].
Qed.
End rounds.
