(** Properties of the geometric verification of the matches between two views. *)
From stdpp Require Import gmap strings.
From Coq Require Import Reals QArith_base Qcanon Lia Lra.
From Verif Require Import Base Reconstruction_Model BundleAdjust_Model SfmQueries_Model Priors_Model Priors_Spec Priors_Proofs
  Localize_Model Localize_Spec VisibilityPyramid_Model VisibilityPyramid_Spec GeometricVerification_Model GeometricVerification_Spec
  GeometricVerification_Proofs.

Section props.
Context {X P : Type} (y : geometry X P) (z : solvers X P) (err : relative_error (X := X)) (ferr : focal_relative_error (X := X)).

Lemma size_small n : (0 <= n < 2 ^ 31)%Z -> to_size n = n.
Proof. intros H. unfold to_size. apply Z.mod_small. lia. Qed.

(** C109: estimating the geometry of two views.  On success the focal lengths, the pose and the inliers are those of the
    estimator for the case, with the threshold for the sizes of the images; otherwise nothing is changed. *)
Theorem two_view_estimate opts p1 p2 cs info b info' inl : solver_contract err ferr z ->
  estimate_two_view_info y z opts p1 p2 cs info = Ok (b, info', inl) ->
  ti_homography info' = ti_homography info /\
  if b then
    estimated y err ferr opts p1 p2 cs (ti_focal1 info') (ti_focal2 info') (ti_rotation info') (ti_position info') inl /\
    ti_verified info' = Z.of_nat (length inl)
  else info' = info /\ inl = [].
Proof.
  intros Hc H. apply (estimate_Ok y z err ferr) in H as [(-> & -> & ->)|(-> & He & Hv & Hh & _)]; done.
Qed.

(** ... and it does not abort or run into undefined behaviour for priors that the cameras accept. *)
Theorem two_view_estimate_total opts p1 p2 cs info : valid_prior p1 -> valid_prior p2 ->
  exists res, estimate_two_view_info y z opts p1 p2 cs info = Ok res.
Proof. apply estimate_total. Qed.

(** C110: what verification returns.  The candidates [ms] are reduced to the inliers of the two-view geometry, extended by
    the guided matcher if it is used, and reduced by the adjustment if that is used.  The result has more than the
    required number of matches, its number is recorded, and the pose, of unit baseline after an adjustment, and the
    focal lengths are those of the cameras. *)
Theorem verification_result opts p1 p2 ks1 ks2 ms out info out' info' v' : solver_contract err ferr z ->
  (0 <= vo_min_matches opts < 2 ^ 31)%Z ->
  verify_matches y z opts p1 p2 ks1 ks2 (new_verifier ms) out info = Ok (true, out', info', v') ->
  exists cs f1 f2 rot pos inl ms0 ms1 c1 c2,
    seen ks1 ks2 ms cs /\ estimated y err ferr opts p1 p2 cs f1 f2 rot pos inl /\
    Forall2 (fun i m => ms !! i = Some m) inl ms0 /\
    calibrated_as p1 (Some f1) c1 /\ tc_ext c1 = [0; 0; 0; 0; 0; 0]%R /\ calibrated_as p2 (Some f2) c2 /\ tc_ext c2 = pos ++ rot /\
    (if vo_guided opts then z_guided z c1 c2 ms0 = Ok ms1 else ms1 = ms0) /\
    (if vo_adjust opts then
       adjusted y z opts p1 p2 ks1 ks2 c1 c2 ms1 (vf_camera1 v') (vf_camera2 v') (vf_matches v') /\
       tc_ext (vf_camera1 v') = [0; 0; 0; 0; 0; 0]%R /\
       ti_focal1 info' = camera_focal (vf_camera1 v') /\ ti_focal2 info' = camera_focal (vf_camera2 v') /\
       unit_of (take 3 (tc_ext (vf_camera2 v'))) (ti_position info') /\ ti_rotation info' = drop 3 (tc_ext (vf_camera2 v'))
     else vf_matches v' = ms1 /\ vf_camera1 v' = c1 /\ vf_camera2 v' = c2 /\
       ti_focal1 info' = f1 /\ ti_focal2 info' = f2 /\ ti_position info' = pos /\ ti_rotation info' = rot) /\
    seen ks1 ks2 (vf_matches v') out' /\ ti_verified info' = Z.of_nat (length out') /\
    (vo_min_matches opts < Z.of_nat (length out'))%Z.
Proof.
  intros Hc Hmin H. unfold verify_matches in H. rewrite (size_small _ Hmin) in H.
  destruct (decide _) in H; [discriminate H|]. cbn [new_verifier vf_matches vf_camera1 vf_camera2] in H.
  destruct (correspondences ks1 ks2 ms) as [cs| | |] eqn:Ecs; cbn [mbind outcome_bind] in H; try discriminate H.
  destruct (count_homography z opts ks1 ks2 _) as [nh| | |] eqn:Enh; cbn [mbind outcome_bind] in H; try discriminate H.
  destruct (estimate_two_view_info y z opts p1 p2 cs _) as [[[b info1] inl]| | |] eqn:Ee; cbn [mbind outcome_bind] in H; try discriminate H.
  apply (estimate_Ok y z err ferr) in Ee as [(-> & -> & ->)|(-> & He & Hv & Hh & Hs)]; [discriminate H| |done].
  cbn [andb] in H. destruct (bool_decide _) eqn:Hin in H; [|discriminate H].
  destruct (select_matches ms inl) as [ms0| | |] eqn:Em; cbn [mbind outcome_bind] in H; try discriminate H.
  destruct (setup_cameras p1 p2 info1 new_camera new_camera) as [[c1 c2]| | |] eqn:Es; cbn [mbind outcome_bind] in H; try discriminate H.
  apply setup_Ok in Es as (C1 & X1 & C2 & X2). apply select_matches_Ok in Em. apply correspondences_Ok in Ecs.
  unfold finish in H. cbn [vf_matches vf_camera1 vf_camera2] in H. rewrite (size_small _ Hmin) in H.
  destruct (if vo_guided opts then _ else _) as [ms1| | |] eqn:Eg; cbn [mbind outcome_bind] in H; try discriminate H.
  exists cs, (ti_focal1 info1), (ti_focal2 info1), (ti_rotation info1), (ti_position info1), inl, ms0, ms1, c1, c2.
  do 7 (split; [done|]). split; [destruct (vo_guided opts); [done|by injection Eg as <-]|].
  assert (L6 : length (tc_ext c2) = 6%nat).
  { rewrite X2, app_length. destruct He as (Lr & Lp & _). rewrite Lr, Lp. done. }
  destruct (vo_adjust opts) eqn:Eadj; cbn [andb] in H.
  - case_bool_decide as Hb.
    + destruct (adjust_relative_pose y z opts p1 p2 ks1 ks2 _ info1) as [[[b1 info2] v2]| | |] eqn:Ea; cbn [mbind outcome_bind] in H; try discriminate H.
      destruct b1; [|discriminate H].
      destruct (correspondences ks1 ks2 (vf_matches v2)) as [o| | |] eqn:Eo; cbn [mbind outcome_bind] in H; try discriminate H.
      injection H as Hlen <- <- <-. apply bool_decide_eq_true in Hlen.
      apply (adjust_Ok y z err ferr) in Ea as (A1 & A2 & A3 & A4 & A5 & A6 & A7); [|done|done].
      cbn [vf_matches vf_camera1 vf_camera2 ti_focal1 ti_focal2 ti_position ti_rotation ti_verified] in *.
      apply correspondences_Ok in Eo. split_and!; try done.
      destruct A1 as (tri & ps & cs' & ps' & kept & _ & _ & _ & Ez & _). destruct Hc as (_ & _ & Hadj).
      apply Hadj in Ez as (_ & Ex & _). by rewrite Ex.
    + cbn [mbind outcome_bind vf_matches] in H.
      destruct (correspondences ks1 ks2 ms1) as [o| | |] eqn:Eo; cbn [mbind outcome_bind] in H; try discriminate H.
      injection H as Hlen _ _ _. apply bool_decide_eq_true in Hlen. apply correspondences_Ok, seen_length in Eo. rewrite Eo in Hlen. done.
  - cbn [mbind outcome_bind vf_matches] in H.
    destruct (correspondences ks1 ks2 ms1) as [o| | |] eqn:Eo; cbn [mbind outcome_bind] in H; try discriminate H.
    injection H as Hlen <- <- <-. apply bool_decide_eq_true in Hlen. apply correspondences_Ok in Eo. cbn. done.
Qed.

(** ... so without guided matching the matches are some of the candidates, in their order if the inliers are, each with
    an error below the threshold in the two-view geometry that was estimated from them. *)
Theorem verification_subset opts p1 p2 ks1 ks2 ms out info out' info' v' : solver_contract err ferr z ->
  (0 <= vo_min_matches opts < 2 ^ 31)%Z -> vo_guided opts = false ->
  verify_matches y z opts p1 p2 ks1 ks2 (new_verifier ms) out info = Ok (true, out', info', v') ->
  exists cs f1 f2 rot pos inl,
    seen ks1 ks2 ms cs /\ estimated y err ferr opts p1 p2 cs f1 f2 rot pos inl /\
    exists kept, kept `sublist_of` inl /\ Forall2 (fun i c => cs !! i = Some c) kept out' /\
      (vo_adjust opts = true -> forall i, i ∈ kept -> exists m p, ms !! i = Some m /\
         near_both y ks1 ks2 (vf_camera1 v') (vf_camera2 v') (vo_final opts) m p).
Proof.
  intros Hc Hmin Hg H. destruct (verification_result _ _ _ _ _ _ _ _ _ _ _ Hc Hmin H) as
    (cs & f1 & f2 & rot & pos & inl & ms0 & ms1 & c1 & c2 & Hs & He & Hm0 & _ & _ & _ & _ & Hgd & Ha & Ho & _ & _).
  rewrite Hg in Hgd. subst ms1. exists cs, f1, f2, rot, pos, inl. split; [done|]. split; [done|].
  assert (Hsub : forall l0 l1, Forall2 (fun (i : nat) m => ms !! i = Some m) l0 l1 -> forall l2, l2 `sublist_of` l1 ->
    exists k, k `sublist_of` l0 /\ Forall2 (fun i m => ms !! i = Some m) k l2).
  { clear. intros l0 l1 HF l2 Hs. revert l0 HF. induction Hs as [|m l2 l1 Hs IH|m l2 l1 Hs IH]; intros l0 HF.
    - inversion HF; subst. exists []. split; constructor.
    - inversion HF as [|i ? l0' ? Hi HF']; subst. destruct (IH _ HF') as (k & K1 & K2). exists (i :: k). split; by constructor.
    - inversion HF as [|i ? l0' ? Hi HF']; subst. destruct (IH _ HF') as (k & K1 & K2). exists k. split; [by constructor|done]. }
  assert (Hlook : forall k l, Forall2 (fun i m => ms !! i = Some m) k l -> seen ks1 ks2 l out' -> Forall2 (fun i c => cs !! i = Some c) k out').
  { intros k l H1 H2. revert k H1. unfold seen in H2. clear -H2 Hs. induction H2 as [|m c l o [E1 E2] H2 IH]; intros k H1; inversion H1 as [|i ? k' ? Hi H1']; subst; constructor; [|by apply IH].
    destruct (Forall2_lookup_l _ _ _ _ _ Hs Hi) as (c' & Hc' & F1 & F2). rewrite Hc'. destruct c, c'. cbn in *. congruence. }
  destruct (vo_adjust opts).
  - destruct Ha as [(tri & ps & cs' & ps' & kept & T1 & T2 & T3 & Ez & Hk & Ek) _].
    assert (Hps : length tri = length ps').
    { destruct Hc as (_ & _ & Hadj). apply Hadj in Ez as (-> & _). by eapply Forall2_length. }
    assert (Hsl : vf_matches v' `sublist_of` ms0).
    { etrans; [|by eapply selects_sublist]. rewrite Ek. rewrite <-(fst_zip tri ps') at 1 by lia.
      apply sublist_map. by eapply selects_sublist. }
    destruct (Hsub _ _ Hm0 _ Hsl) as (k & K1 & K2). exists k. split; [done|]. split; [by eapply Hlook|].
    intros _ i Hi. apply elem_of_list_lookup in Hi as [j Hj]. destruct (Forall2_lookup_l _ _ _ _ _ K2 Hj) as (m & Hm & Em).
    rewrite Ek, list_lookup_fmap in Hm. destruct (kept !! j) as [[m' p]|] eqn:Ej; [|discriminate Hm]. injection Hm as ->.
    exists m, p. split; [done|]. apply elem_of_list_lookup_2 in Ej. by destruct (selects_in _ _ _ _ Hk Ej).
  - destruct Ha as [E _]. exists inl. split; [done|]. split; [|discriminate]. rewrite E in Ho. by eapply Hlook.
Qed.

(** C111: for matches that refer to keypoints and priors that the cameras accept, verification without guided matching
    neither aborts nor runs into undefined behaviour. *)
Theorem verification_no_undefined opts p1 p2 ks1 ks2 ms out info : solver_contract err ferr z ->
  vo_guided opts = false -> in_range ks1 ks2 ms -> valid_prior p1 -> valid_prior p2 ->
  exists res, verify_matches y z opts p1 p2 ks1 ks2 (new_verifier ms) out info = Ok res.
Proof.
  intros Hc Hg Hr H1 H2. unfold verify_matches. destruct (decide _); [by eexists|].
  cbn [new_verifier vf_matches vf_camera1 vf_camera2]. destruct (correspondences_total ks1 ks2 ms Hr) as [cs Ecs].
  assert (exists n, count_homography z opts ks1 ks2 (new_verifier ms) = Ok n) as [nh Enh].
  { unfold count_homography. cbn [new_verifier vf_matches]. rewrite Ecs. cbn. by eexists. }
  rewrite Ecs, Enh. cbn [mbind outcome_bind].
  apply correspondences_Ok, seen_length in Ecs as Hlen.
  match goal with |- context [estimate_two_view_info y z opts p1 p2 cs ?i] =>
    destruct (estimate_total y z opts p1 p2 cs i H1 H2) as [[[b info1] inl] Ee] end.
  rewrite Ee. cbn [mbind outcome_bind].
  apply (estimate_Ok y z err ferr) in Ee as [(-> & -> & ->)|(-> & He & Hv & Hh & Hs)]; [by eexists| |done].
  cbn [andb]. case_bool_decide; [|by eexists].
  assert (Hinl : forall i, i ∈ inl -> (i < length ms)%nat /\ (0 < ti_focal1 info1)%R /\ (0 < ti_focal2 info1)%R).
  { destruct He as (_ & _ & _ & t1 & t2 & _ & _ & He). destruct H1 as (_ & Hp1 & _), H2 as (_ & Hp2 & _).
    unfold positive_focal in Hp1, Hp2.
    assert (Hl : forall i c, cs !! i = Some c -> (i < length ms)%nat) by (intros i c Hi%lookup_lt_Some; lia).
    intros i Hi. destruct (p_focal p1), (p_focal p2).
    - destruct He as (-> & -> & c1 & c2 & _ & _ & He). destruct (He i Hi) as (c & Ec & _). eauto.
    - destruct He as (F1 & F2 & c1 & c2 & _ & _ & He). destruct (He i Hi) as (c & Ec & _). eauto.
    - destruct He as (F1 & F2 & c1 & c2 & _ & _ & He). destruct (He i Hi) as (c & Ec & _). eauto.
    - destruct He as (F1 & F2 & c1 & c2 & _ & _ & He). destruct (He i Hi) as (c & Ec & _). eauto. }
  destruct (select_matches_total ms inl) as [ms0 Em]; [intros i Hi; by apply Hinl|]. rewrite Em. cbn [mbind outcome_bind].
  assert (Hf : (0 < ti_focal1 info1)%R /\ (0 < ti_focal2 info1)%R).
  { destruct He as (_ & _ & _ & t1 & t2 & _ & _ & He). destruct H1 as (_ & Hp1 & _), H2 as (_ & Hp2 & _).
    unfold positive_focal in Hp1, Hp2. destruct (p_focal p1), (p_focal p2).
    - by destruct He as (-> & -> & _).
    - by destruct He as (? & ? & _).
    - by destruct He as (? & ? & _).
    - by destruct He as (? & ? & _). }
  destruct (setup_total p1 p2 info1 H1 H2) as (c1 & c2 & ->); [apply Hf..|]. cbn [mbind outcome_bind].
  apply select_matches_Ok in Em.
  assert (Hr0 : in_range ks1 ks2 ms0).
  { intros m Hm. apply Hr. apply elem_of_list_lookup in Hm as [j Hj]. destruct (Forall2_lookup_r _ _ _ _ _ Em Hj) as (i & _ & Hi).
    by eapply elem_of_list_lookup_2. }
  unfold finish. rewrite Hg. cbn [mbind outcome_bind vf_matches vf_camera1 vf_camera2].
  destruct (vo_adjust opts && _).
  - destruct (adjust_total y z err ferr opts p1 p2 ks1 ks2 (Verifier c1 c2 ms0) info1 Hc Hr0) as (b & info2 & v2 & -> & Hr2). cbn [mbind outcome_bind].
    destruct b; [|by eexists]. destruct (correspondences_total ks1 ks2 (vf_matches v2) Hr2) as [o ->]. cbn. by eexists.
  - cbn [mbind outcome_bind vf_matches]. destruct (correspondences_total ks1 ks2 ms0 Hr0) as [o ->]. cbn. by eexists.
Qed.

(** C112: the limit on the number of matches.  Without guided matching and adjustment, verification succeeds exactly when
    the two-view geometry has more inliers than the limit. *)
Theorem verification_limit_partial opts p1 p2 ks1 ks2 ms out info b out' info' v' : solver_contract err ferr z ->
  (0 <= vo_min_matches opts < 2 ^ 31)%Z -> vo_guided opts = false -> vo_adjust opts = false ->
  verify_matches y z opts p1 p2 ks1 ks2 (new_verifier ms) out info = Ok (b, out', info', v') ->
  forall cs info0, seen ks1 ks2 ms cs -> forall ok info1 inl,
  estimate_two_view_info y z opts p1 p2 cs info0 = Ok (ok, info1, inl) ->
  b = true <-> ok = true /\ (vo_min_matches opts < Z.of_nat (length inl))%Z.
Proof.
  intros Hc Hmin Hg Ha H cs info0 Hs ok info1 inl He. unfold verify_matches in H. rewrite (size_small _ Hmin) in H.
  assert (Hns : forall i0 i1 : two_view_info, match estimate_two_view_info y z opts p1 p2 cs i0, estimate_two_view_info y z opts p1 p2 cs i1 with
    | Ok a, Ok a' => a.1.1 = a'.1.1 /\ a.2 = a'.2 | Ok _, _ => False | _, Ok _ => False | _, _ => True end).
  { intros i0 i1. unfold estimate_two_view_info, estimate_calibrated, estimate_uncalibrated, set_info.
    destruct (normalize_features y p1 p2 cs), (visibility_score p1 p2 cs []), (p_focal p1), (p_focal p2); cbn [mbind outcome_bind]; cbv zeta; try exact I;
      match goal with |- context [match ?e with Some _ => _ | None => _ end] => destruct e end; cbn [fst snd]; try exact I; split; reflexivity. }
  assert (Hle : ok = true -> (length inl <= length ms)%nat).
  { intros ->. destruct (two_view_estimate _ _ _ _ _ _ _ _ Hc He) as (_ & (_ & _ & Hnd & t1 & t2 & _ & _ & Hin) & _).
    rewrite <-(seq_length (length ms) 0). apply submseteq_length, NoDup_submseteq; [done|]. intros i Hi. apply elem_of_seq.
    apply seen_length in Hs. assert (exists c, cs !! i = Some c) as [c Ei%lookup_lt_Some]; [|lia].
    destruct (p_focal p1), (p_focal p2); destruct Hin as (_ & _ & ? & ? & _ & _ & Hin); destruct (Hin i Hi) as (c & Ec & _); by exists c. }
  destruct (decide (Z.of_nat (length (vf_matches (new_verifier ms))) < vo_min_matches opts)%Z) as [Hlt|Hge].
  { injection H as <- <- <- <-. split; [discriminate|]. intros [-> Hl]. specialize (Hle eq_refl). cbn in Hlt. lia. }
  cbn [new_verifier vf_matches vf_camera1 vf_camera2] in H.
  destruct (correspondences ks1 ks2 ms) as [cs0| | |] eqn:Ecs; cbn [mbind outcome_bind] in H; try discriminate H.
  rewrite (proj2 (correspondences_Ok _ _ _ _) Hs) in Ecs. injection Ecs as <-.
  destruct (count_homography z opts ks1 ks2 _) as [nh| | |] eqn:Enh; cbn [mbind outcome_bind] in H; try discriminate H.
  destruct (estimate_two_view_info y z opts p1 p2 cs _) as [[[ok2 info2] inl2]| | |] eqn:Ee in H; cbn [mbind outcome_bind] in H; try discriminate H.
  match type of Ee with estimate_two_view_info _ _ _ _ _ _ ?i = _ => specialize (Hns info0 i) end. rewrite He, Ee in Hns. destruct Hns as [E1 E2]. cbn in E1, E2. subst ok2 inl2.
  destruct ok; cbn [andb] in H; [|injection H as <- <- <- <-; split; [discriminate|by intros [? _]]].
  destruct (bool_decide _) eqn:Hin in H; [|injection H as <- <- <- <-; apply bool_decide_eq_false in Hin; split; [discriminate|intros [_ ?]; lia]].
  destruct (select_matches ms inl) as [ms0| | |] eqn:Em; cbn [mbind outcome_bind] in H; try discriminate H.
  destruct (setup_cameras p1 p2 info2 new_camera new_camera) as [[c1 c2]| | |] eqn:Es; cbn [mbind outcome_bind] in H; try discriminate H.
  unfold finish in H. rewrite Hg, Ha, (size_small _ Hmin) in H. cbn [andb mbind outcome_bind vf_matches vf_camera1 vf_camera2] in H.
  destruct (correspondences ks1 ks2 ms0) as [o| | |] eqn:Eo; cbn [mbind outcome_bind] in H; try discriminate H.
  injection H as <- _ _ _. rewrite bool_decide_eq_true. apply correspondences_Ok, seen_length in Eo.
  apply select_matches_Ok, Forall2_length in Em. rewrite Eo, <-Em. tauto.
Qed.

(** A negative limit is never reached, so that verification fails. *)
Theorem negative_limit opts p1 p2 ks1 ks2 v out info : (- 2 ^ 31 <= vo_min_matches opts < 0)%Z -> (Z.of_nat (length (vf_matches v)) < 2 ^ 63)%Z ->
  verify_matches y z opts p1 p2 ks1 ks2 v out info = Ok (false, out, info, v).
Proof.
  intros Hm Hl. unfold verify_matches. rewrite decide_True; [done|]. unfold to_size.
  rewrite <-(Z_mod_plus_full _ 1), Z.mod_small by lia. lia.
Qed.

(** C113: the visibility score is recorded as zero whatever the inliers are. *)
Theorem visibility_score_partial opts p1 p2 cs info info' inl : solver_contract err ferr z ->
  estimate_two_view_info y z opts p1 p2 cs info = Ok (true, info', inl) -> ti_visibility info' = 0%Z.
Proof. intros Hc H. by apply (estimate_Ok y z err ferr) in H as [(? & _)|(_ & _ & _ & _ & ?)]. Qed.

(** C114: the number of homography inliers is counted with the threshold for images of 1024 pixels. *)
Theorem homography_count_partial opts p1 p2 ks1 ks2 ms out info out' info' v' : solver_contract err ferr z ->
  verify_matches y z opts p1 p2 ks1 ks2 (new_verifier ms) out info = Ok (true, out', info', v') ->
  exists cs, seen ks1 ks2 ms cs /\
    ti_homography info' = Z.of_nat (length (z_homography z (vo_sampson opts * vo_sampson opts)%R cs)).
Proof.
  intros Hc H. unfold verify_matches in H. destruct (decide _) in H; [discriminate H|].
  cbn [new_verifier vf_matches vf_camera1 vf_camera2] in H.
  destruct (correspondences ks1 ks2 ms) as [cs| | |] eqn:Ecs; cbn [mbind outcome_bind] in H; try discriminate H.
  exists cs. apply correspondences_Ok in Ecs as Hs. split; [done|].
  unfold count_homography in H. cbn [vf_matches vf_camera1 vf_camera2 new_verifier] in H. rewrite Ecs in H. cbn [mbind outcome_bind] in H. cbv zeta in H. cbn [mbind outcome_bind] in H.
  replace (resolution_scaled_threshold (vo_sampson opts) (tc_size new_camera).1 (tc_size new_camera).2) with (vo_sampson opts) in H
    by (unfold resolution_scaled_threshold; cbn [new_camera tc_size fst snd]; by rewrite decide_True).
  destruct (estimate_two_view_info y z opts p1 p2 cs _) as [[[b info1] inl]| | |] eqn:Ee; cbn [mbind outcome_bind] in H; try discriminate H.
  apply (estimate_Ok y z err ferr) in Ee as [(-> & -> & ->)|(-> & He & Hv & Hh & Hs')]; [discriminate H| |done].
  cbn [andb] in H. destruct (bool_decide _) eqn:Hin in H; [|discriminate H].
  destruct (select_matches ms inl) as [ms0| | |] eqn:Em; cbn [mbind outcome_bind] in H; try discriminate H.
  destruct (setup_cameras p1 p2 info1 new_camera new_camera) as [[c1 c2]| | |] eqn:Es; cbn [mbind outcome_bind] in H; try discriminate H.
  cbn [ti_homography] in Hh. rewrite <-Hh.
  unfold finish in H. cbn [vf_matches vf_camera1 vf_camera2] in H.
  destruct (if vo_guided opts then _ else _) as [ms1| | |] eqn:Eg; cbn [mbind outcome_bind] in H; try discriminate H.
  assert (L6 : length (tc_ext c2) = 6%nat).
  { apply setup_Ok in Es as (_ & _ & _ & X2). rewrite X2, app_length. destruct He as (Lr & Lp & _). rewrite Lr, Lp. done. }
  destruct (vo_adjust opts && _).
  - destruct (adjust_relative_pose y z opts p1 p2 ks1 ks2 _ info1) as [[[b1 info2] v2]| | |] eqn:Ea; cbn [mbind outcome_bind] in H; try discriminate H.
    destruct b1; [|discriminate H].
    destruct (correspondences ks1 ks2 (vf_matches v2)) as [o| | |] eqn:Eo; cbn [mbind outcome_bind] in H; try discriminate H.
    injection H as _ _ <- _. cbn. apply (adjust_Ok y z err ferr) in Ea as (_ & _ & _ & _ & _ & A6 & _); [|done|done]. done.
  - cbn [mbind outcome_bind vf_matches] in H.
    destruct (correspondences ks1 ks2 ms1) as [o| | |] eqn:Eo; cbn [mbind outcome_bind] in H; try discriminate H.
    by injection H as _ _ <- _.
Qed.

(** C115: focal lengths that are known for both images are kept. *)
Theorem known_focal_partial opts p1 p2 ks1 ks2 ms out info out' info' v' g1 g2 : solver_contract err ferr z ->
  (0 <= vo_min_matches opts < 2 ^ 31)%Z -> p_focal p1 = Some g1 -> p_focal p2 = Some g2 ->
  verify_matches y z opts p1 p2 ks1 ks2 (new_verifier ms) out info = Ok (true, out', info', v') ->
  ti_focal1 info' = g1 /\ ti_focal2 info' = g2.
Proof.
  intros Hc Hmin F1 F2 H. destruct (verification_result _ _ _ _ _ _ _ _ _ _ _ Hc Hmin H) as
    (cs & f1 & f2 & rot & pos & inl & ms0 & ms1 & c1 & c2 & Hs & He & Hm0 & C1 & _ & C2 & _ & Hgd & Ha & _).
  destruct He as (_ & _ & _ & t1 & t2 & _ & _ & He). rewrite F1, F2 in He. destruct He as (-> & -> & _).
  destruct (vo_adjust opts).
  - destruct Ha as ((tri & ps & cs' & ps' & kept & _ & _ & _ & Ez & _) & _ & -> & -> & _).
    destruct Hc as (_ & _ & Hadj). apply Hadj in Ez as (_ & _ & _ & _ & _ & (_ & _ & K1) & (_ & _ & K2)).
    rewrite F1, F2 in *. rewrite <-(calibrated_focal _ _ _ C1), <-(calibrated_focal _ _ _ C2). unfold camera_focal.
    rewrite K1, K2; [done|left; by apply bool_decide_eq_true..].
  - by destruct Ha as (_ & _ & _ & -> & -> & _).
Qed.
End props.
