From stdpp Require Import gmap strings.
From Coq Require Import Reals QArith_base Qcanon Lia Lra.
From Verif Require Import Base Reconstruction_Model BundleAdjust_Model SfmQueries_Model Priors_Model Priors_Spec Priors_Proofs
  Localize_Model Localize_Spec VisibilityPyramid_Model GeometricVerification_Model GeometricVerification_Spec.

(** ** Cameras *)
Lemma camera_from_prior_Ok p c c' :
  (forall ty, i_type (tc_intr c) = ty -> i_params (tc_intr c) = i_params (create ty)) ->
  camera_from_prior p c = Ok c' ->
  calibrated_as p None c' /\ tc_ext c' = tc_ext c /\ tc_size c' = (p_width p, p_height p) /\ positive_focal p.
Proof.
  intros Hc H. unfold camera_from_prior in H.
  destruct (type_of_string (p_model p)) as [ty| | |] eqn:Ety; cbn [mbind outcome_bind] in H; try discriminate H.
  apply type_of_string_ok in Ety.
  assert (E : (if decide (i_type (tc_intr c) = ty) then tc_intr c else create ty) = create ty).
  { destruct (decide (i_type (tc_intr c) = ty)) as [e|]; [|done]. specialize (Hc _ e). destruct (tc_intr c) as [a b].
    cbn in e, Hc. subst. by destruct ty. }
  rewrite E in H. replace (i_type (create ty)) with ty in H by by destruct ty.
  destruct (Classical_Prop.classic (positive_focal p)) as [Hp|Hp]; [|rewrite set_from_prior_fail in H by done; discriminate H].
  destruct (set_from_prior_ok ty p (i_params (create ty)) (create_sized ty) Hp) as (ps & Eps & Ha). rewrite Eps in H.
  cbn [mbind outcome_bind] in H. injection H as <-. cbn. split_and!; [|done..].
  exists ty, ps. split_and!; [by apply names_model_string|done|done].
Qed.

Lemma camera_from_prior_total p c : (exists ty, names_model p ty) -> positive_focal p ->
  length (i_params (tc_intr c)) = num_parameters (i_type (tc_intr c)) -> exists c', camera_from_prior p c = Ok c'.
Proof.
  intros [ty Hty] Hp Hl. unfold camera_from_prior. apply names_model_string in Hty.
  rewrite (proj2 (type_of_string_ok _ _) Hty). cbn [mbind outcome_bind].
  destruct (decide (i_type (tc_intr c) = ty)) as [E|E].
  - destruct (set_from_prior_ok (i_type (tc_intr c)) p _ Hl Hp) as (ps & -> & _). cbn. by eexists.
  - destruct (set_from_prior_ok (i_type (create ty)) p (i_params (create ty))) as (ps & -> & _); [by destruct ty|done|]. cbn. by eexists.
Qed.

Lemma camera_set_focal_Ok f c c' : camera_set_focal f c = Ok c' ->
  (0 < f)%R /\ c' = TwoViewCamera (tc_ext c) (Intrinsics (i_type (tc_intr c)) (<[0%nat := f]> (i_params (tc_intr c)))) (tc_size c).
Proof.
  unfold camera_set_focal, set_focal_length. destruct (Rlt_dec 0 f); cbn; [|discriminate]. intros [= <-]. done.
Qed.
Lemma camera_set_focal_total f c : (0 < f)%R -> exists c', camera_set_focal f c = Ok c'.
Proof. intros H. unfold camera_set_focal, set_focal_length. destruct (Rlt_dec 0 f); [|done]. cbn. by eexists. Qed.

Lemma calibrated_set_focal p c f c' : calibrated_as p None c -> camera_set_focal f c = Ok c' -> calibrated_as p (Some f) c'.
Proof.
  intros (ty & ps & Hn & Ha & Ei) H. apply camera_set_focal_Ok in H as [_ ->]. exists ty, ps. split_and!; [done..|].
  cbn. by rewrite Ei.
Qed.

Lemma calibrated_focal p f c : calibrated_as p (Some f) c -> camera_focal c = f.
Proof.
  intros (ty & ps & Hn & [Hl _] & Ei). unfold camera_focal. rewrite Ei. cbn. rewrite list_lookup_insert; [done|].
  rewrite Hl. destruct ty; cbn; lia.
Qed.

Lemma new_camera_fresh ty : i_type (tc_intr new_camera) = ty -> i_params (tc_intr new_camera) = i_params (create ty).
Proof. by intros <-. Qed.

(** ** Correspondences *)
Lemma correspondence_Ok ks1 ks2 m c : correspondence ks1 ks2 m = Ok c <-> ks1 !! m.1 = Some c.1 /\ ks2 !! m.2 = Some c.2.
Proof.
  unfold correspondence. destruct (ks1 !! m.1), (ks2 !! m.2); cbn; split; intros H; try (by destruct H); try done.
  - by injection H as <-.
  - destruct H as [[= H1] [= H2]]. rewrite H1, H2. by destruct c.
Qed.
Lemma correspondences_Ok ks1 ks2 ms cs : correspondences ks1 ks2 ms = Ok cs <-> seen ks1 ks2 ms cs.
Proof.
  unfold seen. revert cs. induction ms as [|m ms IH]; intros cs; cbn.
  - split; [intros [= <-]; constructor|intros H; by inversion H].
  - destruct (correspondence ks1 ks2 m) as [c| | |] eqn:E; cbn [mbind outcome_bind].
    + apply correspondence_Ok in E. destruct (correspondences ks1 ks2 ms) as [cs0| | |] eqn:E0; cbn [mbind outcome_bind].
      * split; [intros [= <-]; constructor; [done|by apply IH]|].
        intros H. inversion H as [|? c1 ? cs1 H1 H2]; subst. apply IH in H2. injection H2 as <-. destruct c, c1, E, H1.
        cbn in *. congruence.
      * split; [done|]. intros H. inversion H as [|? c1 ? cs1 H1 H2]; subst. apply IH in H2. discriminate H2.
      * split; [done|]. intros H. inversion H as [|? c1 ? cs1 H1 H2]; subst. apply IH in H2. discriminate H2.
      * split; [done|]. intros H. inversion H as [|? c1 ? cs1 H1 H2]; subst. apply IH in H2. discriminate H2.
    + split; [done|]. intros H. inversion H as [|? c1 ? cs1 H1 H2]; subst. apply correspondence_Ok in H1. congruence.
    + split; [done|]. intros H. inversion H as [|? c1 ? cs1 H1 H2]; subst. apply correspondence_Ok in H1. congruence.
    + split; [done|]. intros H. inversion H as [|? c1 ? cs1 H1 H2]; subst. apply correspondence_Ok in H1. congruence.
Qed.
Lemma correspondence_total ks1 ks2 (m : nat * nat) : (m.1 < length ks1)%nat -> (m.2 < length ks2)%nat ->
  exists c, correspondence ks1 ks2 m = Ok c.
Proof.
  intros H1 H2. apply lookup_lt_is_Some_2 in H1 as [k1 E1]. apply lookup_lt_is_Some_2 in H2 as [k2 E2].
  exists (k1, k2). by apply correspondence_Ok.
Qed.
Lemma correspondences_total ks1 ks2 ms : in_range ks1 ks2 ms -> exists cs, correspondences ks1 ks2 ms = Ok cs.
Proof.
  induction ms as [|m ms IH]; intros Hr; cbn; [by eexists|].
  destruct (Hr m) as [H1 H2]; [left|]. destruct (correspondence_total ks1 ks2 m H1 H2) as [c ->]. cbn [mbind outcome_bind].
  destruct IH as [cs ->]; [intros m' Hm'; apply Hr; by right|]. cbn. by eexists.
Qed.
Lemma correspondences_range ks1 ks2 ms cs : correspondences ks1 ks2 ms = Ok cs -> in_range ks1 ks2 ms.
Proof.
  intros H%correspondences_Ok m Hm. apply elem_of_list_lookup in Hm as [i Hi].
  destruct (Forall2_lookup_l _ _ _ _ _ H Hi) as (c & _ & H1 & H2). by split; eapply lookup_lt_Some.
Qed.
Lemma seen_length ks1 ks2 ms cs : seen ks1 ks2 ms cs -> length cs = length ms.
Proof. intros H. symmetry. by eapply Forall2_length. Qed.

Lemma select_matches_Ok ms inl ms' : select_matches ms inl = Ok ms' -> Forall2 (fun i m => ms !! i = Some m) inl ms'.
Proof.
  revert ms'. induction inl as [|i inl IH]; intros ms'; cbn; [by intros [= <-]|].
  destruct (ms !! i) as [m|] eqn:E; cbn [or_ub mbind outcome_bind]; [|discriminate].
  destruct (select_matches ms inl) as [r| | |]; cbn [mbind outcome_bind]; try discriminate. intros [= <-]. constructor; auto.
Qed.
Lemma select_matches_total ms inl : (forall i, i ∈ inl -> (i < length ms)%nat) -> exists ms', select_matches ms inl = Ok ms'.
Proof.
  induction inl as [|i inl IH]; intros H; cbn; [by eexists|].
  destruct (lookup_lt_is_Some_2 ms i) as [m ->]; [apply H; left|]. cbn [or_ub mbind outcome_bind].
  destruct IH as [r ->]; [intros j Hj; apply H; by right|]. cbn. by eexists.
Qed.

Lemma scaled_threshold t p : scaled t p (resolution_scaled_threshold t (p_width p) (p_height p)).
Proof.
  unfold resolution_scaled_threshold. split.
  - intros H. by rewrite decide_True.
  - intros H. rewrite decide_False by done. unfold Rdiv. ring.
Qed.

Section proofs.
Context {X P : Type} (y : geometry X P) (z : solvers X P) (err : relative_error (X := X)) (ferr : focal_relative_error (X := X)).

Lemma normalize_features_Ok p1 p2 cs ns : normalize_features y p1 p2 cs = Ok ns ->
  exists c1 c2, ns = (fun c => (y_normalized y (tc_intr c1) c.1, y_normalized y (tc_intr c2) c.2)) <$> cs /\
    match p_focal p1, p_focal p2 with
    | Some _, Some _ => calibrated_as p1 None c1 /\ calibrated_as p2 None c2
    | _, _ => calibrated_as p1 (Some 1%R) c1 /\ calibrated_as p2 (Some 1%R) c2
    end.
Proof.
  intros H. unfold normalize_features in H.
  destruct (camera_from_prior p1 new_camera) as [c1| | |] eqn:E1; cbn [mbind outcome_bind] in H; try discriminate H.
  destruct (camera_from_prior p2 new_camera) as [c2| | |] eqn:E2; cbn [mbind outcome_bind] in H; try discriminate H.
  apply camera_from_prior_Ok in E1 as (H1 & _); [|apply new_camera_fresh].
  apply camera_from_prior_Ok in E2 as (H2 & _); [|apply new_camera_fresh].
  case_bool_decide as Hf.
  - destruct (camera_set_focal 1 c1) as [d1| | |] eqn:E1; cbn [mbind outcome_bind] in H; try discriminate H.
    destruct (camera_set_focal 1 c2) as [d2| | |] eqn:E2; cbn [mbind outcome_bind] in H; try discriminate H.
    injection H as <-. exists d1, d2. split; [done|].
    pose proof (calibrated_set_focal _ _ _ _ H1 E1). pose proof (calibrated_set_focal _ _ _ _ H2 E2).
    destruct (p_focal p1), (p_focal p2); try done. destruct Hf; discriminate.
  - cbn [mbind outcome_bind] in H. injection H as <-. exists c1, c2. split; [done|].
    destruct (p_focal p1), (p_focal p2); try done; destruct Hf; auto.
Qed.

Lemma normalize_features_total p1 p2 cs : valid_prior p1 -> valid_prior p2 -> exists ns, normalize_features y p1 p2 cs = Ok ns.
Proof.
  intros (Hm1 & Hp1 & _) (Hm2 & Hp2 & _). unfold normalize_features.
  destruct (camera_from_prior_total p1 new_camera Hm1 Hp1 eq_refl) as [c1 ->]. cbn [mbind outcome_bind].
  destruct (camera_from_prior_total p2 new_camera Hm2 Hp2 eq_refl) as [c2 ->]. cbn [mbind outcome_bind].
  case_bool_decide; [|cbn; by eexists].
  destruct (camera_set_focal_total 1 c1 Rlt_0_1) as [d1 ->]. cbn [mbind outcome_bind].
  destruct (camera_set_focal_total 1 c2 Rlt_0_1) as [d2 ->]. cbn. by eexists.
Qed.

(** ** EstimateTwoViewInfo *)
Lemma empty_score p1 p2 cs s : visibility_score p1 p2 cs [] = Ok s -> s = 0%Z.
Proof.
  unfold visibility_score. case_bool_decide; [by intros [= <-]|].
  destruct (vp_new (p_width p1) (p_height p1) 6) as [a| | |] eqn:Ea; cbn [mbind outcome_bind]; try discriminate.
  destruct (vp_new (p_width p2) (p_height p2) 6) as [b| | |] eqn:Eb; cbn [mbind outcome_bind]; try discriminate.
  assert (Hs : forall w h q, vp_new w h 6 = Ok q -> vp_score q = Ok 0%Z).
  { intros w h q. unfold vp_new. cbn. unfold check. repeat case_bool_decide; cbn; try discriminate. intros [= <-]. vm_compute. reflexivity. }
  cbn [run_steps mbind outcome_bind fst snd]. rewrite (Hs _ _ _ Ea), (Hs _ _ _ Eb). cbn. by intros [= <-].
Qed.
Lemma empty_score_total p1 p2 cs : valid_prior p1 -> valid_prior p2 -> visibility_score p1 p2 cs [] = Ok 0%Z.
Proof.
  intros (_ & _ & Hw1 & Hh1) (_ & _ & Hw2 & Hh2).
  unfold visibility_score. case_bool_decide as Hd; [done|].
  assert (Hn : forall w h, (0 < w)%Z -> (0 < h)%Z -> exists q, vp_new w h 6 = Ok q /\ vp_score q = Ok 0%Z).
  { intros w h Hw Hh. unfold vp_new. cbn. unfold check. rewrite !bool_decide_true by done. cbn. eexists; split; [done|]. vm_compute. reflexivity. }
  destruct (Hn (p_width p1) (p_height p1)) as (a & -> & Ha); [lia..|].
  destruct (Hn (p_width p2) (p_height p2)) as (b & -> & Hb); [lia..|].
  cbn [run_steps mbind outcome_bind fst snd]. rewrite Ha, Hb. done.
Qed.

(** What EstimateTwoViewInfo returns. *)
Lemma estimate_Ok opts p1 p2 cs info b info' inl : solver_contract err ferr z ->
  estimate_two_view_info y z opts p1 p2 cs info = Ok (b, info', inl) ->
  (b = false /\ info' = info /\ inl = []) \/
  (b = true /\ estimated y err ferr opts p1 p2 cs (ti_focal1 info') (ti_focal2 info') (ti_rotation info') (ti_position info') inl /\
   ti_verified info' = Z.of_nat (length inl) /\ ti_homography info' = ti_homography info /\ ti_visibility info' = 0%Z).
Proof.
  intros (Hrel & Hunc & _) H. unfold estimate_two_view_info in H.
  assert (Hun : estimate_uncalibrated y z opts p1 p2 cs info [] = Ok (b, info', inl) ->
    (p_focal p1 = None \/ p_focal p2 = None) ->
    (b = false /\ info' = info /\ inl = []) \/
    (b = true /\ estimated y err ferr opts p1 p2 cs (ti_focal1 info') (ti_focal2 info') (ti_rotation info') (ti_position info') inl /\
     ti_verified info' = Z.of_nat (length inl) /\ ti_homography info' = ti_homography info /\ ti_visibility info' = 0%Z)).
  { clear H. intros H Hn. unfold estimate_uncalibrated in H.
    destruct (normalize_features y p1 p2 cs) as [ns| | |] eqn:En; cbn [mbind outcome_bind] in H; try discriminate H.
    apply normalize_features_Ok in En as (c1 & c2 & -> & Hc). cbv zeta in H.
    destruct (z_uncalibrated z _ _) as [r|] eqn:Er; [|left; by injection H as <- <- <-].
    apply Hunc in Er as (L1 & L2 & F1 & F2 & Hnd & Hin). unfold set_info in H.
    destruct (visibility_score p1 p2 cs []) as [s| | |] eqn:Es; cbn [mbind outcome_bind] in H; try discriminate H.
    apply empty_score in Es as ->. injection H as <- <- <-. right. cbn. split_and!; try done.
    split_and!; [done..|]. eexists _, _. split; [apply scaled_threshold|]. split; [apply scaled_threshold|].
    assert (Hc' : calibrated_as p1 (Some 1%R) c1 /\ calibrated_as p2 (Some 1%R) c2)
      by (destruct (p_focal p1), (p_focal p2); try done; destruct Hn; discriminate).
    assert (G : (0 < l_focal1 r)%R /\ (0 < l_focal2 r)%R /\ exists c1 c2, calibrated_as p1 (Some 1%R) c1 /\ calibrated_as p2 (Some 1%R) c2 /\
      forall i, i ∈ l_inliers r -> exists c, cs !! i = Some c /\
        (ferr (l_focal1 r) (l_focal2 r) (l_rotation r) (l_position r) (y_normalized y (tc_intr c1) c.1, y_normalized y (tc_intr c2) c.2)
         < resolution_scaled_threshold (vo_sampson opts) (p_width p1) (p_height p1) *
           resolution_scaled_threshold (vo_sampson opts) (p_width p2) (p_height p2))%R).
    { split; [done|]. split; [done|]. exists c1, c2. split; [apply Hc'|]. split; [apply Hc'|]. intros i Hi.
      destruct (Hin i Hi) as (m & Em & He). rewrite list_lookup_fmap in Em. destruct (cs !! i) as [c|]; [|discriminate Em].
      exists c. split; [done|]. by injection Em as <-. }
    destruct (p_focal p1), (p_focal p2); try exact G. destruct Hn; discriminate. }
  destruct (p_focal p1) as [f1|] eqn:Ef1; [|apply Hun; [done|by left]].
  destruct (p_focal p2) as [f2|] eqn:Ef2; [|apply Hun; [done|by right]].
  clear Hun. unfold estimate_calibrated in H.
  destruct (normalize_features y p1 p2 cs) as [ns| | |] eqn:En; cbn [mbind outcome_bind] in H; try discriminate H.
  apply normalize_features_Ok in En as (c1 & c2 & -> & Hc). cbv zeta in H. rewrite Ef1, Ef2 in Hc.
  destruct (z_relative z _ _) as [r|] eqn:Er; [|left; by injection H as <- <- <-].
  apply Hrel in Er as (L1 & L2 & Hnd & Hin). unfold set_info in H.
  destruct (visibility_score p1 p2 cs []) as [s| | |] eqn:Es; cbn [mbind outcome_bind] in H; try discriminate H.
  apply empty_score in Es as ->. injection H as <- <- <-. right. cbn. split_and!; try done.
  split_and!; [done..|]. eexists _, _. split; [apply scaled_threshold|]. split; [apply scaled_threshold|].
  rewrite Ef1, Ef2. split; [done|]. split; [done|]. exists c1, c2. split; [apply Hc|]. split; [apply Hc|]. intros i Hi.
  destruct (Hin i Hi) as (m & Em & He). rewrite list_lookup_fmap in Em. destruct (cs !! i) as [c|]; [|discriminate Em].
  exists c. split; [done|]. by injection Em as <-.
Qed.

Lemma estimate_total opts p1 p2 cs info : valid_prior p1 -> valid_prior p2 ->
  exists res, estimate_two_view_info y z opts p1 p2 cs info = Ok res.
Proof.
  intros H1 H2. unfold estimate_two_view_info, estimate_calibrated, estimate_uncalibrated, set_info.
  rewrite (empty_score_total p1 p2 cs H1 H2). destruct (normalize_features_total p1 p2 cs H1 H2) as [ns ->].
  destruct (p_focal p1), (p_focal p2); cbn [mbind outcome_bind]; cbv zeta; case_match; by eexists.
Qed.

(** ** The adjustment *)
Lemma acceptable_spec c x p max : acceptable y c x p (max * max)%Qc = true <-> near y c x p max.
Proof.
  unfold acceptable, near. destruct (y_error y c x p) as [e|].
  - rewrite bool_decide_eq_true. split; [intros H; by exists e|intros (e' & [= <-] & H); done].
  - split; [discriminate|]. by intros (e & [=] & _).
Qed.

Lemma near_both_spec ks1 ks2 c1 c2 max m p c : ks1 !! m.1 = Some c.1 -> ks2 !! m.2 = Some c.2 ->
  near_both y ks1 ks2 c1 c2 max m p <-> near y c1 c.1 p max /\ near y c2 c.2 p max.
Proof.
  intros H1 H2. unfold near_both. split.
  - intros (k1 & k2 & E1 & E2 & Hn). rewrite H1 in E1. rewrite H2 in E2. injection E1 as <-. by injection E2 as <-.
  - intros Hn. by exists c.1, c.2.
Qed.

Lemma first_point_spec opts ks1 ks2 c1 c2 m p c : ks1 !! m.1 = Some c.1 -> ks2 !! m.2 = Some c.2 ->
  first_point y opts ks1 ks2 c1 c2 m p <->
  near y c1 c.1 p (vo_triangulation opts) /\ near y c2 c.2 p (vo_triangulation opts) /\ y_midpoint y c1 c2 c.1 c.2 = Some p /\
  sufficient_angle (vo_cos_angle opts) [y_ray y c1 c.1; y_ray y c2 c.2] = true.
Proof.
  intros H1 H2. unfold first_point. rewrite (near_both_spec ks1 ks2 c1 c2 _ m p c H1 H2).
  assert (Hs : sufficient_angle (vo_cos_angle opts) [y_ray y c1 c.1; y_ray y c2 c.2] = true <->
               (dot (y_ray y c1 c.1) (y_ray y c2 c.2) < vo_cos_angle opts)%Qc).
  { cbn. rewrite !orb_false_r, bool_decide_eq_true. done. }
  rewrite Hs. split.
  - intros ([Ha Hb] & k1 & k2 & E1 & E2 & Em & Ed). rewrite H1 in E1. rewrite H2 in E2. injection E1 as <-. injection E2 as <-. done.
  - intros (Ha & Hb & Em & Ed). split; [done|]. by exists c.1, c.2.
Qed.

Lemma triangulate_Ok opts ks1 ks2 c1 c2 ms tri ps : triangulate_points y opts ks1 ks2 c1 c2 ms = Ok (tri, ps) ->
  selects (fun m => exists p, first_point y opts ks1 ks2 c1 c2 m p) ms tri /\ Forall2 (first_point y opts ks1 ks2 c1 c2) tri ps.
Proof.
  revert tri ps. induction ms as [|m ms IH]; intros tri ps H; cbn [triangulate_points] in H.
  { injection H as <- <-. split; constructor. }
  destruct (correspondence ks1 ks2 m) as [c| | |] eqn:Ec; cbn [mbind outcome_bind] in H; try discriminate H.
  apply correspondence_Ok in Ec as [K1 K2].
  destruct (triangulate_points y opts ks1 ks2 c1 c2 ms) as [[tri0 ps0]| | |]; cbn [mbind outcome_bind] in H; try discriminate H.
  destruct (IH _ _ eq_refl) as [I1 I2].
  assert (Hp : forall p, first_point y opts ks1 ks2 c1 c2 m p <-> _) by (intros p; apply (first_point_spec opts ks1 ks2 c1 c2 m p c K1 K2)).
  assert (Hno : (forall p, ~ first_point y opts ks1 ks2 c1 c2 m p) -> Ok (tri0, ps0) = Ok (tri, ps) ->
    selects (fun m => exists p, first_point y opts ks1 ks2 c1 c2 m p) (m :: ms) tri /\ Forall2 (first_point y opts ks1 ks2 c1 c2) tri ps).
  { intros Hn [= <- <-]. split; [|done]. apply selects_no; [|done]. intros [p Hfp]. by apply (Hn p). }
  destruct (sufficient_angle _ _) eqn:Ea; [|apply Hno; [|done]; intros p Hfp; apply Hp in Hfp as (_ & _ & _ & Hx); congruence].
  destruct (y_midpoint y c1 c2 c.1 c.2) as [p|] eqn:Em;
    [|apply Hno; [|done]; intros p Hfp; apply Hp in Hfp as (_ & _ & Hx & _); discriminate Hx].
  destruct (acceptable y c1 c.1 p _) eqn:A1; cbn [negb orb] in H;
    [|apply Hno; [|done]; intros p' Hfp; apply Hp in Hfp as (Hx & _ & [= <-] & _); apply acceptable_spec in Hx; congruence].
  destruct (acceptable y c2 c.2 p _) eqn:A2; cbn [negb orb] in H;
    [|apply Hno; [|done]; intros p' Hfp; apply Hp in Hfp as (_ & Hx & [= <-] & _); apply acceptable_spec in Hx; congruence].
  injection H as <- <-. apply acceptable_spec in A1, A2.
  assert (Hf : first_point y opts ks1 ks2 c1 c2 m p) by (by apply Hp).
  cbn. split; [apply selects_yes; [by exists p|done]|by constructor].
Qed.

Lemma triangulate_total opts ks1 ks2 c1 c2 ms : in_range ks1 ks2 ms -> exists res, triangulate_points y opts ks1 ks2 c1 c2 ms = Ok res.
Proof.
  induction ms as [|m ms IH]; intros Hr; cbn [triangulate_points]; [by eexists|].
  destruct (Hr m) as [H1 H2]; [left|]. destruct (correspondence_total ks1 ks2 m H1 H2) as [c ->]. cbn [mbind outcome_bind].
  destruct IH as [rest ->]; [intros m' Hm'; apply Hr; by right|]. cbn [mbind outcome_bind].
  destruct (sufficient_angle _ _); [|by eexists]. destruct (y_midpoint _ _ _ _ _); [|by eexists].
  destruct (negb _ || negb _); by eexists.
Qed.

Lemma selects_in {A} (Q : A -> Prop) l l' a : selects Q l l' -> a ∈ l' -> a ∈ l /\ Q a.
Proof.
  induction 1 as [|b l l' Hb H IH|b l l' Hb H IH]; intros Ha; [by apply elem_of_nil in Ha|..].
  - apply elem_of_cons in Ha as [->|Ha]; [split; [left|done]|]. destruct (IH Ha). split; [by right|done].
  - destruct (IH Ha). split; [by right|done].
Qed.
Lemma selects_sublist {A} (Q : A -> Prop) l l' : selects Q l l' -> l' `sublist_of` l.
Proof. induction 1; by constructor. Qed.

Lemma sublist_map {A B} (f : A -> B) l l' : l' `sublist_of` l -> (f <$> l') `sublist_of` (f <$> l).
Proof. induction 1; cbn; by constructor. Qed.

Lemma inliers_after_Ok opts ks1 ks2 c1 c2 cs ms ps ms' : seen ks1 ks2 ms cs -> length ps = length ms ->
  inliers_after y opts c1 c2 cs ms ps = Ok ms' ->
  exists kept, selects (fun mp => near_both y ks1 ks2 c1 c2 (vo_final opts) mp.1 mp.2) (zip ms ps) kept /\ ms' = kept.*1.
Proof.
  intros Hs. revert ps ms'. induction Hs as [|m c ms cs [K1 K2] Hs IH]; intros ps ms' Hl H; cbn [inliers_after] in H.
  { injection H as <-. exists []. split; [|done]. destruct ps; constructor. }
  destruct ps as [|p ps]; [discriminate Hl|]. cbn [head or_ub mbind outcome_bind tail] in H.
  destruct (inliers_after y opts c1 c2 cs ms ps) as [rest| | |] eqn:E; cbn [mbind outcome_bind] in H; try discriminate H.
  destruct (IH ps rest) as (kept & Hk & ->); [by injection Hl|done|].
  assert (Hn := near_both_spec ks1 ks2 c1 c2 (vo_final opts) m p c K1 K2).
  destruct (acceptable y c1 c.1 p _) eqn:A1, (acceptable y c2 c.2 p _) eqn:A2; cbn [andb] in H; injection H as <-.
  - exists ((m, p) :: kept). split; [|done]. cbn. apply selects_yes; [|done]. cbn. apply Hn. by rewrite <-!acceptable_spec.
  - exists kept. split; [|done]. cbn. apply selects_no; [|done]. cbn. rewrite Hn, <-!acceptable_spec. intros [? ?]; congruence.
  - exists kept. split; [|done]. cbn. apply selects_no; [|done]. cbn. rewrite Hn, <-!acceptable_spec. intros [? ?]; congruence.
  - exists kept. split; [|done]. cbn. apply selects_no; [|done]. cbn. rewrite Hn, <-!acceptable_spec. intros [? ?]; congruence.
Qed.
Lemma inliers_after_total opts c1 c2 cs ms ps : length ms = length cs -> length ps = length cs ->
  exists ms', inliers_after y opts c1 c2 cs ms ps = Ok ms'.
Proof.
  revert ms ps. induction cs as [|c cs IH]; intros ms ps H1 H2; cbn [inliers_after]; [by eexists|].
  destruct ms as [|m ms]; [discriminate H1|]. destruct ps as [|p ps]; [discriminate H2|].
  cbn [head or_ub mbind outcome_bind tail]. destruct (IH ms ps) as [r ->]; [by injection H1|by injection H2|]. cbn. by eexists.
Qed.

Lemma normalize_unit (v : list R) : length v = 3%nat -> unit_of v (normalize v).
Proof.
  destruct v as [|a [|b [|c [|]]]]; try discriminate. intros _. unfold normalize. cbn [foldr].
  set (q := (a * a + (b * b + (c * c + 0)))%R). assert (Hq : (0 <= q)%R) by (unfold q; nra).
  destruct (Rlt_dec 0 (sqrt q)) as [Hp|Hp].
  - exists a, b, c, (a / sqrt q)%R, (b / sqrt q)%R, (c / sqrt q)%R. split; [done|]. split; [done|]. right.
    exists (sqrt q). assert (Hs : (sqrt q * sqrt q = q)%R) by (by apply sqrt_sqrt).
    split; [done|]. split; [field; lra|]. split; [field; lra|]. split; [field; lra|].
    replace (a / sqrt q * (a / sqrt q) + b / sqrt q * (b / sqrt q) + c / sqrt q * (c / sqrt q))%R
      with ((a * a + b * b + c * c) / (sqrt q * sqrt q))%R by (field; lra).
    rewrite Hs. unfold q in *. field. intros Hz. assert (Hq0 : q = 0%R) by (unfold q; lra). unfold q in Hq0. rewrite Hq0, sqrt_0 in Hp. lra.
  - exists a, b, c, a, b, c. split; [done|]. split; [done|]. left.
    assert (Hq0 : q = 0%R). { destruct (Req_dec q 0) as [|Hn]; [done|]. destruct Hp. apply sqrt_lt_R0. lra. }
    unfold q in Hq0. repeat split; nra.
Qed.

Lemma adjust_Ok opts p1 p2 ks1 ks2 v info info' v' : solver_contract err ferr z ->
  length (tc_ext (vf_camera2 v)) = 6%nat ->
  adjust_relative_pose y z opts p1 p2 ks1 ks2 v info = Ok (true, info', v') ->
  adjusted y z opts p1 p2 ks1 ks2 (vf_camera1 v) (vf_camera2 v) (vf_matches v) (vf_camera1 v') (vf_camera2 v') (vf_matches v') /\
  ti_focal1 info' = camera_focal (vf_camera1 v') /\ ti_focal2 info' = camera_focal (vf_camera2 v') /\
  unit_of (take 3 (tc_ext (vf_camera2 v'))) (ti_position info') /\ ti_rotation info' = drop 3 (tc_ext (vf_camera2 v')) /\
  ti_homography info' = ti_homography info /\ ti_visibility info' = ti_visibility info.
Proof.
  intros (_ & _ & Hadj) H6 H. unfold adjust_relative_pose in H.
  destruct (triangulate_points y opts ks1 ks2 (vf_camera1 v) (vf_camera2 v) (vf_matches v)) as [[tri ps]| | |] eqn:Et;
    cbn [mbind outcome_bind fst snd] in H; try discriminate H.
  destruct (decide _) in H; [discriminate H|].
  destruct (correspondences ks1 ks2 tri) as [cs| | |] eqn:Ec; cbn [mbind outcome_bind] in H; try discriminate H.
  cbn [vf_camera1 vf_camera2] in H.
  destruct (z_adjust z _ _ cs (vf_camera1 v) (vf_camera2 v) ps) as [[[c1 c2] ps'] ok] eqn:Ez.
  pose proof (Hadj _ _ _ _ _ _ _ _ _ _ Ez) as (Hl & He1 & _ & _ & He2 & _ & _).
  destruct ok; cbn [negb] in H; [|discriminate H].
  destruct (inliers_after y opts c1 c2 cs tri ps') as [ms| | |] eqn:Ei; cbn [mbind outcome_bind] in H; try discriminate H.
  injection H as <- <-. cbn. apply triangulate_Ok in Et as [T1 T2]. apply correspondences_Ok in Ec.
  assert (Lps : length ps' = length tri) by (rewrite Hl; symmetry; by eapply Forall2_length).
  destruct (inliers_after_Ok _ _ _ _ _ _ _ _ _ Ec Lps Ei) as (kept & Hk & ->).
  split_and!; try done.
  - exists tri, ps, cs, ps', kept. done.
  - apply normalize_unit. rewrite take_length. lia.
Qed.

Lemma adjust_total opts p1 p2 ks1 ks2 v info : solver_contract err ferr z -> in_range ks1 ks2 (vf_matches v) ->
  exists b info' v', adjust_relative_pose y z opts p1 p2 ks1 ks2 v info = Ok (b, info', v') /\ in_range ks1 ks2 (vf_matches v').
Proof.
  intros (_ & _ & Hadj) Hr. unfold adjust_relative_pose.
  destruct (triangulate_total opts ks1 ks2 (vf_camera1 v) (vf_camera2 v) _ Hr) as [[tri ps] Et]. rewrite Et.
  cbn [mbind outcome_bind fst snd vf_camera1 vf_camera2]. apply triangulate_Ok in Et as [T1 T2].
  assert (Ht : in_range ks1 ks2 tri) by (intros m Hm; apply Hr; by destruct (selects_in _ _ _ _ T1 Hm)).
  destruct (decide _); [by eexists _, _, _|].
  destruct (correspondences_total ks1 ks2 tri Ht) as [cs Ec]. rewrite Ec. cbn [mbind outcome_bind].
  destruct (z_adjust z _ _ cs (vf_camera1 v) (vf_camera2 v) ps) as [[[c1 c2] ps'] ok] eqn:Ez.
  pose proof (Hadj _ _ _ _ _ _ _ _ _ _ Ez) as (Hl & _). apply correspondences_Ok in Ec.
  destruct ok; cbn [negb]; [|by eexists _, _, _].
  pose proof (Forall2_length _ _ _ T2). pose proof (seen_length _ _ _ _ Ec).
  destruct (inliers_after_total opts c1 c2 cs tri ps') as [ms Em]; [congruence..|]. rewrite Em. cbn [mbind outcome_bind].
  eexists _, _, _. split; [done|]. cbn.
  destruct (inliers_after_Ok opts ks1 ks2 c1 c2 cs tri ps' ms Ec ltac:(congruence) Em) as (kept & Hk & ->).
  intros m Hm. apply Ht. apply elem_of_list_fmap in Hm as (mp & -> & Hm). destruct (selects_in _ _ _ _ Hk Hm) as [Hz _].
  destruct mp. by eapply elem_of_zip_l.
Qed.

(** ** SetupCameras *)
Lemma setup_Ok p1 p2 info c1 c2 : setup_cameras p1 p2 info new_camera new_camera = Ok (c1, c2) ->
  calibrated_as p1 (Some (ti_focal1 info)) c1 /\ tc_ext c1 = [0; 0; 0; 0; 0; 0]%R /\
  calibrated_as p2 (Some (ti_focal2 info)) c2 /\ tc_ext c2 = ti_position info ++ ti_rotation info.
Proof.
  intros H. unfold setup_cameras in H.
  destruct (camera_from_prior p1 new_camera) as [d1| | |] eqn:E1; cbn [mbind outcome_bind] in H; try discriminate H.
  destruct (camera_set_focal (ti_focal1 info) d1) as [e1| | |] eqn:F1; cbn [mbind outcome_bind] in H; try discriminate H.
  destruct (camera_from_prior p2 _) as [d2| | |] eqn:E2; cbn [mbind outcome_bind] in H; try discriminate H.
  destruct (camera_set_focal (ti_focal2 info) d2) as [e2| | |] eqn:F2; cbn [mbind outcome_bind] in H; try discriminate H.
  injection H as <- <-.
  apply camera_from_prior_Ok in E1 as (H1 & X1 & _); [|apply new_camera_fresh].
  apply camera_from_prior_Ok in E2 as (H2 & X2 & _); [|apply new_camera_fresh].
  split; [by eapply calibrated_set_focal|]. split; [apply camera_set_focal_Ok in F1 as [_ ->]; exact X1|].
  split; [by eapply calibrated_set_focal|]. apply camera_set_focal_Ok in F2 as [_ ->]. exact X2.
Qed.

Lemma setup_total p1 p2 info : valid_prior p1 -> valid_prior p2 -> (0 < ti_focal1 info)%R -> (0 < ti_focal2 info)%R ->
  exists c1 c2, setup_cameras p1 p2 info new_camera new_camera = Ok (c1, c2).
Proof.
  intros (Hm1 & Hp1 & _) (Hm2 & Hp2 & _) Hf1 Hf2. unfold setup_cameras.
  destruct (camera_from_prior_total p1 new_camera Hm1 Hp1 eq_refl) as [c1 ->]. cbn [mbind outcome_bind].
  destruct (camera_set_focal_total _ c1 Hf1) as [d1 ->]. cbn [mbind outcome_bind].
  destruct (camera_from_prior_total p2 (TwoViewCamera (ti_position info ++ ti_rotation info) (tc_intr new_camera) (tc_size new_camera)) Hm2 Hp2 eq_refl) as [c2 ->].
  cbn [mbind outcome_bind]. destruct (camera_set_focal_total _ c2 Hf2) as [d2 ->]. cbn. by eexists _, _.
Qed.
End proofs.
