(** Cases of the geometric verification of matches: the hypotheses of the theorems are met, and counterexamples. *)
From stdpp Require Import gmap strings.
From Coq Require Import Reals QArith_base Qcanon Lia Lra.
From Verif Require Import Base Reconstruction_Model BundleAdjust_Model SfmQueries_Model Priors_Model Priors_Spec Priors_Proofs
  Localize_Model Localize_Spec VisibilityPyramid_Model VisibilityPyramid_Spec GeometricVerification_Model GeometricVerification_Spec
  GeometricVerification_Proofs GeometricVerification_Props.

(** A geometry in which a point is the number of a match, and is seen too far away if it is number 7. *)
Definition plain_geometry : geometry pixel nat :=
  Geometry (fun _ k => k) (fun _ _ => (0, 0, 0)%Qc)
    (fun _ _ k1 _ => if Qeq_bool k1.1 9 then None else Some (Z.to_nat (Qnum k1.1)))
    (fun _ _ p => if decide (p = 6)%nat then None else Some (if decide (p = 7)%nat then Q2Qc 10 else Q2Qc 1)).
(** Estimators for which every match is an inlier. *)
Definition plain_solvers (homography : R -> list (pixel * pixel) -> list nat) : solvers pixel nat :=
  Solvers
    (fun th ns => Some (Relative [0; 0; 0] [th; 0; 0] 1 1 (seq 0 (length ns)))%R)
    (fun th ns => Some (Relative [0; 0; 0] [th; 0; 0] 1 1 (seq 0 (length ns)))%R)
    homography (fun _ _ _ c1 c2 ps => (c1, c2, ps, true)) (fun _ _ ms => Ok ms).
Definition plain_error : relative_error (X := pixel) := fun _ pos _ => (default 0 (head pos) - 1)%R.
Definition plain_focal_error : focal_relative_error (X := pixel) := fun _ _ _ pos _ => (default 0 (head pos) - 1)%R.

Lemma plain_contract h : solver_contract plain_error plain_focal_error (plain_solvers h).
Proof.
  assert (Hin : forall (th : R) (ns : list (pixel * pixel)), inliers_of (fun _ => (th - 1)%R) th ns (seq 0 (length ns))).
  { intros th ns. split; [apply NoDup_seq|]. intros i Hi%elem_of_seq. destruct (lookup_lt_is_Some_2 ns i) as [m Hm]; [lia|].
    exists m. split; [done|]. lra. }
  split_and!.
  - intros th ns r [= <-]. split_and!; [done..|apply Hin].
  - intros th ns r [= <-]. cbn. split_and!; [done|done|lra|lra|apply Hin].
  - intros k1 k2 cs c1 c2 ps c1' c2' ps' ok [= <- <- <- <-]. done.
Qed.

Definition sized_prior (f : option R) (size : Z) : prior := Prior size size "PINHOLE" f None None None None None.
Lemma sized_prior_valid f size : (0 <= size)%Z -> (forall x, f = Some x -> 0 < x)%R -> valid_prior (sized_prior f size).
Proof.
  intros Hs Hf. split_and!; [by exists Pinhole| |done|done]. unfold positive_focal. cbn. destruct f as [x|]; [by apply Hf|]. lia.
Qed.

Definition grid_points : list pixel := [(1, 1); (50, 50); (99, 99)]%Q.
Definition cross_matches : list (nat * nat) := [(0, 0); (1, 2); (2, 1)]%nat.
Lemma cross_in_range : in_range grid_points grid_points cross_matches.
Proof. intros m Hm. repeat (apply elem_of_cons in Hm as [->|Hm]; [cbn; lia|]). by apply elem_of_nil in Hm. Qed.
Definition cross_points : list (pixel * pixel) := [((1, 1), (1, 1)); ((50, 50), (99, 99)); ((99, 99), (50, 50))]%Q.
Lemma cross_seen : seen grid_points grid_points cross_matches cross_points.
Proof. repeat constructor. Qed.

Definition plain_options (adjust : bool) (limit : Z) : verify_options := VerifyOptions 2 limit false adjust (Q2Qc 2) (Q2Qc 1) (Q2Qc 2).
Definition empty_info : two_view_info := TwoViewInfo 0 0 [] [] 0 0 0.

Lemma plain_estimate h opts f1 f2 size cs info : (0 <= size)%Z -> (forall x, f1 = Some x -> 0 < x)%R -> (forall x, f2 = Some x -> 0 < x)%R ->
  exists th g1 g2, estimate_two_view_info plain_geometry (plain_solvers h) opts (sized_prior f1 size) (sized_prior f2 size) cs info =
    Ok (true, TwoViewInfo g1 g2 [th; 0; 0]%R [0; 0; 0]%R (Z.of_nat (length cs)) (ti_homography info) 0, seq 0 (length cs)) /\
    match f1, f2 with Some a, Some b => g1 = a /\ g2 = b | _, _ => g1 = 1%R /\ g2 = 1%R end.
Proof.
  intros Hs H1 H2. pose proof (sized_prior_valid f1 size Hs H1) as V1. pose proof (sized_prior_valid f2 size Hs H2) as V2.
  destruct (normalize_features_total plain_geometry _ _ cs V1 V2) as [ns En].
  assert (Ln : length ns = length cs).
  { apply normalize_features_Ok in En as (? & ? & -> & _). by rewrite fmap_length. }
  unfold estimate_two_view_info, estimate_calibrated, estimate_uncalibrated, set_info.
  rewrite En, (empty_score_total _ _ cs V1 V2). cbn [p_focal sized_prior].
  destruct f1 as [a|], f2 as [b|]; cbn [mbind outcome_bind z_relative z_uncalibrated plain_solvers]; cbv zeta;
    cbn [mbind outcome_bind l_position l_rotation l_inliers l_focal1 l_focal2]; rewrite seq_length, Ln; by eexists _, _, _.
Qed.

(** Verification without adjustment succeeds exactly with fewer required matches than candidates. *)
Lemma plain_verify h limit f1 f2 size : (0 <= limit < 2 ^ 31)%Z -> (0 <= size)%Z ->
  (forall x, f1 = Some x -> 0 < x)%R -> (forall x, f2 = Some x -> 0 < x)%R ->
  exists out info v, verify_matches plain_geometry (plain_solvers h) (plain_options false limit) (sized_prior f1 size) (sized_prior f2 size)
    grid_points grid_points (new_verifier cross_matches) [] empty_info = Ok (bool_decide (limit < 3)%Z, out, info, v).
Proof.
  intros Hl Hs H1 H2.
  destruct (verification_no_undefined plain_geometry (plain_solvers h) plain_error plain_focal_error (plain_options false limit)
    (sized_prior f1 size) (sized_prior f2 size) grid_points grid_points cross_matches [] empty_info (plain_contract h) eq_refl
    cross_in_range (sized_prior_valid f1 size Hs H1) (sized_prior_valid f2 size Hs H2)) as [[[[b out] info] v] E].
  exists out, info, v. rewrite E.
  destruct (plain_estimate h (plain_options false limit) f1 f2 size cross_points empty_info Hs H1 H2) as (th & g1 & g2 & Ee & _).
  pose proof (verification_limit_partial plain_geometry (plain_solvers h) plain_error plain_focal_error (plain_options false limit) _ _ _ _ _ _ _ _ _ _ _ (plain_contract h)
    Hl eq_refl eq_refl E _ _ cross_seen _ _ _ Ee) as Hb.
  cbn [plain_options vo_min_matches] in Hb. rewrite seq_length in Hb. cbn [length cross_points] in Hb. do 4 f_equal.
  destruct (bool_decide (limit < 3)%Z) eqn:D; [apply bool_decide_eq_true in D|apply bool_decide_eq_false in D].
  - apply Hb. split; [done|]. lia.
  - destruct b; [|done]. destruct Hb as [Hb _]. destruct (Hb eq_refl) as [_ ?]. lia.
Qed.

Definition no_homography : R -> list (pixel * pixel) -> list nat := fun _ _ => [].

(** The theorems apply: two focal lengths, images of unknown size, two of three matches required. *)
Example verification_sample : exists out info v,
  verify_matches plain_geometry (plain_solvers no_homography) (plain_options false 2) (sized_prior (Some 1%R) 0) (sized_prior (Some 1%R) 0)
    grid_points grid_points (new_verifier cross_matches) [] empty_info = Ok (true, out, info, v).
Proof. apply (plain_verify no_homography 2 (Some 1%R) (Some 1%R) 0); [lia|lia|intros x [= <-]; lra..]. Qed.

(** With an adjustment: of five matches, one is not triangulated, one is behind a camera and one is seen too far away. *)
Definition row_points : list pixel := [(0, 0); (9, 0); (6, 0); (7, 0); (4, 0)]%Q.
Definition row_matches : list (nat * nat) := [(0, 1); (1, 2); (2, 3); (3, 4); (4, 0)]%nat.
Example adjustment_sample :
  match adjust_relative_pose plain_geometry (plain_solvers no_homography) (plain_options true 1) (sized_prior None 0) (sized_prior None 0)
          row_points row_points (Verifier new_camera (TwoViewCamera [3; 0; 0; 0; 0; 0]%R (create Pinhole) (0, 0)%Z) row_matches) empty_info with
  | Ok (b, info, v) => b = true /\ vf_matches v = [(0, 1); (4, 0)]%nat
  | _ => False
  end.
Proof. vm_compute. by split. Qed.

(** C112: the limit is documented as the minimum number of matches for success, but exactly that number fails. *)
Theorem verification_limit_refuted : exists opts p1 p2 ks1 ks2 ms cs info1 inl out info v,
  vo_guided opts = false /\ vo_adjust opts = false /\ valid_prior p1 /\ valid_prior p2 /\ in_range ks1 ks2 ms /\ seen ks1 ks2 ms cs /\
  solver_contract plain_error plain_focal_error (plain_solvers no_homography) /\
  estimate_two_view_info plain_geometry (plain_solvers no_homography) opts p1 p2 cs empty_info = Ok (true, info1, inl) /\
  vo_min_matches opts = Z.of_nat (length inl) /\
  verify_matches plain_geometry (plain_solvers no_homography) opts p1 p2 ks1 ks2 (new_verifier ms) [] empty_info = Ok (false, out, info, v).
Proof.
  assert (H1 : forall x, Some 1%R = Some x -> (0 < x)%R) by (intros x [= <-]; lra).
  destruct (plain_verify no_homography 3 (Some 1%R) (Some 1%R) 0) as (out & info & v & E); [lia|lia|done..|].
  destruct (plain_estimate no_homography (plain_options false 3) (Some 1%R) (Some 1%R) 0 cross_points empty_info) as (th & g1 & g2 & Ee & _); [lia|done..|].
  exists (plain_options false 3), (sized_prior (Some 1%R) 0), (sized_prior (Some 1%R) 0), grid_points, grid_points, cross_matches, cross_points.
  eexists _, _, out, info, v. split_and!; try done.
  - by apply sized_prior_valid.
  - by apply sized_prior_valid.
  - apply cross_in_range.
  - apply cross_seen.
  - apply plain_contract.
Qed.

(** C113: the score is documented as the visibility of the inliers in the two images, but it is zero. *)
Theorem visibility_score_refuted : exists opts p1 p2 cs info inl,
  valid_prior p1 /\ valid_prior p2 /\ solver_contract plain_error plain_focal_error (plain_solvers no_homography) /\
  estimate_two_view_info plain_geometry (plain_solvers no_homography) opts p1 p2 cs empty_info = Ok (true, info, inl) /\
  (forall i, i ∈ inl -> is_Some (cs !! i)) /\
  let points := omap (fun i => cs !! i) inl in
  (ti_visibility info < score 6 (p_width p1) (p_height p1) (points.*1) + score 6 (p_width p2) (p_height p2) (points.*2))%Z.
Proof.
  assert (H1 : forall x, Some 1%R = Some x -> (0 < x)%R) by (intros x [= <-]; lra).
  destruct (plain_estimate no_homography (plain_options false 3) (Some 1%R) (Some 1%R) 100 cross_points empty_info) as (th & g1 & g2 & Ee & _); [lia|done..|].
  exists (plain_options false 3), (sized_prior (Some 1%R) 100), (sized_prior (Some 1%R) 100), cross_points.
  eexists _, _. split; [by apply sized_prior_valid|]. split; [by apply sized_prior_valid|]. split; [apply plain_contract|].
  split; [exact Ee|]. split.
  - intros i Hi%elem_of_seq. apply lookup_lt_is_Some_2. lia.
  - cbn [ti_visibility p_width p_height sized_prior length cross_points]. vm_compute. reflexivity.
Qed.

(** C114: the documentation of the threshold says that it is scaled by the image size; the count of the homography
    inliers is not the one for the scaled threshold. *)
Definition coarse_homography : R -> list (pixel * pixel) -> list nat :=
  fun th cs => if Rlt_dec 10 th then seq 0 (length cs) else [].
Theorem homography_count_refuted : exists opts p1 p2 ks1 ks2 ms cs t1 t2 out info v,
  valid_prior p1 /\ valid_prior p2 /\ seen ks1 ks2 ms cs /\ scaled (vo_sampson opts) p1 t1 /\ scaled (vo_sampson opts) p2 t2 /\
  solver_contract plain_error plain_focal_error (plain_solvers coarse_homography) /\
  verify_matches plain_geometry (plain_solvers coarse_homography) opts p1 p2 ks1 ks2 (new_verifier ms) [] empty_info = Ok (true, out, info, v) /\
  ti_homography info = 0%Z /\ Z.of_nat (length (z_homography (plain_solvers coarse_homography) (t1 * t2)%R cs)) = 3%Z.
Proof.
  assert (H1 : forall x, Some 1%R = Some x -> (0 < x)%R) by (intros x [= <-]; lra).
  destruct (plain_verify coarse_homography 2 (Some 1%R) (Some 1%R) 2048) as (out & info & v & E); [lia|lia|done..|].
  rewrite bool_decide_true in E by lia.
  destruct (homography_count_partial _ _ plain_error plain_focal_error _ _ _ _ _ _ _ _ _ _ _ (plain_contract _) E) as (cs & Hcs & Hh).
  exists (plain_options false 2), (sized_prior (Some 1%R) 2048), (sized_prior (Some 1%R) 2048), grid_points, grid_points, cross_matches, cross_points.
  exists 4%R, 4%R, out, info, v.
  assert (Hsc : scaled (vo_sampson (plain_options false 2)) (sized_prior (Some 1%R) 2048) 4).
  { split; [intros [? _]; done|]. intros _. cbn [vo_sampson plain_options p_width p_height sized_prior]. change (Z.max 2048 2048) with 2048%Z. lra. }
  split_and!; try done.
  - by apply sized_prior_valid.
  - by apply sized_prior_valid.
  - apply cross_seen.
  - apply plain_contract.
  - rewrite Hh. cbn [z_homography plain_solvers]. unfold coarse_homography. cbn [vo_sampson plain_options].
    destruct (Rlt_dec 10 (2 * 2)) as [?|?]; [lra|done].
  - cbn [z_homography plain_solvers]. unfold coarse_homography. destruct (Rlt_dec 10 (4 * 4)) as [?|Hn]; [done|lra].
Qed.

(** C115: a focal length that is known for one image only is replaced by the estimate. *)
Theorem known_focal_refuted : exists opts p1 p2 ks1 ks2 ms out info v,
  valid_prior p1 /\ valid_prior p2 /\ in_range ks1 ks2 ms /\ p_focal p1 = Some 5%R /\
  solver_contract plain_error plain_focal_error (plain_solvers no_homography) /\
  verify_matches plain_geometry (plain_solvers no_homography) opts p1 p2 ks1 ks2 (new_verifier ms) [] empty_info = Ok (true, out, info, v) /\
  ti_focal1 info <> 5%R.
Proof.
  assert (H1 : forall x, Some 5%R = Some x -> (0 < x)%R) by (intros x [= <-]; lra).
  assert (H2 : forall x, None = Some x -> (0 < x)%R) by done.
  destruct (plain_verify no_homography 2 (Some 5%R) None 0) as (out & info & v & E); [lia|lia|done..|].
  rewrite bool_decide_true in E by lia.
  exists (plain_options false 2), (sized_prior (Some 5%R) 0), (sized_prior None 0), grid_points, grid_points, cross_matches, out, info, v.
  split_and!; try done.
  - by apply sized_prior_valid.
  - by apply sized_prior_valid.
  - apply cross_in_range.
  - apply plain_contract.
  - unfold verify_matches in E. rewrite decide_False in E by (vm_compute; done).
    cbn [new_verifier vf_matches vf_camera1 vf_camera2] in E.
    rewrite (proj2 (correspondences_Ok _ _ _ _) cross_seen) in E. cbn [mbind outcome_bind] in E.
    destruct (count_homography _ _ _ _ _) as [nh| | |] in E; cbn [mbind outcome_bind] in E; try discriminate E.
    match type of E with context [estimate_two_view_info _ _ ?o _ _ _ ?i] =>
      destruct (plain_estimate no_homography o (Some 5%R) None 0 cross_points i) as (th & g1 & g2 & Ee & -> & ->); [lia|done..|] end.
    rewrite Ee in E. cbn [mbind outcome_bind andb] in E. destruct (bool_decide _) in E; [|discriminate E].
    destruct (select_matches _ _) as [ms0| | |] in E; cbn [mbind outcome_bind] in E; try discriminate E.
    destruct (setup_cameras _ _ _ _ _) as [[c1 c2]| | |] in E; cbn [mbind outcome_bind] in E; try discriminate E.
    unfold finish in E. cbn [plain_options vo_guided vo_adjust andb mbind outcome_bind vf_matches vf_camera1 vf_camera2] in E.
    destruct (correspondences _ _ _) as [o| | |] in E; cbn [mbind outcome_bind] in E; try discriminate E.
    injection E as _ _ <- _. cbn. lra.
Qed.

Print Assumptions two_view_estimate.
Print Assumptions verification_result.
Print Assumptions verification_subset.
Print Assumptions verification_no_undefined.
Print Assumptions verification_limit_partial.
Print Assumptions verification_limit_refuted.
Print Assumptions negative_limit.
Print Assumptions visibility_score_partial.
Print Assumptions visibility_score_refuted.
Print Assumptions homography_count_partial.
Print Assumptions homography_count_refuted.
Print Assumptions known_focal_partial.
Print Assumptions known_focal_refuted.
