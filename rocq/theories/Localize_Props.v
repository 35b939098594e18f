(** C93-C97: localization of a view. *)
From stdpp Require Import gmap strings.
From Coq Require Import Reals Lra.
From Verif Require Import Base Reconstruction_Model SfmQueries_Spec BundleAdjust_Model BundleAdjust_Spec BundleAdjust_Props Localize_Model Localize_Spec Localize_Proofs.

Section props.
Context {F P W : Type}.
Notation recon := (recon F (list R) (list R)).
Implicit Types (r : recon) (h : gmap N intrinsics) (ot : order N) (opts : localize_options).
Context (unproject center : intrinsics -> F -> P) (hnorm : list R -> W).
Context (with_orientation : R -> list R -> list (P * W) -> estimate) (calibrated uncalibrated : R -> list (P * W) -> estimate).
Context (err : pose_error (P:=P) (W:=W)) (ferr : focal_error (P:=P) (W:=W)).
Context (cerr : model_type -> F -> list R -> list R -> list R -> R).
Notation call := (localize unproject center hnorm with_orientation calibrated uncalibrated).

(** C93.  Success: the view is estimated and has a pose that at least min_num_inliers different estimated tracks
    support (more than that with a known orientation, which is kept), measured with its own intrinsics or, when these
    are not known, with the estimated focal length; without bundle adjustment that is the result, with it the result
    comes from it by an adjustment of this view that kept the tracks and did not increase the error. *)
Theorem localize_success : forall ot os solve priors opts width height r h u inl inl' r' h',
  pose_contract err ferr with_orientation calibrated uncalibrated -> ceres_contract cerr solve ->
  consistent r -> grouped r -> allocated r h -> six r -> is_Some (rc_views r !! u) -> (1 <= lo_min_inliers opts < 2 ^ 31)%Z ->
  call ot os solve priors opts width height r h u inl = Ok (true, inl', r', h') ->
  let s := resolution_scaled_threshold (lo_threshold opts) width height in
  est_view r' u /\
  exists known n p o r1 h1, (known = true <-> lo_known_orientation opts = true \/ treated_as_known priors r u) /\
    (lo_min_inliers opts <= Z.of_nat n)%Z /\ (lo_known_orientation opts = true -> (lo_min_inliers opts < Z.of_nat n)%Z) /\
    posed r r1 u true (p ++ o) /\ pose_found unproject center hnorm err ferr opts known s r h u n p o h1 /\
    if lo_bundle_adjust opts
    then frame (lo_ba opts) [u] [] r1 h1 r' h' /\
      exists l, NoDup l /\ (forall w t, (w, t) ∈ l <-> w = u /\ sees r u t /\ est_track r t) /\
        (sum_of (observation_error cerr r' h') l <= sum_of (observation_error cerr r1 h1) l)%R
    else r' = r1 /\ h' = h1.
Proof.
  intros ot os solve priors opts width height r h u inl inl' r' h' HC Hs Hc Hg Ha H6 [v Hv] Hm E s.
  destruct (localize_ok unproject center hnorm with_orientation calibrated uncalibrated err ferr HC cerr solve ot os priors opts width height r h u v inl Hs Hc Hg Ha H6 Hv Hm) as (ok & inl1 & r2 & h2 & known & E' & HK & H).
  rewrite E' in E. injection E as -> -> -> ->. destruct H as [[? _]|(p & o & [[? _]|H])]; [done|done|].
  destruct H as (L1 & L2 & r1 & h1 & Hp & Hf & Hc1 & Hg1 & Ha1 & H). assert (Hu : is_Some (rc_views r !! u)) by eauto.
  assert (Ee : est_view r1 u) by (destruct Hp as (_ & _ & K); eexists; split; [by apply K|done]).
  destruct H as [(Eb & _ & -> & ->)|(Eb & sm & E & Esm)]; rewrite Eb.
  - split; [done|]. exists known, (length inl'), p, o, r1, h1. done.
  - symmetry in Esm. assert (E1 : bundle_adjust_partial os r1 h1 (lo_ba opts) solve [u] [] = Ok (r', h', sm)).
    { unfold bundle_adjust_view in E. unfold bundle_adjust_partial. cbn [run_steps]. by destruct (add_view os r1 h1 ba_new u). }
    destruct (adjust_changes_only F cerr solve os r1 h1 (lo_ba opts) [u] [] r' h' sm Hc1 Hg1 Ha1 Hs E1) as [Hfr _].
    destruct (adjust_cost F cerr solve os r1 h1 (lo_ba opts) [u] [] r' h' sm Hc1 Hg1 Ha1 Hs E1 Esm) as (l & D & Ml & C1 & C2 & C3).
    split.
    { destruct Hfr as (_ & Hfv & _). specialize (Hfv u). destruct Ee as (v1 & Hv1 & Ee). rewrite Hv1 in Hfv. inversion Hfv as [? v2 Hvf EE1 EE2|]; subst. exists v2. split; [done|]. destruct Hvf as (_ & -> & _). done. }
    exists known, (length inl'), p, o, r1, h1. split; [done|]. split; [done|]. split; [done|]. split; [done|]. split; [done|]. split; [done|].
    exists l. split; [done|]. split; [|by rewrite <- C1, <- C2]. intros w t. rewrite Ml. unfold adjusted. rewrite (posed_sees _ _ _ _ _ w t Hp Hu). unfold est_track. rewrite (posed_tracks _ _ _ _ _ Hp). split.
    + intros (S1 & _ & S3 & [S4|S4]); [|by apply elem_of_nil in S4]. apply elem_of_list_singleton in S4 as ->. done.
    + intros (-> & S1 & S3). split; [done|]. split; [done|]. split; [done|]. left. by left.
Qed.

(** C93.  The threshold is meant for an image of 1024 pixels: it is unchanged for a largest dimension of 1024 and for an
    unknown image size, proportional to the image size, and larger for a larger image. *)
Theorem localize_threshold : forall (threshold : R) (width height k : Z),
  resolution_scaled_threshold threshold 0 0 = threshold /\
  (Z.max width height = 1024%Z -> resolution_scaled_threshold threshold width height = threshold) /\
  ((0 < width)%Z -> (0 < height)%Z -> (0 < k)%Z ->
     resolution_scaled_threshold threshold (k * width) (k * height) = (IZR k * resolution_scaled_threshold threshold width height)%R) /\
  ((0 < width)%Z -> (0 < height)%Z -> (0 < threshold)%R -> (0 < k)%Z ->
     (resolution_scaled_threshold threshold width height <= resolution_scaled_threshold threshold (width + k) height)%R /\
     resolution_scaled_threshold threshold width height = resolution_scaled_threshold threshold height width).
Proof.
  intros th w h k. unfold resolution_scaled_threshold. split; [by rewrite decide_True|]. split; [|split].
  - intros E. destruct (decide _) as [[-> ->]|_]; [done|]. rewrite E. field.
  - intros Hw Hh Hk. rewrite (decide_False (P := (k * w = 0 /\ k * h = 0)%Z)) by nia. rewrite (decide_False (P := (w = 0 /\ h = 0)%Z)) by lia.
    replace (Z.max (k * w) (k * h)) with (k * Z.max w h)%Z by nia. rewrite mult_IZR. field.
  - intros Hw Hh Ht Hk. rewrite (decide_False (P := (w = 0 /\ h = 0)%Z)), (decide_False (P := (w + k = 0 /\ h = 0)%Z)), (decide_False (P := (h = 0 /\ w = 0)%Z)) by lia.
    split; [|by rewrite Z.max_comm]. assert (IZR (Z.max w h) <= IZR (Z.max (w + k) h))%R by (apply IZR_le; lia). nra.
Qed.

(** C94.  Whatever the result, localization returns, and changes nothing but the pose and the estimated flag of this
    view and its intrinsics object: of that only the focal length when the intrinsics are not known, and the parameters
    that are to be optimized if the view is adjusted. *)
Theorem localize_changes_only : forall ot os solve priors opts width height r h u v inl,
  pose_contract err ferr with_orientation calibrated uncalibrated -> ceres_contract cerr solve ->
  consistent r -> grouped r -> allocated r h -> six r -> rc_views r !! u = Some v -> (1 <= lo_min_inliers opts < 2 ^ 31)%Z ->
  exists ok inl' r' h' est d, call ot os solve priors opts width height r h u inl = Ok (ok, inl', r', h') /\
    posed r r' u est d /\ length d = 6%nat /\ (est = false -> ok = false) /\ (v_est v = true -> est = true) /\
    (forall p, p <> v_intr v -> h' !! p = h !! p) /\
    (forall i, h !! v_intr v = Some i -> exists i', h' !! v_intr v = Some i' /\ i_type i' = i_type i /\ length (i_params i') = length (i_params i) /\
       forall j, (j = 0%nat -> lo_known_orientation opts = true \/ treated_as_known priors r u) ->
         (lo_bundle_adjust opts = true -> kept (i_type i) (intrinsics_to_optimize (lo_ba opts)) j) -> i_params i' !! j = i_params i !! j).
Proof.
  intros ot os solve priors opts width height r h u v inl HC Hs Hc Hg Ha H6 Hv Hm.
  destruct (localize_ok unproject center hnorm with_orientation calibrated uncalibrated err ferr HC cerr solve ot os priors opts width height r h u v inl Hs Hc Hg Ha H6 Hv Hm) as (ok & inl1 & r' & h' & known & E' & HK & H).
  assert (Hu : is_Some (rc_views r !! u)) by eauto. exists ok, inl1, r', h'.
  assert (HF : forall s n p o h1, pose_found unproject center hnorm err ferr opts known s r h u n p o h1 ->
    length (p ++ o) = 6%nat /\ (forall q, q <> v_intr v -> h1 !! q = h !! q) /\
    (forall i, h !! v_intr v = Some i -> exists i', h1 !! v_intr v = Some i' /\ i_type i' = i_type i /\ length (i_params i') = length (i_params i) /\
       forall j, (j = 0%nat -> lo_known_orientation opts = true \/ treated_as_known priors r u) -> i_params i' !! j = i_params i !! j)).
  { intros s n p o h1 (v' & i & Hv' & Hi & L1 & L2 & K). replace v' with v in * by congruence. rewrite app_length, L1, L2. split; [done|]. cbn zeta in K.
    assert (Same : h1 = h -> (forall q, q <> v_intr v -> h1 !! q = h !! q) /\
      (forall i, h !! v_intr v = Some i -> exists i', h1 !! v_intr v = Some i' /\ i_type i' = i_type i /\ length (i_params i') = length (i_params i) /\
       forall j, (j = 0%nat -> lo_known_orientation opts = true \/ treated_as_known priors r u) -> i_params i' !! j = i_params i !! j)).
    { intros ->. split; [done|]. intros i' Hi'. exists i'. done. }
    destruct (lo_known_orientation opts) in K; [apply Same; by destruct K as (_ & -> & _)|]. destruct known; [apply Same; by destruct K as (-> & _)|]. destruct K as (fl & _ & -> & _). split; [intros q Hq; by rewrite lookup_insert_ne|].
    intros i' Hi'. replace i' with i by congruence. eexists. rewrite lookup_insert. split; [done|]. cbn. split; [done|]. split; [apply insert_length|]. intros j Hj. destruct j as [|j].
    - apply HK in Hj; [discriminate Hj|done].
    - rewrite list_lookup_insert_ne by done. done. }
  destruct H as [(-> & -> & ->)|(p & o & [(-> & L1 & Hp & Hf)|H])].
  - exists (v_est v), (v_data v). split; [done|]. split.
    { split; [by destruct r|]. split; [done|]. intros v' Hv'. rewrite Hv'. replace v' with v by congruence. by destruct v. }
    split; [by apply (H6 u)|]. split; [done|]. split; [done|]. split; [done|]. intros i Hi. exists i. done.
  - exists (v_est v), (p ++ o). destruct (HF _ _ _ _ _ Hf) as (L6 & K1 & K2). split; [done|]. split; [done|]. split; [done|]. split; [done|]. split; [done|]. split; [done|].
    intros i Hi. destruct (K2 i Hi) as (i' & A1 & A2 & A3 & A4). exists i'. split; [done|]. split; [done|]. split; [done|]. intros j J1 _. by apply A4.
  - destruct H as (L1 & L2 & r1 & h1 & Hp & Hf & Hc1 & Hg1 & Ha1 & H). destruct (HF _ _ _ _ _ Hf) as (L6 & K1 & K2).
    destruct H as [(Eb & -> & -> & ->)|(Eb & sm & E & ->)].
    + exists true, (p ++ o). split; [done|]. split; [done|]. split; [done|]. split; [done|]. split; [done|]. split; [done|].
      intros i Hi. destruct (K2 i Hi) as (i' & A1 & A2 & A3 & A4). exists i'. split; [done|]. split; [done|]. split; [done|]. intros j J1 _. by apply A4.
    + destruct (adjust_view_changes_only F cerr solve os r1 h1 (lo_ba opts) u r' h' sm Hc1 Hg1 Ha1 Hs E) as ((F1 & F2 & _ & F4) & Ht & Hw).
      assert (Hv1 : rc_views r1 !! u = Some (View (v_name v) true (v_intr v) (p ++ o) (v_feats v))) by (destruct Hp as (_ & _ & K); by apply K).
      specialize (F2 u) as F2u. rewrite Hv1 in F2u. inversion F2u as [? v2 Hvf EE1 EE2|]; subst. symmetry in EE2. destruct Hvf as (V1 & V2 & V3 & V4 & V5 & _). cbn in V1, V2, V3, V4, V5.
      exists true, (v_data v2). split; [done|]. split.
      { split; [|split].
        - rewrite F1, Ht. destruct Hp as (-> & _). done.
        - intros w Nw. rewrite Hw by done. destruct Hp as (_ & K & _). by apply K.
        - intros v' Hv'. replace v' with v by congruence. rewrite EE2. f_equal. destruct v2 as [a b c d e]; cbn in *. by subst. }
      split; [by rewrite V5|]. split; [done|]. split; [done|]. split.
      * intros q Nq. rewrite <- K1 by done. specialize (F4 q). destruct (h1 !! q) as [i|] eqn:Ei; inversion F4 as [? i2 Hif EE3 EE4|]; subst; [|done]. f_equal. destruct Hif as (I1 & _ & I3 & _).
        assert (Ei2 : i_params i2 = i_params i). { apply I3. left. intros w Hw' _ (v' & Hv' & Eq'). apply elem_of_list_singleton in Hw' as ->. rewrite Hv1 in Hv'. injection Hv' as <-. cbn in Eq'. done. }
        destruct i, i2; cbn in *; by subst.
      * intros i Hi. destruct (K2 i Hi) as (i' & A1 & A2 & A3 & A4). specialize (F4 (v_intr v)). rewrite A1 in F4. inversion F4 as [? i2 Hif EE3 EE4|]; subst. destruct Hif as (I1 & I2 & I3 & I4).
        exists i2. split; [done|]. split; [congruence|]. split; [congruence|]. intros j J1 J2. rewrite I4; [by apply A4|]. rewrite A2. by apply J2.
Qed.

(** C95, part: with fewer than min_num_inliers estimated tracks in the view, and when the pose estimator fails, nothing
    is changed. *)
Theorem localize_failure_partial : forall ot os solve priors opts width height r h u inl,
  consistent r -> grouped r -> allocated r h -> is_Some (rc_views r !! u) -> (0 <= lo_min_inliers opts < 2 ^ 31)%Z ->
  ((forall ts : list N, NoDup ts -> (forall t, t ∈ ts -> sees r u t /\ est_track r t) -> (Z.of_nat (length ts) < lo_min_inliers opts)%Z) ->
    call ot os solve priors opts width height r h u inl = Ok (false, inl, r, h)) /\
  ((forall th o ms, e_ok (with_orientation th o ms) = false) -> (forall th ms, e_ok (calibrated th ms) = false) -> (forall th ms, e_ok (uncalibrated th ms) = false) ->
    exists inl', call ot os solve priors opts width height r h u inl = Ok (false, inl', r, h)).
Proof.
  intros ot os solve priors opts width height r h u inl Hc Hg Ha [v Hv] Hm. destruct (Ha u v Hv) as [i Hi].
  assert (HK : exists known, (if lo_known_orientation opts then Ok true else has_known_intrinsics priors r u) = Ok known).
  { destruct (lo_known_orientation opts); [by exists true|]. destruct (has_known_ok priors r u v Hg Hv) as (b & -> & Hb). by exists b. }
  destruct HK as (known & HK). assert (Em : to_size (lo_min_inliers opts) = lo_min_inliers opts) by (unfold to_size; apply Z.mod_small; lia).
  unfold localize. rewrite HK. cbn [mbind outcome_bind]. unfold estimate_camera_pose. rewrite Hv. cbn [or_ub mbind outcome_bind]. rewrite Hi. cbn [or_ub mbind outcome_bind]. rewrite Em. split.
  - intros H. destruct (matches_count unproject center hnorm ot (if known then unproject else center) i r u v (Z.to_nat (lo_min_inliers opts)) Hc Hv) as (ms & -> & L).
    { intros ts D Hts. specialize (H ts D Hts). lia. }
    cbn [mbind outcome_bind]. rewrite decide_True by lia. done.
  - intros N1 N2 N3. destruct (get_matches_ok unproject center hnorm ot (if known then unproject else center) i r u v Hc Hv) as (ts & ms & -> & _). cbn [mbind outcome_bind].
    destruct (decide _); [by exists inl|]. destruct (lo_known_orientation opts); [rewrite N1; cbn; by eexists|]. destruct known; [rewrite N2; cbn; by eexists|rewrite N3; cbn; by eexists].
Qed.

(** C96, part: exactly when the intrinsics are taken as known. *)
Theorem localize_known_intrinsics_partial : forall priors r u, grouped r ->
  (is_Some (rc_views r !! u) -> exists b, has_known_intrinsics priors r u = Ok b /\ (b = true <-> treated_as_known priors r u)) /\
  (rc_views r !! u = None -> has_known_intrinsics priors r u = UB).
Proof.
  intros priors r u Hg. split.
  - intros [v Hv]. by apply has_known_ok with v.
  - intros H. unfold has_known_intrinsics. by rewrite H.
Qed.
End props.
Print Assumptions localize_success.
Print Assumptions localize_threshold.
Print Assumptions localize_changes_only.
Print Assumptions localize_failure_partial.
Print Assumptions localize_known_intrinsics_partial.

(** ** Non-vacuity and refutations.  Views 0 and 1 share their intrinsics; both see the tracks 0 and 1; view 1 has no pose. *)
Definition loc_ops : list (rc_op N (list R) (list R)) :=
  [OAddViewGroup ord_id "a" 5; OAddViewGroup ord_id "b" 5; OAddTrack [(0, 7); (1, 8)]; OAddTrack [(0, 9); (1, 10)];
   OSetView 0 true [0;0;0;0;0;0]%R; OSetView 1 false [0;0;0;0;0;0]%R; OSetTrack 0 true [1;0;0;1]%R; OSetTrack 1 true [2;0;0;1]%R]%N.
Definition loc_sample : option (recon N (list R) (list R)) :=
  match run_obs (rc_step [] []) rc_empty loc_ops with Ok (r, _) => Some r | _ => None end.
Definition loc_heap : gmap N intrinsics := {[0%N := Intrinsics Pinhole [1;1;0;0;0;0;0]%R]}.
(** An estimator that takes the first [k] correspondences as inliers, and one that fails. *)
Definition loc_est (k : nat) (th : R) (ms : list (N * R)) : estimate :=
  Estimate (if Rlt_dec 0 th then true else false) [4;5;6]%R [1;2;3]%R 2%R (seq 0 (k `min` length ms)).
Definition loc_fail : estimate := Estimate false [] [] 0%R [].
Definition loc_zero {A B C} (_ : A) (_ : B) (_ : C) : R := 0%R.
Definition loc_call (k : nat) (solve : list (residual (F:=N)) -> gmap block flags -> (block -> list R) -> solution) opts r :=
  localize (F:=N) (P:=N) (W:=R) (fun _ f => f) (fun _ f => f) (fun X => default 0%R (X !! 0%nat)) (fun _ _ _ => loc_fail) (loc_est k) (loc_est k)
    ord_id (fun _ _ => ord_id) solve ∅ opts 0 0 r loc_heap 1 [].
(** The same with a prior for the focal length of view 1; the first estimator fails or keeps the orientation. *)
Definition loc_call_prior (fails : bool) (k : nat) (solve : list (residual (F:=N)) -> gmap block flags -> (block -> list R) -> solution) opts r :=
  localize (F:=N) (P:=N) (W:=R) (fun _ f => f) (fun _ f => f) (fun X => default 0%R (X !! 0%nat)) (fun th _ ms => if fails then loc_fail else loc_est k th ms) (loc_est k) (loc_est k)
    ord_id (fun _ _ => ord_id) solve {[1%N]} opts 0 0 r loc_heap 1 [].

Lemma loc_contract k : pose_contract (P:=N) (W:=R) loc_zero (fun _ => loc_zero) (fun _ _ _ => loc_fail) (loc_est k) (loc_est k).
Proof.
  assert (K : forall th ms, e_ok (loc_est k th ms) = true -> inliers_of (fun _ : N * R => 0%R) th ms (e_inliers (loc_est k th ms))).
  { intros th ms. cbn. destruct (Rlt_dec 0 th) as [L|]; [|done]. intros _. split; [apply NoDup_seq|]. intros i Hi. apply elem_of_seq in Hi. destruct (lookup_lt_is_Some_2 ms i) as [m Hm]; [lia|]. by exists m. }
  split; [done|]. split; intros th ms e E; subst e; pose proof (K _ _ E) as HI; (split; [first [done|cbn; lra]|]); (split; [done|]).
  - exact HI.
  - split; [done|]. exact HI.
Qed.
Lemma loc_contract_prior (fails : bool) k :
  pose_contract (P:=N) (W:=R) loc_zero (fun _ => loc_zero) (fun th (_ : list R) ms => if fails then loc_fail else loc_est k th ms) (loc_est k) (loc_est k).
Proof.
  destruct (loc_contract k) as (_ & C2 & C3). split; [|done]. intros th o ms e E. subst e. destruct fails; [done|]. destruct (C2 th ms E) as (A & _ & B). done.
Qed.
Lemma loc_test : match loc_sample with
  | Some r => match rc_views r !! 0%N, rc_views r !! 1%N with
      | Some v0, Some v => v_est v = false /\ v_intr v = 0%N /\ v_data v = [0;0;0;0;0;0]%R /\ v_est v0 = true /\ v_intr v0 = 0%N /\ v_data v0 = [0;0;0;0;0;0]%R /\
          rc_view_group r !! 0%N = Some 5%N /\ rc_view_group r !! 1%N = Some 5%N /\ (map_to_list (rc_views r)).*1 = [0; 1]%N /\
          (forall i, get_matches (F:=N) (P:=N) (W:=R) (fun X => default 0%R (X !! 0%nat)) ord_id (fun _ f => f) i r v = Ok [(8%N, 1%R); (10%N, 2%R)])
      | _, _ => False end
  | None => False end.
Proof. vm_compute. repeat split. Qed.
Lemma loc_facts : exists r v0 v, loc_sample = Some r /\ consistent r /\ grouped r /\ allocated r loc_heap /\ six r /\ rc_views r !! 0%N = Some v0 /\ rc_views r !! 1%N = Some v /\
  v_est v = false /\ v_intr v = 0%N /\ v_data v = [0;0;0;0;0;0]%R /\ v_est v0 = true /\ v_intr v0 = 0%N /\
  rc_view_group r !! 0%N = Some 5%N /\ rc_view_group r !! 1%N = Some 5%N /\
  (forall i, get_matches (F:=N) (P:=N) (W:=R) (fun X => default 0%R (X !! 0%nat)) ord_id (fun _ f => f) i r v = Ok [(8%N, 1%R); (10%N, 2%R)]).
Proof.
  pose proof loc_test as T. destruct loc_sample as [r|] eqn:E; [|destruct T]. exists r.
  assert (Hr : exists rs, run_obs (rc_step [] []) rc_empty loc_ops = Ok (r, rs)).
  { unfold loc_sample in E. destruct (run_obs _ _ _) as [[r0 rs]| | |]; try discriminate E. exists rs. congruence. }
  destruct Hr as [rs Hr]. destruct (reachable_grouped N [] [] loc_ops r rs) as [Hc Hg]; [done|done|]. clear Hr E.
  destruct (rc_views r !! 0%N) as [v0|] eqn:E0; [|destruct T]. destruct (rc_views r !! 1%N) as [v|] eqn:E1; [|destruct T]. exists v0, v.
  destruct T as (T1 & T2 & T3 & T4 & T5 & T6 & T7 & T8 & T9 & T10).
  assert (D : forall u w, rc_views r !! u = Some w -> w = v0 \/ w = v).
  { intros u w Hw. assert (Hu : u ∈ (map_to_list (rc_views r)).*1) by (apply elem_of_list_fmap; exists (u, w); split; [done|by apply elem_of_map_to_list]).
    rewrite T9 in Hu. apply elem_of_cons in Hu as [->|Hu]; [left; congruence|]. apply elem_of_list_singleton in Hu as ->. right. congruence. }
  split; [done|]. split; [done|]. split; [done|]. split.
  { intros u w Hw. destruct (D u w Hw) as [->| ->]; [rewrite T5|rewrite T2]; by eexists. }
  split; [intros u w Hw; destruct (D u w Hw) as [->| ->]; [by rewrite T6|by rewrite T3]|]. done.
Qed.
Definition loc_options (known ba : bool) (min : Z) : localize_options := LocalizeOptions 4 known ba (BaOptions false false 0) min.
Lemma loc_threshold_eq : resolution_scaled_threshold 4 0 0 = 4%R.
Proof. unfold resolution_scaled_threshold. by rewrite decide_True. Qed.
Lemma loc_not_known (r : recon N (list R) (list R)) v : rc_views r !! 1%N = Some v -> v_est v = false -> has_known_intrinsics ∅ r 1 = Ok false.
Proof.
  intros Hv He. unfold has_known_intrinsics. rewrite Hv. cbn [or_ub mbind outcome_bind]. rewrite (bool_decide_false (1%N ∈ ∅)) by set_solver. f_equal.
  rewrite He. cbn [andb]. induction (elements _); done.
Qed.
Lemma loc_set_view (r : recon N (list R) (list R)) u v e d : rc_views r !! u = Some v ->
  rc_views (set_view r u e d) !! u = Some (View (v_name v) e (v_intr v) d (v_feats v)).
Proof. intros H. cbn. by rewrite lookup_alter, H. Qed.
Lemma loc_estimate k known opts r v inl : rc_views r !! 1%N = Some v -> v_intr v = 0%N -> v_data v = [0;0;0;0;0;0]%R ->
  (forall i, get_matches (F:=N) (P:=N) (W:=R) (fun X => default 0%R (X !! 0%nat)) ord_id (fun _ f => f) i r v = Ok [(8%N, 1%R); (10%N, 2%R)]) ->
  lo_threshold opts = 4%R -> lo_known_orientation opts = false -> (0 <= lo_min_inliers opts <= 2)%Z ->
  estimate_camera_pose (F:=N) (P:=N) (W:=R) (fun _ f => f) (fun _ f => f) (fun X => default 0%R (X !! 0%nat)) (fun _ _ _ => loc_fail) (loc_est k) (loc_est k)
    ord_id known opts 0 0 r loc_heap 1 inl =
  Ok (true, seq 0 (k `min` 2), set_view r 1 (v_est v) [1;2;3;4;5;6]%R, if known then loc_heap else {[0%N := Intrinsics Pinhole [2;1;0;0;0;0;0]%R]}).
Proof.
  intros Hv Hi Hd Hms Ht Hk Hm. unfold estimate_camera_pose. rewrite Hv. cbn [or_ub mbind outcome_bind]. rewrite Hi, Hd, Ht, Hk. assert (Eh : loc_heap !! 0%N = Some (Intrinsics Pinhole [1;1;0;0;0;0;0]%R)) by apply lookup_singleton. rewrite Eh. cbn [or_ub mbind outcome_bind].
  replace (if known then _ else _) with (fun (_ : intrinsics) (f : N) => f) by (by destruct known). rewrite Hms. cbn [mbind outcome_bind]. assert (Em : to_size (lo_min_inliers opts) = lo_min_inliers opts) by (unfold to_size; apply Z.mod_small; lia).
  rewrite Em, decide_False by (cbn; lia). rewrite loc_threshold_eq. cbn [i_params default lookup list_lookup]. unfold Datatypes.id.
  assert (T1 : (0 < 4 * 4 / (1 * 1))%R) by lra. assert (T2 : (0 < 4 * 4)%R) by lra. assert (T3 : (0 < 2)%R) by lra. destruct known; unfold loc_est; cbn [e_ok e_inliers e_position e_orientation e_focal length].
  - destruct (Rlt_dec 0 (4 * 4 / (1 * 1))) as [_|]; [|done]. done.
  - destruct (Rlt_dec 0 (4 * 4)) as [_|]; [|done]. unfold set_focal. destruct (Rlt_dec 0 2) as [_|]; [|done]. cbn [mbind outcome_bind].
    replace (alter _ 0%N loc_heap) with ({[0%N := Intrinsics Pinhole [2;1;0;0;0;0;0]%R]} : gmap N intrinsics); [done|]. unfold loc_heap.
    apply map_eq. intros q. destruct (decide (q = 0%N)) as [->|Nq]; [by rewrite lookup_alter, !lookup_singleton|by rewrite lookup_alter_ne, !lookup_singleton_ne].
Qed.

(** C96, refuted: the intrinsics of a view that shares them with an estimated view are not taken as known; localizing it
    changes the focal length of the estimated view. *)
Theorem localize_shared_intrinsics_refuted : forall solve, exists r v0 r' h',
  consistent r /\ grouped r /\ allocated r loc_heap /\ six r /\ rc_views r !! 0%N = Some v0 /\ v_est v0 = true /\ intrinsics_known ∅ r 1 /\
  loc_call 2 solve (loc_options false false 2) r = Ok (true, [0; 1]%nat, r', h') /\ rc_views r' !! 0%N = Some v0 /\
  loc_heap !! v_intr v0 = Some (Intrinsics Pinhole [1;1;0;0;0;0;0]%R) /\ h' !! v_intr v0 = Some (Intrinsics Pinhole [2;1;0;0;0;0;0]%R).
Proof.
  intros solve. destruct loc_facts as (r & v0 & v & _ & Hc & Hg & Ha & H6 & E0 & E1 & F1 & F2 & F3 & F4 & F5 & F6 & F7 & F8).
  eexists r, v0, _, _. split; [done|]. split; [done|]. split; [done|]. split; [done|]. split; [done|]. split; [done|]. split.
  { right. exists 0%N, 5%N. split; [done|]. split; [done|]. split; [done|]. by exists v0. }
  split.
  - unfold loc_call, localize. cbn [lo_known_orientation loc_options]. rewrite (loc_not_known r v E1 F1). cbn [mbind outcome_bind].
    rewrite (loc_estimate 2 false (loc_options false false 2) r v [] E1 F2 F3 F8 eq_refl eq_refl) by (cbn; lia). cbn [mbind outcome_bind].
    rewrite (bool_decide_false (_ < _)%Z) by (vm_compute; congruence). cbn [negb orb]. rewrite (loc_set_view r 1 v _ _ E1). cbn [or_ub mbind outcome_bind v_data]. cbn [lo_bundle_adjust loc_options]. reflexivity.
  - rewrite F5. split; [|done]. cbn. rewrite !lookup_alter_ne by done. done.
Qed.
Print Assumptions localize_shared_intrinsics_refuted.

(** The adjustment with a solver that moves nothing and succeeds or not. *)
Definition loc_solver (b : bool) (cerr : model_type -> N -> list R -> list R -> list R -> R) (l : list (residual (F:=N))) (_ : gmap block flags) (x : block -> list R) : solution :=
  Solution x (problem_cost cerr l x) (problem_cost cerr l x) b.
Lemma loc_solver_contract b cerr : ceres_contract cerr (loc_solver b cerr).
Proof. intros l bs x _. cbn. split; [done|]. split; [done|]. intros _. split; [done|]. split; [done|]. apply Rle_refl. Qed.
Lemma loc_adjust b cerr r v : consistent r -> grouped r -> allocated r loc_heap -> six r -> rc_views r !! 1%N = Some v -> v_est v = false -> v_intr v = 0%N -> v_data v = [0;0;0;0;0;0]%R ->
  (forall i, get_matches (F:=N) (P:=N) (W:=R) (fun X => default 0%R (X !! 0%nat)) ord_id (fun _ f => f) i r v = Ok [(8%N, 1%R); (10%N, 2%R)]) ->
  exists r' h', loc_call 2 (loc_solver b cerr) (loc_options false true 2) r = Ok (b, [0; 1]%nat, r', h') /\ est_view r' 1.
Proof.
  intros Hc Hg Ha H6 E1 F1 F2 F3 F8. set (solve := loc_solver b cerr). pose proof (loc_solver_contract b cerr) as Hs. fold solve in Hs.
  destruct (localize_ok (F:=N) (P:=N) (W:=R) (fun _ f => f) (fun _ f => f) (fun X => default 0%R (X !! 0%nat)) (fun _ _ _ => loc_fail) (loc_est 2) (loc_est 2) loc_zero (fun _ => loc_zero) (loc_contract 2)
    cerr solve ord_id (fun _ _ => ord_id) ∅ (loc_options false true 2) 0 0 r loc_heap 1 v [] Hs Hc Hg Ha H6 E1) as (ok & inl' & r' & h' & known & E & _ & _); [cbn; lia|].
  exists r', h'. assert (E' : loc_call 2 solve (loc_options false true 2) r = Ok (ok, inl', r', h')) by exact E. clear E. rename E' into E.
  assert (EE : exists r1 h1, est_view r1 1 /\ loc_call 2 solve (loc_options false true 2) r =
    ('(r, h, sm) ← bundle_adjust_view (fun _ _ => ord_id) r1 h1 (BaOptions false false 0) solve 1%N; Ok (sm_success sm, [0; 1]%nat, r, h))).
  { eexists _, _. split; [|unfold loc_call, localize; cbn [lo_known_orientation loc_options]; rewrite (loc_not_known r v E1 F1); cbn [mbind outcome_bind];
    rewrite (loc_estimate 2 false (loc_options false true 2) r v [] E1 F2 F3 F8 eq_refl eq_refl) by (cbn; lia); cbn [mbind outcome_bind];
    rewrite (bool_decide_false (_ < _)%Z) by (vm_compute; congruence); cbn [negb orb]; rewrite (loc_set_view r 1 v _ _ E1); cbn [or_ub mbind outcome_bind v_data];
    cbn [lo_bundle_adjust loc_options]; reflexivity].
    eexists. split; [cbn; rewrite lookup_alter; cbn; rewrite lookup_alter, E1; reflexivity|done]. }
  destruct EE as (r1 & h1 & He & EE). rewrite E in EE. destruct (bundle_adjust_view _ r1 h1 _ solve 1) as [[[r2 h2] sm]| | |] eqn:Eb; [|done..]. cbn [mbind outcome_bind] in EE. injection EE as -> -> -> ->.
  unfold bundle_adjust_view, optimize in Eb. destruct (add_view _ r1 h1 ba_new 1) as [a| | |]; [|done..]. cbn [mbind outcome_bind] in Eb. destruct (setup _ _ _ _) as [c| | |]; [|done..]. cbn [mbind outcome_bind] in Eb.
  injection Eb as Eb1 Eb2 Eb3. subst sm. cbn [sm_success solve loc_solver sol_usable]. cbn in E. split; [exact E|]. subst r2. destruct He as (v1 & Hv1 & He).
  eexists. split; [cbn [rc_views set_views set_tracks]; unfold write_views; rewrite map_lookup_imap, Hv1; reflexivity|done].
Qed.

(** C95, refuted: when too few inliers are found the call fails, but the pose and the focal length have been changed; and
    when the adjustment fails the view stays estimated. *)
Theorem localize_failure_refuted : forall cerr, exists r v,
  consistent r /\ grouped r /\ allocated r loc_heap /\ six r /\ rc_views r !! 1%N = Some v /\ v_est v = false /\ v_data v = [0;0;0;0;0;0]%R /\
  (forall solve, exists r' h' v', loc_call 1 solve (loc_options false false 2) r = Ok (false, [0]%nat, r', h') /\
     rc_views r' !! 1%N = Some v' /\ v_data v' = [1;2;3;4;5;6]%R /\ h' <> loc_heap) /\
  exists solve r' h', ceres_contract cerr solve /\ loc_call 2 solve (loc_options false true 2) r = Ok (false, [0; 1]%nat, r', h') /\ est_view r' 1.
Proof.
  intros cerr. destruct loc_facts as (r & v0 & v & _ & Hc & Hg & Ha & H6 & E0 & E1 & F1 & F2 & F3 & F4 & F5 & F6 & F7 & F8). exists r, v.
  split; [done|]. split; [done|]. split; [done|]. split; [done|]. split; [done|]. split; [done|]. split; [done|]. split.
  - intros solve. eexists _, _, (View (v_name v) (v_est v) (v_intr v) _ (v_feats v)). split.
    + unfold loc_call, localize. cbn [lo_known_orientation loc_options]. rewrite (loc_not_known r v E1 F1). cbn [mbind outcome_bind].
      rewrite (loc_estimate 1 false (loc_options false false 2) r v [] E1 F2 F3 F8 eq_refl eq_refl) by (cbn; lia). cbn [mbind outcome_bind].
      rewrite (bool_decide_true (_ < _)%Z) by (vm_compute; congruence). cbn [negb orb]. reflexivity.
    + split; [cbn; rewrite lookup_alter, E1; reflexivity|]. split; [done|]. intros E. apply (f_equal (lookup 0%N)) in E. unfold loc_heap in E. rewrite !lookup_singleton in E. injection E as E. lra.
  - exists (loc_solver false cerr). destruct (loc_adjust false cerr r v Hc Hg Ha H6 E1 F1 F2 F3 F8) as (r' & h' & E & He). exists r', h'. split; [apply loc_solver_contract|]. done.
Qed.
Print Assumptions localize_failure_refuted.

(** C97, refuted: with a known orientation, when its solver fails, the pose is not estimated with P3P, although that
    would succeed. *)
Theorem localize_fallback_refuted : forall solve, exists r r',
  consistent r /\ grouped r /\ allocated r loc_heap /\ six r /\ is_Some (rc_views r !! 1%N) /\
  loc_call_prior true 2 solve (loc_options true false 1) r = Ok (false, [], r, loc_heap) /\
  loc_call_prior true 2 solve (loc_options false false 1) r = Ok (true, [0; 1]%nat, r', loc_heap).
Proof.
  intros solve. destruct loc_facts as (r & v0 & v & _ & Hc & Hg & Ha & H6 & E0 & E1 & F1 & F2 & F3 & F4 & F5 & F6 & F7 & F8). eexists r, _.
  split; [done|]. split; [done|]. split; [done|]. split; [done|]. split; [by eexists|]. split.
  - unfold loc_call_prior, localize. cbn [lo_known_orientation loc_options mbind outcome_bind]. unfold estimate_camera_pose. rewrite E1. cbn [or_ub mbind outcome_bind]. rewrite F2.
    assert (Eh : loc_heap !! 0%N = Some (Intrinsics Pinhole [1;1;0;0;0;0;0]%R)) by apply lookup_singleton. rewrite Eh. cbn [or_ub mbind outcome_bind]. rewrite F8. cbn [mbind outcome_bind].
    rewrite decide_False by (vm_compute; congruence). reflexivity.
  - unfold loc_call_prior, localize. cbn [lo_known_orientation loc_options]. replace (has_known_intrinsics {[1%N]} r 1) with (Ok true).
    2:{ unfold has_known_intrinsics. rewrite E1. cbn [or_ub mbind outcome_bind]. rewrite bool_decide_true by set_solver. done. }
    cbn [mbind outcome_bind]. pose proof (loc_estimate 2 true (loc_options false false 1) r v [] E1 F2 F3 F8 eq_refl eq_refl) as EE. unfold estimate_camera_pose in *. cbn [lo_known_orientation loc_options] in *.
    rewrite EE by (cbn; lia). cbn [mbind outcome_bind].
    rewrite (bool_decide_false (_ < _)%Z) by (vm_compute; congruence). cbn [negb orb]. rewrite (loc_set_view r 1 v _ _ E1). cbn [or_ub mbind outcome_bind v_data]. cbn [lo_bundle_adjust loc_options]. reflexivity.
Qed.
Print Assumptions localize_fallback_refuted.

(** C97, part: with a known orientation the other solvers are not used, and the orientation is kept. *)
Theorem localize_known_orientation_partial : forall (F P W : Type) (unproject center : intrinsics -> F -> P) (hnorm : list R -> W) with_orientation
    calibrated uncalibrated calibrated' uncalibrated' ot os solve priors opts width height (r : recon F (list R) (list R)) h u inl,
  lo_known_orientation opts = true ->
  localize unproject center hnorm with_orientation calibrated uncalibrated ot os solve priors opts width height r h u inl =
  localize unproject center hnorm with_orientation calibrated' uncalibrated' ot os solve priors opts width height r h u inl /\
  (lo_bundle_adjust opts = false -> forall ok inl' r' h' v v', rc_views r !! u = Some v -> length (v_data v) = 6%nat ->
    (forall th o ms, length (e_position (with_orientation th o ms)) = 3%nat) ->
    localize unproject center hnorm with_orientation calibrated uncalibrated ot os solve priors opts width height r h u inl = Ok (ok, inl', r', h') ->
    rc_views r' !! u = Some v' -> h' = h /\ drop 3 (v_data v') = drop 3 (v_data v) /\ length (v_data v') = 6%nat).
Proof.
  intros F P W unproject center hnorm wo ca un ca' un' ot os solve priors opts width height r h u inl HK.
  unfold localize, estimate_camera_pose. rewrite HK. cbn [mbind outcome_bind]. split; [done|].
  intros Eb ok inl' r' h' v v' Hv H6 HL E Hv'. rewrite Hv in E. cbn [or_ub mbind outcome_bind] in E. destruct (h !! v_intr v) as [i|]; [|done]. cbn [or_ub mbind outcome_bind] in E.
  destruct (get_matches _ _ _ _ _ _) as [ms| | |]; [|done..]. cbn [mbind outcome_bind] in E.
  assert (Same : r' = r -> h' = h -> h' = h /\ drop 3 (v_data v') = drop 3 (v_data v) /\ length (v_data v') = 6%nat) by (intros -> ->; replace v' with v by congruence; done).
  destruct (decide _); [cbn [mbind outcome_bind negb orb] in E; injection E as <- <- <- <-; by apply Same|].
  set (e := wo _ _ _) in *. destruct (e_ok e && _); [|cbn [mbind outcome_bind negb orb] in E; injection E as <- <- <- <-; by apply Same].
  cbn [mbind outcome_bind negb orb] in E. set (r1 := set_view r u (v_est v) (set_position (e_position e) (v_data v))) in *.
  assert (Hr1 : rc_views r1 !! u = Some (View (v_name v) (v_est v) (v_intr v) (e_position e ++ drop 3 (v_data v)) (v_feats v))) by (subst r1; cbn; rewrite lookup_alter, Hv; done).
  assert (Dr : drop 3 (e_position e ++ drop 3 (v_data v)) = drop 3 (v_data v)) by (rewrite drop_app_alt; [done|]; symmetry; apply HL).
  assert (Ln : length (e_position e ++ drop 3 (v_data v)) = 6%nat) by (rewrite app_length, drop_length, H6; unfold e; rewrite HL; done).
  destruct (bool_decide _).
  - injection E as <- <- <- <-. rewrite Hr1 in Hv'. injection Hv' as <-. done.
  - rewrite Hr1 in E. cbn [or_ub mbind outcome_bind v_data] in E. rewrite Eb in E. injection E as <- <- <- <-. cbn in Hv'. rewrite lookup_alter in Hv'. fold r1 in Hv'.
    change (alter _ u (rc_views r)) with (rc_views r1) in Hv'. rewrite Hr1 in Hv'. injection Hv' as <-. done.
Qed.
Print Assumptions localize_known_orientation_partial.

(** The hypotheses of C93 and C94 are met, with success, with and without the adjustment and with a known orientation. *)
Example localize_sample : exists r v,
  consistent r /\ grouped r /\ allocated r loc_heap /\ six r /\ rc_views r !! 1%N = Some v /\
  pose_contract (P:=N) (W:=R) loc_zero (fun _ => loc_zero) (fun _ _ _ => loc_fail) (loc_est 2) (loc_est 2) /\
  (forall cerr, ceres_contract cerr (loc_solver true cerr) /\ exists r' h', loc_call 2 (loc_solver true cerr) (loc_options false true 2) r = Ok (true, [0; 1]%nat, r', h')) /\
  (forall solve, exists r' h', loc_call 2 solve (loc_options false false 2) r = Ok (true, [0; 1]%nat, r', h')).
Proof.
  destruct loc_facts as (r & v0 & v & _ & Hc & Hg & Ha & H6 & E0 & E1 & F1 & F2 & F3 & F4 & F5 & F6 & F7 & F8). exists r, v. split; [done|]. split; [done|]. split; [done|]. split; [done|]. split; [done|].
  split; [apply loc_contract|]. split.
  - intros cerr. split; [apply loc_solver_contract|]. destruct (loc_adjust true cerr r v Hc Hg Ha H6 E1 F1 F2 F3 F8) as (r' & h' & E & _). exists r', h'. done.
  - intros solve. eexists _, _. unfold loc_call, localize. cbn [lo_known_orientation loc_options]. rewrite (loc_not_known r v E1 F1). cbn [mbind outcome_bind].
    rewrite (loc_estimate 2 false (loc_options false false 2) r v [] E1 F2 F3 F8 eq_refl eq_refl) by (cbn; lia). cbn [mbind outcome_bind].
    rewrite (bool_decide_false (_ < _)%Z) by (vm_compute; congruence). cbn [negb orb]. rewrite (loc_set_view r 1 v _ _ E1). cbn [or_ub mbind outcome_bind v_data]. cbn [lo_bundle_adjust loc_options]. reflexivity.
Qed.
Example localize_sample_known : forall solve, exists r r' v',
  consistent r /\ grouped r /\ allocated r loc_heap /\ six r /\
  pose_contract (P:=N) (W:=R) loc_zero (fun _ => loc_zero) (fun th (_ : list R) ms => if false then loc_fail else loc_est 2 th ms) (loc_est 2) (loc_est 2) /\
  loc_call_prior false 2 solve (loc_options true false 1) r = Ok (true, [0; 1]%nat, r', loc_heap) /\
  rc_views r' !! 1%N = Some v' /\ v_data v' = [1;2;3;0;0;0]%R.
Proof.
  intros solve. destruct loc_facts as (r & v0 & v & _ & Hc & Hg & Ha & H6 & E0 & E1 & F1 & F2 & F3 & F4 & F5 & F6 & F7 & F8).
  eexists r, _, _. split; [done|]. split; [done|]. split; [done|]. split; [done|]. split; [apply (loc_contract_prior false)|]. split.
  - unfold loc_call_prior, localize. cbn [lo_known_orientation loc_options mbind outcome_bind]. unfold estimate_camera_pose. rewrite E1. cbn [or_ub mbind outcome_bind]. rewrite F2.
    assert (Eh : loc_heap !! 0%N = Some (Intrinsics Pinhole [1;1;0;0;0;0;0]%R)) by apply lookup_singleton. rewrite Eh. cbn [or_ub mbind outcome_bind]. rewrite F8. cbn [mbind outcome_bind].
    rewrite decide_False by (vm_compute; congruence). cbn [lo_known_orientation loc_options lo_threshold]. rewrite loc_threshold_eq. cbn [i_params default lookup list_lookup]. unfold Datatypes.id.
    unfold loc_est at 1 2 3 4 5 6; cbn [e_ok e_inliers e_position length]. assert (T1 : (0 < 4 * 4 / (1 * 1))%R) by lra. destruct (Rlt_dec 0 (4 * 4 / (1 * 1))) as [_|]; [|done]. cbn [andb].
    rewrite (bool_decide_true (_ < _)%Z) by (vm_compute; congruence). cbn [mbind outcome_bind negb orb]. rewrite (bool_decide_false (_ < _)%Z) by (vm_compute; congruence).
    rewrite (loc_set_view r 1 v _ _ E1). cbn [or_ub mbind outcome_bind v_data lo_bundle_adjust loc_options]. reflexivity.
  - split; [cbn; rewrite lookup_alter, lookup_alter, E1; reflexivity|]. cbn. by rewrite F3.
Qed.
