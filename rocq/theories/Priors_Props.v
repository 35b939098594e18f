(** Properties of the camera intrinsics priors (C98-C102). *)
From stdpp Require Import gmap strings.
From Coq Require Import Reals Lra.
From Verif Require Import Base Reconstruction_Model BundleAdjust_Model SfmQueries_Spec BundleAdjust_Spec BundleAdjust_Props Priors_Model Priors_Spec Priors_Proofs.

(** C98: the prior made from the intrinsics of a camera, given to any other camera, gives it the same model, the same
    parameters and the same image size; its pose and the first camera stay as they were. *)
Theorem prior_roundtrip : forall h next c d i k f,
  h !! c_intr c = Some i -> h !! c_intr d = Some k -> sized h -> (forall q, is_Some (h !! q) -> (q < next)%N) ->
  value_of i FocalLength = Some f -> (0 < f)%R ->
  exists p h' next' d', prior_of_camera h c = Ok p /\ set_camera_from_prior p h next d = Ok (h', next', d') /\
    h' !! c_intr d' = Some i /\ c_size d' = c_size c /\ c_extrinsics d' = c_extrinsics d /\ h' !! c_intr c = Some i /\
    (i_type k = i_type i -> c_intr d' = c_intr d) /\ forall q, q <> c_intr d' -> h' !! q = h !! q.
Proof.
  intros h next c d i k f Hc Hd Hs Hn Hf Hp. unfold prior_of_camera. rewrite Hc. cbn [or_ub mbind outcome_bind]. eexists _.
  pose proof (agrees_prior_of i (c_size c).1 (c_size c).2 (starts_from k (i_type i)) (Hs _ _ Hc)) as Hag.
  set (p := Prior _ _ _ _ _ _ _ _ _) in *.
  assert (Hm : names_model p (i_type i)) by (pose proof (prior_of_model i) as M; unfold names_model in *; unfold p; cbn; done).
  assert (Hpf : positive_focal p).
  { unfold positive_focal. pose proof (prior_of_given i (Hs _ _ Hc) FocalLength 0) as G. cbn [given] in G.
    unfold p; cbn [p_focal]. unfold value_of in Hf. replace (position_of (i_type i) FocalLength) with (Some 0%nat) in Hf, G by (by destruct (i_type i)).
    cbn in Hf. rewrite G by done. by rewrite Hf. }
  destruct (set_camera_ok p h next d k (i_type i) Hm Hpf Hd (Hs _ _ Hd)) as (ps' & Ha & E).
  assert (ps' = i_params i) as -> by (by eapply agrees_unique).
  replace (Intrinsics (i_type i) (i_params i)) with i in E by (by destruct i).
  eexists _, _, _. split; [done|]. split; [exact E|]. cbn [c_intr c_size c_extrinsics].
  split; [by rewrite lookup_insert|]. split; [by destruct (c_size c)|]. split; [done|]. split.
  - destruct (decide (c_intr c = if decide (i_type k = i_type i) then c_intr d else next)) as [->|]; [by rewrite lookup_insert|].
    by rewrite lookup_insert_ne.
  - split; [intros ->; by rewrite decide_True|]. intros q Hq. by rewrite lookup_insert_ne.
Qed.
Print Assumptions prior_roundtrip.

Example prior_roundtrip_sample : let h : gmap N intrinsics := {[0%N := Intrinsics PinholeRadialTangential [800; 1; 0; 500; 400; 1; 2; 3; 4; 5]%R;
    1%N := create Fisheye]} in
  exists p h' next' d', prior_of_camera h (Camera [] 0 (1000, 800)%Z) = Ok p /\ set_camera_from_prior p h 2 (Camera [] 1 (0, 0)%Z) = Ok (h', next', d') /\
    h' !! c_intr d' = Some (Intrinsics PinholeRadialTangential [800; 1; 0; 500; 400; 1; 2; 3; 4; 5]%R) /\ c_size d' = (1000, 800)%Z.
Proof.
  intros h. assert (L0 : h !! 0%N = Some (Intrinsics PinholeRadialTangential [800; 1; 0; 500; 400; 1; 2; 3; 4; 5]%R)) by done.
  assert (L1 : h !! 1%N = Some (create Fisheye)) by done.
  assert (LL : forall q j, h !! q = Some j -> (q = 0%N \/ q = 1%N)).
  { intros q j Hq. unfold h in Hq. destruct (decide (q = 0%N)) as [|N0]; [by left|]. destruct (decide (q = 1%N)) as [|N1]; [by right|].
    rewrite lookup_insert_ne, lookup_singleton_ne in Hq by done. done. }
  destruct (prior_roundtrip h 2 (Camera [] 0 (1000, 800)%Z) (Camera [] 1 (0, 0)%Z) _ _ 800 L0 L1) as (p & h' & next' & d' & A & B & C & D & _).
  - intros q j Hq. destruct (LL q j Hq) as [->| ->]; simplify_eq; done.
  - intros q [j Hq]. destruct (LL q j Hq) as [->| ->]; done.
  - done.
  - lra.
  - exists p, h', next', d'. done.
Qed.

(** C99: setting a camera from a prior gives it the model that the prior names, with every parameter that the prior sets;
    without a prior the focal length and the principal point are guessed from the image size, and the other parameters keep
    the values they had (the defaults, if the model is a new one).  No other intrinsics object changes, and the cameras
    that shared the object keep sharing it exactly if the model stays the same.  A prior with an unknown model or with a
    focal length that is not positive aborts. *)
Theorem prior_applied : forall p h next c i, h !! c_intr c = Some i -> sized h -> h !! next = None ->
  (usable p -> exists ty ps h' next' c', names_model p ty /\ set_camera_from_prior p h next c = Ok (h', next', c') /\
     h' !! c_intr c' = Some (Intrinsics ty ps) /\ agrees ty p (starts_from i ty) ps /\
     c_size c' = (p_width p, p_height p) /\ c_extrinsics c' = c_extrinsics c /\
     (c_intr c' = c_intr c <-> i_type i = ty) /\ (i_type i <> ty -> h !! c_intr c' = None) /\
     forall q, q <> c_intr c' -> h' !! q = h !! q) /\
  (~ usable p -> set_camera_from_prior p h next c = CheckFail).
Proof.
  intros p h next c i Hi Hs Hn. split.
  - intros [Hp [ty Hty]]. destruct (set_camera_ok p h next c i ty Hty Hp Hi (Hs _ _ Hi)) as (ps & Ha & E).
    exists ty, ps. eexists _, _, _. split; [done|]. split; [exact E|]. cbn [c_intr c_size c_extrinsics]. split; [by rewrite lookup_insert|].
    split; [done|]. split; [done|]. split; [done|]. split.
    { destruct (decide _) as [|]; [done|]. split; [intros ->; congruence|done]. }
    split; [intros ?; by rewrite decide_False|]. intros q Hq. by rewrite lookup_insert_ne.
  - intros Hu. unfold set_camera_from_prior.
    destruct (Classical_Prop.classic (exists ty, names_model p ty)) as [[ty Hty]|Hno].
    + rewrite (proj2 (type_of_string_ok _ _) (proj1 (names_model_string _ _) Hty)). cbn [mbind outcome_bind]. rewrite Hi. cbn [or_ub mbind outcome_bind].
      assert (~ positive_focal p) by (intros ?; apply Hu; split; [done|by exists ty]).
      destruct (decide _); by rewrite set_from_prior_fail.
    + rewrite type_of_string_fail; [done|]. intros ty H. apply Hno. by exists ty.
Qed.
Print Assumptions prior_applied.

Definition guess_prior : prior := Prior 1000 800 "PINHOLE" None None None None None None.
Lemma guess_usable : usable guess_prior.
Proof. split; [right; right; cbn; lia|]. by exists Pinhole. Qed.
Example prior_applied_sample : forall x, agrees Pinhole guess_prior [x; 1; 7; 0; 0; 2; 3]%R [1200; 1; 7; 500; 400; 2; 3]%R.
Proof.
  intros x. split; [done|]. intros [] j Hj; cbn in Hj; try discriminate Hj; injection Hj as <-; cbn [given guess_prior p_focal p_aspect p_skew p_point p_radial p_tangential fmap option_fmap option_map guessed p_width p_height]; try done.
  - rewrite !decide_True by lia. rewrite decide_False by done. cbn. f_equal. replace (Z.max 1000 800) with 1000%Z by done. lra.
  - rewrite decide_True by lia. cbn. f_equal. lra.
  - rewrite decide_True by lia. cbn. f_equal. lra.
Qed.

Section props.
Context {F : Type}.
Implicit Types (r : recon F (list R) (list R)) (h : gmap N intrinsics) (s : gmap N (Z * Z)).

(** C100: SetCameraIntrinsicsFromPriors gives all views of a group one intrinsics object and one image size, made from
    the prior of one view of the group, which is an estimated one if there is any.  Groups still do not share intrinsics.
    Nothing else changes: poses, flags, features, tracks, groups, and intrinsics that no view uses. *)
Theorem priors_set_groups : forall og ov priors r h s,
  grouped r -> allocated r h -> sized h -> created r h -> (forall u, is_Some (rc_views r !! u) -> usable (priors u)) ->
  exists r' h' s', set_intrinsics_from_priors og ov priors (r, h, s) = Ok (r', h', s') /\
    same_but_intrinsics r r' /\ grouped r' /\ allocated r' h' /\ sized h' /\ created r' h' /\
    (forall g, is_Some (rc_groups r !! g) -> exists rep, set_from_view priors r h r' h' s' g rep) /\
    (forall p, is_Some (h !! p) -> (forall u, ~ uses r u p) -> h' !! p = h !! p) /\
    (forall u, rc_views r !! u = None -> s' !! u = s !! u).
Proof.
  intros og ov priors r h s Hg Ha Hs Hc Hu.
  destruct (set_intrinsics_invariant og ov priors r h s Hg Ha Hs Hc Hu) as ([[r' h'] s'] & E & I1 & I2 & I3 & I4 & I5 & I6 & I7 & I8).
  exists r', h', s'. repeat (split; [done|]). split; [|split].
  - intros g Hgg. apply I6. by apply elem_of_elements, elem_of_dom.
  - intros p Hp Hn. by apply I8.
  - intros u Hn. revert E. by apply set_intrinsics_sizes.
Qed.
Print Assumptions priors_set_groups.

(** C101, the part that holds: the intrinsics of a group with an estimated view are kept if the prior of every
    estimated view is the one that CameraIntrinsicsPriorFromIntrinsics makes from its camera. *)
Theorem priors_keep_estimated_partial : forall og ov priors r h s,
  grouped r -> allocated r h -> sized h -> created r h -> (forall u, is_Some (rc_views r !! u) -> usable (priors u)) ->
  (forall u v, rc_views r !! u = Some v -> v_est v = true -> prior_of_camera h (view_camera s u v) = Ok (priors u)) ->
  exists r' h' s', set_intrinsics_from_priors og ov priors (r, h, s) = Ok (r', h', s') /\
    forall u w g i, rc_view_group r !! u = Some g -> rc_view_group r !! w = Some g -> est_view r w ->
      intrinsics_of r h u i -> intrinsics_of r' h' u i.
Proof.
  intros og ov priors r h s Hg Ha Hs Hc Hu Hpr.
  destruct (priors_set_groups og ov priors r h s Hg Ha Hs Hc Hu) as (r' & h' & s' & E & _ & _ & _ & _ & _ & HG & _).
  exists r', h', s'. split; [done|]. intros u w g i Hgu Hgw Hw Hi.
  destruct (HG g) as (rep & R1 & R2 & R3). { destruct Hg as (_ & G2 & _). destruct (proj2 (G2 g u) Hgu) as (X & HX & _). by exists X. }
  destruct R2 as (vr & Evr & Her); [by exists w|].
  destruct (R3 u Hgu) as (_ & i' & ty & ps' & J1 & J2 & J3 & J4).
  destruct (R3 rep R1) as (_ & ir & _ & _ & (vr' & Evr' & Eir) & _). simplify_eq.
  assert (i' = i) as ->. { destruct J1 as (a & A1 & A2), Hi as (b & B1 & B2). congruence. }
  assert (ir = i) as ->.
  { destruct Hi as (b & B1 & B2). destruct Hg as (_ & _ & _ & G4). assert (v_intr b = v_intr vr); [|congruence].
    apply (G4 u rep b vr B1 Evr). congruence. }
  pose proof (Hpr rep vr Evr Her) as Ep. unfold prior_of_camera in Ep. cbn [view_camera c_intr] in Ep. rewrite Eir in Ep. cbn [or_ub mbind outcome_bind] in Ep.
  injection Ep as Ep. rewrite <-Ep in J2, J4.
  assert (ty = i_type i) as ->.
  { pose proof (prior_of_model i) as M. apply names_model_string in M, J2. cbn [p_model] in J2. rewrite M in J2. clear -J2. by destruct ty, (i_type i). }
  assert (ps' = i_params i) as ->; [|by destruct i]. eapply agrees_unique; [exact J4|]. by apply agrees_prior_of, (Hs _ _ Eir).
Qed.
Print Assumptions priors_keep_estimated_partial.
End props.

(** The sample of bundle adjustment: views 0 and 1 share a pinhole camera, view 2 has a fisheye camera; all are estimated. *)
Definition pr_heap : gmap N intrinsics := ba_heap [800; 1; 0; 480; 390; 0; 0]%R [1; 1; 0; 0; 0; 0; 0; 0; 0]%R.
Lemma pr_heap_lookup q j : pr_heap !! q = Some j -> (q = 0%N /\ j = Intrinsics Pinhole [800; 1; 0; 480; 390; 0; 0]%R) \/ (q = 2%N /\ j = create Fisheye).
Proof.
  unfold pr_heap, ba_heap. intros Hq. destruct (decide (q = 0%N)) as [->|N0]; [left; rewrite lookup_insert in Hq; by simplify_eq|].
  rewrite lookup_insert_ne in Hq by done. destruct (decide (q = 2%N)) as [->|N1]; [right; rewrite lookup_singleton in Hq; by simplify_eq|].
  by rewrite lookup_singleton_ne in Hq.
Qed.
Lemma pr_facts : exists r : recon N (list R) (list R), grouped r /\ allocated r pr_heap /\ sized pr_heap /\ created r pr_heap /\ est_view r 0 /\ est_view r 2 /\ uses r 0 0 /\ uses r 1 0 /\ uses r 2 2.
Proof.
  destruct (ba_sample_facts [] [] []) as (r & E & _ & Hg & Ha & _ & _ & _ & _ & V0 & _ & V2 & _ & _ & U0 & U1 & U2 & _).
  assert (En : rc_next_ptr r = 3%N).
  { assert (T : match ba_sample [] [] [] with Some r => rc_next_ptr r | None => 0%N end = 3%N) by (vm_compute; reflexivity). rewrite E in T. exact T. }
  clear E. exists r. split; [done|]. split; [apply Ha|]. split; [intros q j [[_ ->]|[_ ->]]%pr_heap_lookup; done|]. split; [|done].
  intros q [j Hj]. rewrite En. apply pr_heap_lookup in Hj as [[-> _]|[-> _]]; done.
Qed.

(** C101, refuted: the intrinsics of an estimated view are not the starting point for its group; what had been estimated is
    overwritten by the guess (here the focal length 800 by 1200). *)
Theorem priors_keep_estimated_refuted : exists (r : recon N (list R) (list R)) h priors,
  grouped r /\ allocated r h /\ sized h /\ created r h /\ (forall u, usable (priors u)) /\
  est_view r 0 /\ intrinsics_of r h 0 (Intrinsics Pinhole [800; 1; 0; 480; 390; 0; 0]%R) /\
  forall og ov s, exists r' h' s', set_intrinsics_from_priors og ov priors (r, h, s) = Ok (r', h', s') /\
    intrinsics_of r' h' 0 (Intrinsics Pinhole [1200; 1; 0; 500; 400; 0; 0]%R).
Proof.
  destruct pr_facts as (r & Hg & Ha & Hs & Hc & V0 & V2 & (v0 & E0 & P0) & _).
  exists r, pr_heap, (fun _ => guess_prior). repeat (split; [done|]). split; [intros; apply guess_usable|]. split; [done|].
  split; [exists v0; split; [done|by rewrite P0]|].
  intros og ov s. destruct (priors_set_groups og ov (fun _ => guess_prior) r pr_heap s Hg Ha Hs Hc) as (r' & h' & s' & E & _ & _ & _ & _ & _ & HG & _).
  { intros; apply guess_usable. }
  exists r', h', s'. split; [done|].
  destruct Hg as (G1 & G2 & _). destruct (proj1 (G1 0%N)) as [g Hgg]; [by exists v0|].
  destruct (HG g) as (rep & _ & _ & R3). { destruct (proj2 (G2 g 0%N) Hgg) as (X & HX & _). by exists X. }
  destruct (R3 0%N Hgg) as (_ & i & ty & ps' & (v0' & E0' & Ei) & J2 & J3 & J4).
  assert (ty = Pinhole) as ->. { apply names_model_string in J2. clear -J2. by destruct ty. }
  simplify_eq. rewrite P0 in Ei. apply pr_heap_lookup in Ei as [[_ ->]|[? _]]; [|done].
  assert (ps' = [1200; 1; 0; 500; 400; 0; 0]%R) as ->; [|done].
  eapply agrees_unique; [exact J4|]. unfold starts_from. rewrite decide_True by done. cbn [i_params].
  destruct (prior_applied_sample 800) as [L _]. split; [done|]. intros a j Hj.
  destruct a; cbn in Hj; try discriminate Hj; injection Hj as <-; cbn [given guess_prior p_focal p_aspect p_skew p_point p_radial p_tangential fmap option_fmap option_map guessed p_width p_height]; try done.
  - rewrite decide_True by lia. rewrite decide_False by done. cbn. f_equal. replace (Z.max 1000 800) with 1000%Z by done. lra.
  - rewrite decide_True by lia. cbn. f_equal. lra.
  - rewrite decide_True by lia. cbn. f_equal. lra.
Qed.
Print Assumptions priors_keep_estimated_refuted.

(** The hypotheses of the partial statement are met: priors made from the cameras. *)
Example priors_keep_estimated_sample : exists (r : recon N (list R) (list R)) priors,
  grouped r /\ allocated r pr_heap /\ sized pr_heap /\ created r pr_heap /\ (forall u, is_Some (rc_views r !! u) -> usable (priors u)) /\ est_view r 0 /\
  forall u v, rc_views r !! u = Some v -> v_est v = true -> prior_of_camera pr_heap (view_camera ∅ u v) = Ok (priors u).
Proof.
  destruct pr_facts as (r & Hg & Ha & Hs & Hc & V0 & V2 & _).
  set (priors := fun u => match rc_views r !! u with
    | Some v => match prior_of_camera pr_heap (view_camera ∅ u v) with Ok p => p | _ => guess_prior end | None => guess_prior end).
  exists r, priors. repeat (split; [done|]). split; [|split; [done|]].
  - intros u [v Ev]. unfold priors. rewrite Ev. unfold prior_of_camera. cbn [view_camera c_intr]. destruct (Ha u v Ev) as [i Ei]. rewrite Ei. cbn.
    apply pr_heap_lookup in Ei as [[_ ->]|[_ ->]]; (split; [unfold positive_focal; cbn; lra|]); [by exists Pinhole|by exists Fisheye].
  - intros u v Ev _. unfold priors. rewrite Ev. unfold prior_of_camera. cbn [view_camera c_intr]. destruct (Ha u v Ev) as [i Ei]. by rewrite Ei.
Qed.

(** C102: a copied or assigned Camera sees every later change of the intrinsics of the original; DeepCopy makes a camera
    with the same pose, image size and intrinsics, whose later changes the original and all other cameras do not see, and
    vice versa. *)
Theorem camera_copies : forall h next c i, h !! c_intr c = Some i -> (forall q, is_Some (h !! q) -> (q < next)%N) ->
  (let d := copy_camera c in c_extrinsics d = c_extrinsics c /\ c_size d = c_size c /\
     forall h' : gmap N intrinsics, h' !! c_intr d = h' !! c_intr c) /\
  exists h' next' d, deep_copy h next c = Ok (h', next', d) /\ c_extrinsics d = c_extrinsics c /\ c_size d = c_size c /\
    h' !! c_intr d = Some i /\ (forall q, is_Some (h !! q) -> h' !! q = h !! q) /\
    (forall j q, is_Some (h !! q) -> <[c_intr d := j]> h' !! q = h !! q) /\
    (forall j q, is_Some (h !! q) -> <[q := j]> h' !! c_intr d = Some i).
Proof.
  intros h next c i Hi Hn. split; [done|]. unfold deep_copy. rewrite Hi. cbn [or_ub mbind outcome_bind].
  eexists _, _, _. split; [done|]. cbn [c_extrinsics c_size c_intr].
  assert (Hne : forall q, is_Some (h !! q) -> next <> q) by (intros q Hq ->; apply Hn in Hq; lia).
  assert (Ei : Intrinsics (i_type (create (i_type i))) (i_params i) = i) by (by destruct i). rewrite Ei.
  split; [done|]. split; [done|]. split; [by rewrite lookup_insert|]. split; [intros q Hq; by rewrite lookup_insert_ne by (by apply Hne)|].
  split; intros j q Hq; [rewrite !lookup_insert_ne by (by apply Hne); done|].
  rewrite lookup_insert_ne by (by apply not_eq_sym, Hne). by rewrite lookup_insert.
Qed.
Print Assumptions camera_copies.
Example camera_copies_sample : exists h' next' d, deep_copy pr_heap 3 (Camera [] 0 (1000, 800)%Z) = Ok (h', next', d) /\ c_intr d = 3%N.
Proof. eexists _, _, _. split; reflexivity. Qed.
