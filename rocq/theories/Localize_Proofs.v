(** Proofs about the localization of a view. *)
From stdpp Require Import gmap.
From Coq Require Import Reals Lra.
From Verif Require Import Base Reconstruction_Model SfmQueries_Spec BundleAdjust_Model BundleAdjust_Spec BundleAdjust_Props Localize_Model Localize_Spec.

Section proofs.
Context {F P W : Type}.
Notation recon := (recon F (list R) (list R)).
Implicit Types (r : recon) (h : gmap N intrinsics) (ot : order N).
Context (unproject center : intrinsics -> F -> P) (hnorm : list R -> W).
Context (with_orientation : R -> list R -> list (P * W) -> estimate) (calibrated uncalibrated : R -> list (P * W) -> estimate).
Context (err : pose_error (P:=P) (W:=W)) (ferr : focal_error (P:=P) (W:=W)).
Context (HC : pose_contract err ferr with_orientation calibrated uncalibrated).

(** ** Correspondences *)
Definition corresponds (norm : intrinsics -> F -> P) (i : intrinsics) r (v : view F (list R)) (t : N) (m : P * W) : Prop :=
  exists T f, rc_tracks r !! t = Some T /\ t_est T = true /\ v_feats v !! t = Some f /\ m = (norm i f, hnorm (t_data T)).
Lemma matches_steps norm i r v l acc : (forall t, t ∈ l -> is_Some (rc_tracks r !! t) /\ is_Some (v_feats v !! t)) -> NoDup l ->
  exists ts ms, run_steps (match_step hnorm norm i r v) acc l = Ok (acc ++ ms) /\ NoDup ts /\ Forall2 (corresponds norm i r v) ts ms /\
    (forall t, t ∈ ts <-> t ∈ l /\ est_track r t).
Proof.
  revert acc. induction l as [|t l IH]; intros acc H ND.
  - exists [], []. split; [cbn; by rewrite app_nil_r|]. split; [constructor|]. split; [constructor|]. intros t. split; [intros Ht; by apply elem_of_nil in Ht|intros [Ht _]; by apply elem_of_nil in Ht].
  - apply NoDup_cons in ND as [N1 N2]. destruct (H t ltac:(by left)) as [[T HT] [f Hf]]. destruct (t_est T) eqn:ET.
    + assert (Es : match_step hnorm norm i r v acc t = Ok (acc ++ [(norm i f, hnorm (t_data T))])) by (unfold match_step; rewrite HT; cbn; rewrite ET; cbn; by rewrite Hf).
      cbn [run_steps]. rewrite Es. cbn [mbind outcome_bind]. destruct (IH (acc ++ [(norm i f, hnorm (t_data T))])) as (ts & ms & E & D & F2 & M); [intros t' Ht'; apply H; by right|done|].
      exists (t :: ts), ((norm i f, hnorm (t_data T)) :: ms). split; [rewrite E, <- app_assoc; done|]. split; [apply NoDup_cons; split; [|done]; intros Ht; apply M in Ht as [Ht _]; done|].
      split; [constructor; [by exists T, f|done]|]. intros t'. rewrite !elem_of_cons, M. split; [|intuition]. intros [->|[? ?]]; [split; [by left|by exists T]|tauto].
    + assert (Es : match_step hnorm norm i r v acc t = Ok acc) by (unfold match_step; rewrite HT; cbn; by rewrite ET).
      cbn [run_steps]. rewrite Es. cbn [mbind outcome_bind]. destruct (IH acc) as (ts & ms & E & D & F2 & M); [intros t' Ht'; apply H; by right|done|]. exists ts, ms. split; [done|]. split; [done|]. split; [done|].
      intros t'. rewrite elem_of_cons, M. split; [intros [? ?]; tauto|]. intros [[->|?] HE]; [|done]. destruct HE as (T' & HT' & ET'). congruence.
Qed.
Lemma get_matches_ok ot norm i r u v : consistent r -> rc_views r !! u = Some v ->
  exists ts ms, get_matches hnorm ot norm i r v = Ok ms /\ NoDup ts /\ Forall2 (corresponds norm i r v) ts ms /\ (forall t, t ∈ ts <-> sees r u t /\ est_track r t).
Proof.
  intros Hc Hv. unfold get_matches. destruct (matches_steps norm i r v (ot (elements (dom (v_feats v)))) []) as (ts & ms & E & D & F2 & M).
  - intros t Ht. rewrite ord_perm in Ht. apply elem_of_elements, elem_of_dom in Ht. split; [|done]. destruct (Hc u t) as [_ H]. destruct H as (T & HT & _); [eauto|]. eauto.
  - rewrite ord_perm. apply NoDup_elements.
  - exists ts, ms. split; [done|]. split; [done|]. split; [done|]. intros t. rewrite M, ord_perm, elem_of_elements, elem_of_dom. unfold sees. split.
    + intros [? ?]. split; [eauto|done].
    + intros [(v' & Hv' & ?) ?]. split; [|done]. congruence.
Qed.
(** Inliers are different tracks. *)
Lemma inliers_supported norm i r u v ts ms (e : P * W -> R) (g : F -> list R -> R) th l :
  rc_views r !! u = Some v -> NoDup ts -> Forall2 (corresponds norm i r v) ts ms -> (forall x X, g x X = e (norm i x, hnorm X)) ->
  inliers_of e th ms l -> supported r u (length l) g th.
Proof.
  intros Hv D F2 Hg [NL HL]. assert (HT : forall k, k ∈ l -> exists t, ts !! k = Some t).
  { intros k Hk. destruct (HL k Hk) as (m & Hm & _). destruct (Forall2_lookup_r _ _ _ _ _ F2 Hm) as (t & Ht & _). eauto. }
  assert (HX : exists tl, Forall2 (fun k t => ts !! k = Some t) l tl).
  { clear -HT. induction l as [|k l IH]; [exists []; constructor|]. destruct (HT k) as [t Ht]; [by left|]. destruct IH as [tl Htl]; [intros; apply HT; by right|]. exists (t :: tl). by constructor. }
  destruct HX as [tl Htl]. exists tl. split; [|split].
  - apply NoDup_alt. intros a b t Ha Hb. destruct (Forall2_lookup_r _ _ _ _ _ Htl Ha) as (k & Hk & Ek). destruct (Forall2_lookup_r _ _ _ _ _ Htl Hb) as (k' & Hk' & Ek').
    assert (k = k') as ->. { rewrite NoDup_alt in D. by apply (D k k' t). } rewrite NoDup_alt in NL. by apply (NL a b k').
  - by rewrite (Forall2_length _ _ _ Htl).
  - intros t Ht. apply elem_of_list_lookup in Ht as [a Ha]. destruct (Forall2_lookup_r _ _ _ _ _ Htl Ha) as (k & Hk & Ek). assert (Hin : k ∈ l) by (by eapply elem_of_list_lookup_2).
    destruct (HL k Hin) as (m & Hm & Lt). destruct (Forall2_lookup_lr _ _ _ _ _ _ F2 Ek Hm) as (T & f & HT1 & HT2 & HT3 & ->). exists v, T, f. split; [done|]. split; [done|]. split; [done|]. split; [done|]. by rewrite Hg.
Qed.
Lemma supported_le r u n n' g th : (n' <= n)%nat -> supported r u n g th -> supported r u n' g th.
Proof. intros L (ts & D & Ln & H). exists ts. split; [done|]. split; [lia|done]. Qed.

Lemma posed_set_view r u v est d : rc_views r !! u = Some v -> posed r (set_view r u est d) u est d.
Proof.
  intros Hv. split; [done|]. split; [intros w Hw; cbn; by rewrite lookup_alter_ne|]. intros v' Hv'. cbn. rewrite lookup_alter, Hv'. done.
Qed.
Lemma pose_of_six (p o d : list R) : length p = 3%nat -> length d = 6%nat -> set_position p (set_orientation o d) = p ++ o /\ set_position p d = p ++ drop 3 d.
Proof.
  intros Hp Hd. split; [|done]. unfold set_position, set_orientation. f_equal. rewrite drop_app_alt; [done|]. rewrite take_length. lia.
Qed.

Lemma matches_count ot (norm : intrinsics -> F -> P) i r u v n : consistent r -> rc_views r !! u = Some v ->
  (forall ts : list N, NoDup ts -> (forall t, t ∈ ts -> sees r u t /\ est_track r t) -> (length ts < n)%nat) ->
  exists ms, get_matches hnorm ot norm i r v = Ok ms /\ (length ms < n)%nat.
Proof.
  intros Hc Hv H. destruct (get_matches_ok ot norm i r u v Hc Hv) as (ts & ms & E & D & F2 & M). exists ms. split; [done|]. pose proof (Forall2_length _ _ _ F2) as L. assert (length ts < n)%nat by (apply H; [done|]; intros t Ht; by apply M). clear -L H0. unfold corr. lia.
Qed.
Lemma estimate_ok ot known opts width height r h u v i inl : consistent r -> six r -> rc_views r !! u = Some v -> h !! v_intr v = Some i ->
  (lo_known_orientation opts = true -> known = true) ->
  exists ok inl' r' h', estimate_camera_pose unproject center hnorm with_orientation calibrated uncalibrated ot known opts width height r h u inl = Ok (ok, inl', r', h') /\
    (ok = false -> r' = r /\ h' = h) /\
    (ok = true -> exists p o, posed r r' u (v_est v) (p ++ o) /\
       (lo_known_orientation opts = true -> (to_size (lo_min_inliers opts) < Z.of_nat (length inl'))%Z) /\
       pose_found unproject center hnorm err ferr opts known (resolution_scaled_threshold (lo_threshold opts) width height) r h u (length inl') p o h').
Proof.
  intros Hc H6 Hv Hi HK. unfold estimate_camera_pose. rewrite Hv. cbn [or_ub mbind outcome_bind]. rewrite Hi. cbn [or_ub mbind outcome_bind].
  destruct (get_matches_ok ot (if known then unproject else center) i r u v Hc Hv) as (ts & ms & -> & D & F2 & _). cbn [mbind outcome_bind].
  destruct (decide _) as [L|L]; [exists false, inl, r, h; done|]. clear L.
  set (s := resolution_scaled_threshold (lo_threshold opts) width height). cbn zeta. set (f := default 0%R (i_params i !! 0%nat)).
  pose proof (H6 u v Hv) as L6. destruct HC as (C1 & C2 & C3). destruct (lo_known_orientation opts) eqn:EK.
  - rewrite (HK eq_refl) in *. set (e := with_orientation _ _ _). destruct (e_ok e) eqn:Eok; cbn [andb].
    + destruct (bool_decide _) eqn:Eb; [|eexists false, _, _, _; done]. apply bool_decide_eq_true in Eb. destruct (C1 _ _ _ Eok) as [Lp Li].
      eexists true, _, _, _. split; [done|]. split; [done|]. intros _. exists (e_position e), (drop 3 (v_data v)). split; [by apply posed_set_view with v|]. split; [done|].
      exists v, i. split; [done|]. split; [done|]. split; [done|]. split; [rewrite drop_length; lia|]. rewrite EK. cbn zeta. split; [done|]. split; [done|].
      eapply inliers_supported; [done|exact D|exact F2| |exact Li]. done.
    + eexists false, _, _, _. done.
  - destruct known.
    + set (e := calibrated _ _). destruct (e_ok e) eqn:Eok; [|eexists false, _, _, _; done]. destruct (C2 _ _ Eok) as (Lp & Lo & Li).
      eexists true, _, _, _. split; [done|]. split; [done|]. intros _. exists (e_position e), (e_orientation e).
      destruct (pose_of_six (e_position e) (e_orientation e) (v_data v) Lp L6) as [-> _]. split; [by apply posed_set_view with v|]. split; [done|].
      exists v, i. split; [done|]. split; [done|]. split; [done|]. split; [done|]. rewrite EK. cbn zeta. split; [done|].
      eapply inliers_supported; [done|exact D|exact F2| |exact Li]. done.
    + set (e := uncalibrated _ _). destruct (e_ok e) eqn:Eok; [|eexists false, _, _, _; done]. destruct (C3 _ _ Eok) as (Lf & Lp & Lo & Li).
      unfold set_focal. destruct (Rlt_dec 0 (e_focal e)) as [_|]; [|done]. cbn [mbind outcome_bind].
      eexists true, _, _, _. split; [done|]. split; [done|]. intros _. exists (e_position e), (e_orientation e).
      destruct (pose_of_six (e_position e) (e_orientation e) (v_data v) Lp L6) as [-> _]. split; [by apply posed_set_view with v|]. split; [done|].
      exists v, i. split; [done|]. split; [done|]. split; [done|]. split; [done|]. rewrite EK. cbn zeta. exists (e_focal e). split; [done|]. split.
      * apply map_eq. intros q. destruct (decide (q = v_intr v)) as [->|Nq]; [by rewrite lookup_alter, lookup_insert, Hi|by rewrite lookup_alter_ne, lookup_insert_ne].
      * eapply inliers_supported; [done|exact D|exact F2| |exact Li]. done.
Qed.

(** ** What the pose change preserves *)
Lemma posed_sees r r' u est d w t : posed r r' u est d -> is_Some (rc_views r !! u) -> sees r' w t <-> sees r w t.
Proof.
  intros (_ & Ho & Hu) [v Hv]. unfold sees. destruct (decide (w = u)) as [->|Nw]; [|by rewrite Ho]. rewrite (Hu v Hv), Hv.
  split; intros (v' & [= <-] & H); eexists; (split; [done|]); done.
Qed.
Lemma posed_tracks r r' u est d : posed r r' u est d -> rc_tracks r' = rc_tracks r.
Proof. intros (-> & _). done. Qed.
Lemma posed_group r r' u est d : posed r r' u est d -> rc_view_group r' = rc_view_group r /\ rc_groups r' = rc_groups r.
Proof. intros (-> & _). done. Qed.
Lemma posed_view r r' u est d w : posed r r' u est d -> is_Some (rc_views r !! u) -> is_Some (rc_views r' !! w) <-> is_Some (rc_views r !! w).
Proof.
  intros (_ & Ho & Hu) [v Hv]. destruct (decide (w = u)) as [->|Nw]; [|by rewrite Ho]. rewrite (Hu v Hv), Hv. done.
Qed.
Lemma posed_intr r r' u est d w v' : posed r r' u est d -> is_Some (rc_views r !! u) -> rc_views r' !! w = Some v' -> exists v, rc_views r !! w = Some v /\ v_intr v = v_intr v'.
Proof.
  intros (_ & Ho & Hu) [v Hv] Hw. destruct (decide (w = u)) as [->|Nw]; [|rewrite Ho in Hw by done; eauto]. rewrite (Hu v Hv) in Hw. injection Hw as <-. exists v. done.
Qed.
Lemma posed_consistent r r' u est d : posed r r' u est d -> is_Some (rc_views r !! u) -> consistent r -> consistent r'.
Proof.
  intros Hp Hu Hc w t. rewrite (posed_tracks _ _ _ _ _ Hp). etransitivity; [apply Hc|]. symmetry. exact (posed_sees _ _ _ _ _ w t Hp Hu).
Qed.
Lemma posed_grouped r r' u est d : posed r r' u est d -> is_Some (rc_views r !! u) -> grouped r -> grouped r'.
Proof.
  intros Hp Hu (G1 & G2 & G3 & G4). destruct (posed_group _ _ _ _ _ Hp) as [E1 E2]. unfold grouped. rewrite E1, E2. split; [|split; [done|split; [done|]]].
  - intros w. rewrite (posed_view _ _ _ _ _ w Hp Hu). apply G1.
  - intros w w' v v' Hv Hv'. destruct (posed_intr _ _ _ _ _ _ _ Hp Hu Hv) as (a & Ha & <-). destruct (posed_intr _ _ _ _ _ _ _ Hp Hu Hv') as (b & Hb & <-). by apply G4.
Qed.
Lemma posed_allocated r r' u est d h h' : posed r r' u est d -> is_Some (rc_views r !! u) -> allocated r h -> dom h' = dom h -> allocated r' h'.
Proof.
  intros Hp Hu Ha Hd w v' Hv'. destruct (posed_intr _ _ _ _ _ _ _ Hp Hu Hv') as (a & Hv & <-). apply elem_of_dom. rewrite Hd. apply elem_of_dom. by apply (Ha w).
Qed.
Lemma posed_twice r r1 r2 u e1 d1 e2 d2 : posed r r1 u e1 d1 -> posed r1 r2 u e2 d2 -> is_Some (rc_views r !! u) -> posed r r2 u e2 d2.
Proof.
  intros (A1 & A2 & A3) (B1 & B2 & B3) [v Hv]. split; [rewrite B1, A1; done|]. split; [intros w Hw; by rewrite B2, A2|]. intros v' Hv'. by rewrite (B3 _ (A3 _ Hv')).
Qed.
Lemma pose_found_dom opts known s r h u n p o h1 : pose_found unproject center hnorm err ferr opts known s r h u n p o h1 -> dom h1 = dom h.
Proof.
  intros (v & i & Hv & Hi & _ & _ & H). cbn zeta in H. destruct (lo_known_orientation opts); [destruct H as (_ & -> & _); done|]. destruct known; [destruct H as (-> & _); done|].
  destruct H as (fl & _ & -> & _). rewrite dom_insert_L. assert (v_intr v ∈ dom h) by (apply elem_of_dom; eauto). set_solver.
Qed.
Lemma pose_found_tracks opts known s r h u n p o h1 : pose_found unproject center hnorm err ferr opts known s r h u n p o h1 -> (0 < n)%nat ->
  exists t, sees r u t /\ est_track r t.
Proof.
  intros (v & i & Hv & Hi & _ & _ & H) Hn. cbn zeta in H.
  assert (K : forall g th, supported r u n g th -> exists t, sees r u t /\ est_track r t).
  { intros g th (ts & D & L & Hs). destruct ts as [|t ts]; [cbn in L; lia|]. destruct (Hs t) as (v' & T & f & A & B & C & E & _); [by left|]. exists t. split; [exists v'; split; [done|by eexists]|by exists T]. }
  destruct (lo_known_orientation opts); [destruct H as (_ & _ & H); by eapply K|]. destruct known; [destruct H as (_ & H); by eapply K|].
  destruct H as (fl & _ & _ & H). by eapply K.
Qed.

(** ** The whole call *)
Lemma has_known_ok priors r u v : grouped r -> rc_views r !! u = Some v -> exists b, has_known_intrinsics priors r u = Ok b /\ (b = true <-> treated_as_known priors r u).
Proof.
  intros (G1 & G2 & _ & _) Hv. unfold has_known_intrinsics. rewrite Hv. cbn [or_ub mbind outcome_bind]. destruct (bool_decide _) eqn:Eb.
  - apply bool_decide_eq_true in Eb. exists true. split; [done|]. split; [by left|done].
  - apply bool_decide_eq_false in Eb. eexists. split; [done|]. destruct (G1 u) as [Gs _]. destruct Gs as [g Hg]; [eauto|]. rewrite Hg. cbn [default]. unfold Datatypes.id.
    rewrite existsb_exists. unfold treated_as_known. split.
    + intros (w & Hw & H). apply andb_true_iff in H as [E1 E2]. apply negb_true_iff, bool_decide_eq_false in E2. right. split; [by exists v|]. exists w, g. split; [done|]. split; [done|].
      apply elem_of_list_In, elem_of_elements in Hw. apply G2. unfold lookup_total, map_lookup_total in Hw. destruct (rc_groups r !! g) as [X|] eqn:EX; [|by apply elem_of_empty in Hw]. exists X. done.
    + intros [H|[(v' & Hv' & Ev) (w & g' & Nw & Hg' & Hw)]]; [done|]. replace v' with v in * by congruence. replace g' with g in * by congruence. exists w. split.
      * apply elem_of_list_In, elem_of_elements. apply G2 in Hw as (X & HX & Hw). by rewrite (lookup_total_correct _ _ _ HX).
      * rewrite Ev. cbn [andb]. apply negb_true_iff, bool_decide_eq_false. done.
Qed.

Lemma localize_ok (cerr : model_type -> F -> list R -> list R -> list R -> R) solve ot os priors opts width height r h u v inl :
  ceres_contract cerr solve -> consistent r -> grouped r -> allocated r h -> six r -> rc_views r !! u = Some v -> (1 <= lo_min_inliers opts < 2 ^ 31)%Z ->
  let call := localize unproject center hnorm with_orientation calibrated uncalibrated ot os solve priors opts width height r h u inl in
  let s := resolution_scaled_threshold (lo_threshold opts) width height in
  exists ok inl' r' h' known, call = Ok (ok, inl', r', h') /\ (known = true <-> lo_known_orientation opts = true \/ treated_as_known priors r u) /\
    (ok = false /\ r' = r /\ h' = h \/
     exists p o, let found := pose_found unproject center hnorm err ferr opts known s r h u (length inl') p o in
       ok = false /\ (Z.of_nat (length inl') < lo_min_inliers opts)%Z /\ posed r r' u (v_est v) (p ++ o) /\ found h' \/
       (lo_min_inliers opts <= Z.of_nat (length inl'))%Z /\ (lo_known_orientation opts = true -> (lo_min_inliers opts < Z.of_nat (length inl'))%Z) /\
       exists r1 h1, posed r r1 u true (p ++ o) /\ found h1 /\ consistent r1 /\ grouped r1 /\ allocated r1 h1 /\
         (lo_bundle_adjust opts = false /\ ok = true /\ r' = r1 /\ h' = h1 \/
          lo_bundle_adjust opts = true /\ exists sm, bundle_adjust_view os r1 h1 (lo_ba opts) solve u = Ok (r', h', sm) /\ ok = sm_success sm)).
Proof.
  intros Hs Hc Hg Ha H6 Hv Hmin call s. subst call. unfold localize.
  destruct (Ha u v Hv) as [i Hi].
  assert (HK : exists known, (if lo_known_orientation opts then Ok true else has_known_intrinsics priors r u) = Ok known /\ (known = true <-> lo_known_orientation opts = true \/ treated_as_known priors r u)).
  { destruct (lo_known_orientation opts); [exists true; split; [done|]; split; [by left|done]|]. destruct (has_known_ok priors r u v Hg Hv) as (b & -> & Hb). exists b. split; [done|]. rewrite Hb. intuition discriminate. }
  destruct HK as (known & -> & HK). cbn [mbind outcome_bind].
  destruct (estimate_ok ot known opts width height r h u v i inl Hc H6 Hv Hi) as (ok & inl' & r1 & h1 & -> & H1 & H2); [intros E; apply HK; by left|]. cbn [mbind outcome_bind]. fold s in H2.
  assert (Em : to_size (lo_min_inliers opts) = lo_min_inliers opts) by (unfold to_size; apply Z.mod_small; lia).
  rewrite Em in *. destruct ok; cbn [negb orb].
  2:{ exists false, inl', r1, h1, known. split; [done|]. split; [done|]. left. destruct H1; done. }
  destruct H2 as (p & o & Hp & Hm & Hf); [done|]. destruct (bool_decide _) eqn:Eb.
  { apply bool_decide_eq_true in Eb. exists false, inl', r1, h1, known. split; [done|]. split; [done|]. right. exists p, o. left. done. }
  apply bool_decide_eq_false in Eb. assert (Hu : is_Some (rc_views r !! u)) by eauto.
  assert (Hv1 : exists v1, rc_views r1 !! u = Some v1 /\ v_data v1 = p ++ o) by (destruct Hp as (_ & _ & K); rewrite (K v Hv); by eexists). destruct Hv1 as (v1 & Hv1 & Ed). rewrite Hv1. cbn [or_ub mbind outcome_bind].
  rewrite Ed. set (r2 := set_view r1 u true (p ++ o)). assert (Hp2 : posed r r2 u true (p ++ o)) by (eapply posed_twice; [exact Hp|by apply posed_set_view with v1|done]).
  pose proof (posed_consistent _ _ _ _ _ Hp2 Hu Hc) as Hc2. pose proof (posed_grouped _ _ _ _ _ Hp2 Hu Hg) as Hg2. pose proof (posed_allocated _ _ _ _ _ _ _ Hp2 Hu Ha (pose_found_dom _ _ _ _ _ _ _ _ _ _ Hf)) as Ha2.
  destruct (lo_bundle_adjust opts).
  - assert (Had : adjustable (lo_ba opts) [u] [] r2 h1).
    { destruct (pose_found_tracks _ _ _ _ _ _ _ _ _ _ Hf) as (t & S1 & S2); [lia|].
      assert (S1' : sees r2 u t) by (by apply (posed_sees _ _ _ _ _ _ _ Hp2 Hu)). assert (S2' : est_track r2 t) by (unfold est_track; by rewrite (posed_tracks _ _ _ _ _ Hp2)).
      split; [intros w Hw; apply elem_of_list_singleton in Hw as ->; by apply (posed_view _ _ _ _ _ u Hp2 Hu)|]. split; [intros t' Ht'; by apply elem_of_nil in Ht'|].
      split; [intros t' Ht'; by apply elem_of_nil in Ht'|]. split; [intros _ w Hw _; apply elem_of_list_singleton in Hw as ->; eauto|].
      intros w q j k Hw He Huse _ _. apply elem_of_list_singleton in Hw as ->. exists u, t. split; [done|]. split; [done|]. split; [done|]. split; [done|]. left. by left. }
    assert (E' : forall w, bundle_adjust_view os r2 h1 (lo_ba opts) solve w = bundle_adjust_partial os r2 h1 (lo_ba opts) solve [w] []).
    { intros w. unfold bundle_adjust_view, bundle_adjust_partial. cbn [run_steps]. by destruct (add_view os r2 h1 ba_new w). }
    destruct (adjust_returns_partial F cerr solve os r2 h1 (lo_ba opts) [u] [] Hc2 Hg2 Ha2 Hs) as [K _]. destruct (K Had) as (r' & h' & sm & E). rewrite E', E. cbn [mbind outcome_bind].
    exists (sm_success sm), inl', r', h', known. split; [done|]. split; [done|]. right. exists p, o. right. split; [lia|]. split; [done|]. exists r2, h1. split; [done|]. split; [done|]. split; [done|]. split; [done|]. split; [done|].
    right. split; [done|]. exists sm. split; [|done]. rewrite E'. done.
  - exists true, inl', r2, h1, known. split; [done|]. split; [done|]. right. exists p, o. right. split; [lia|]. split; [done|]. exists r2, h1. split; [done|]. split; [done|]. split; [done|]. split; [done|]. split; [done|]. by left.
Qed.
End proofs.
