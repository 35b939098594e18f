(** Proofs about bundle adjustment: the residuals and the flags of the problem. *)
From stdpp Require Import gmap.
From Coq Require Import Reals.
From Verif Require Import Base Reconstruction_Model SfmQueries_Spec BundleAdjust_Model BundleAdjust_Spec.

(** The parameters kept constant are those whose kind was not requested. *)
Lemma unless_set_elem mask flag l i : i ∈ unless_set mask flag l <-> N.land mask flag = 0%N /\ i ∈ l.
Proof.
  unfold unless_set, kNone. destruct (decide _) as [E|E]; [tauto|].
  split; [intros H; by apply elem_of_nil in H|tauto].
Qed.
Lemma land_bit mask k : N.land mask (2 ^ k) = 0%N <-> N.testbit mask k = false.
Proof.
  split; intros H.
  - assert (N.testbit (N.land mask (2 ^ k)) k = false) as E by (rewrite H; apply N.bits_0).
    rewrite N.land_spec, N.pow2_bits_true in E. by rewrite andb_true_r in E.
  - apply N.bits_inj. intros j. rewrite N.land_spec, N.bits_0, N.pow2_bits_eqb.
    destruct (N.eqb_spec k j) as [ <-|]; [by rewrite H|apply andb_false_r].
Qed.

Lemma constant_intrinsics_spec ty mask i : i ∈ constant_intrinsics ty mask <-> kept ty mask i.
Proof.
  unfold constant_intrinsics, kept, requested.
  pose proof (land_bit mask 0) as B0. pose proof (land_bit mask 1) as B1. pose proof (land_bit mask 2) as B2.
  pose proof (land_bit mask 3) as B3. pose proof (land_bit mask 4) as B4. pose proof (land_bit mask 5) as B5.
  change (2 ^ 0)%N with kFocalLength in B0. change (2 ^ 1)%N with kAspectRatio in B1.
  change (2 ^ 2)%N with kSkew in B2. change (2 ^ 3)%N with kPrincipalPoints in B3.
  change (2 ^ 4)%N with kRadialDistortion in B4. change (2 ^ 5)%N with kTangentialDistortion in B5.
  destruct (decide (mask = kAll)) as [->|Hn].
  { split; [intros H; by apply elem_of_nil in H|]. intros (k & _ & Hk). by destruct k. }
  clear Hn.
  destruct ty; rewrite !elem_of_app, !unless_set_elem, ?B0, ?B1, ?B2, ?B3, ?B4, ?B5; clear B0 B1 B2 B3 B4 B5; split.
  all: try (intros H; repeat match type of H with _ \/ _ => destruct H as [H|H] end; destruct H as [E Hi];
    rewrite !elem_of_cons, elem_of_nil in Hi;
    repeat match type of Hi with _ \/ _ => destruct Hi as [->|Hi] end; try done;
    eexists; (split; [reflexivity|exact E])).
  all: intros (k & Hl & Hk); do 10 (destruct i as [|i]; [cbn in Hl; first [discriminate Hl |
      assert (k = _) by (symmetry; injection Hl; intros X; exact X); subst k; cbn [kind_bit] in Hk;
      rewrite !elem_of_cons; tauto]|]); cbn in Hl; discriminate Hl.
Qed.

Lemma unless_set_NoDup mask flag l : NoDup l -> NoDup (unless_set mask flag l).
Proof. unfold unless_set. destruct (decide _); [done|constructor]. Qed.

Lemma constant_intrinsics_NoDup ty mask : NoDup (constant_intrinsics ty mask).
Proof.
  unfold constant_intrinsics. destruct (decide _); [constructor|].
  unfold unless_set.
  destruct ty; repeat destruct (decide _); cbn [app];
    apply (bool_decide_unpack _); vm_compute; exact I.
Qed.

Lemma layout_length ty : length (layout ty) = num_parameters ty.
Proof. by destruct ty. Qed.

Lemma constant_intrinsics_lt ty mask : Forall (fun i => i < num_parameters ty) (constant_intrinsics ty mask).
Proof.
  apply list.Forall_forall. intros i Hi. apply constant_intrinsics_spec in Hi. destruct Hi as (k & Hk & _).
  apply lookup_lt_Some in Hk. by rewrite layout_length in Hk.
Qed.

Lemma constant_intrinsics_full ty mask j : length (constant_intrinsics ty mask) = num_parameters ty ->
  j < num_parameters ty -> j ∈ constant_intrinsics ty mask.
Proof.
  intros Hl Hj.
  pose proof (constant_intrinsics_NoDup ty mask) as Hnd. pose proof (constant_intrinsics_lt ty mask) as Hlt.
  assert (Hsub : constant_intrinsics ty mask ⊆+ seq 0 (num_parameters ty)).
  { apply NoDup_submseteq; [done|]. intros i Hi. apply elem_of_seq.
    rewrite list.Forall_forall in Hlt. specialize (Hlt i Hi). lia. }
  apply submseteq_Permutation_length_le in Hsub; [|rewrite seq_length; lia].
  rewrite Hsub. apply elem_of_seq. lia.
Qed.

Section proofs.
Context {F : Type}.
Notation recon := (recon F (list R) (list R)).
Notation residual := (residual (F:=F)).
Notation adjuster := (adjuster (F:=F)).
Implicit Types (a : adjuster) (rs : residual).

Lemma elem_of_blocks_of rs b :
  b ∈ blocks_of rs <-> b = BExtrinsics (rs_view rs) \/ b = BIntrinsics (rs_intr rs) \/ b = BPoint (rs_track rs).
Proof. unfold blocks_of. rewrite !elem_of_cons, elem_of_nil. tauto. Qed.

Lemma add_block_lookup b bs b' :
  add_block b bs !! b' = match bs !! b' with Some k => Some k | None => if decide (b' = b) then Some (Flags false None) else None end.
Proof.
  unfold add_block. destruct (decide (b' = b)) as [->|Hne].
  - destruct (bs !! b) as [k|] eqn:E; [by rewrite E|by rewrite lookup_insert].
  - destruct (bs !! b) as [k|] eqn:E; [|rewrite lookup_insert_ne by done]; by destruct (bs !! b').
Qed.

Lemma add_residual_lookup a rs b :
  ba_blocks (add_residual a rs) !! b =
    match ba_blocks a !! b with Some k => Some k | None => if decide (b ∈ blocks_of rs) then Some (Flags false None) else None end.
Proof.
  unfold add_residual. cbn [ba_blocks set_problem]. rewrite !add_block_lookup.
  destruct (ba_blocks a !! b) as [k|]; [done|].
  destruct (decide (b ∈ blocks_of rs)) as [H|H]; rewrite elem_of_blocks_of in H;
    repeat destruct (decide _); try done; tauto.
Qed.

Context (os : nat -> N -> order N) (r : recon) (h : gmap N intrinsics).
Hypothesis (Hcons : consistent r) (Halloc : allocated r h).

(** A residual of an estimated view and an estimated track of [r]. *)
Definition good_residual rs : Prop :=
  exists v T i, rc_views r !! rs_view rs = Some v /\ v_est v = true /\ rc_tracks r !! rs_track rs = Some T /\ t_est T = true /\
    v_feats v !! rs_track rs = Some (rs_feature rs) /\ rs_intr rs = v_intr v /\ h !! v_intr v = Some i /\ rs_type rs = i_type i.

Definition pair_of rs : N * N := (rs_view rs, rs_track rs).

Lemma good_residual_unique rs rs' : good_residual rs -> good_residual rs' -> pair_of rs = pair_of rs' -> rs = rs'.
Proof.
  intros (v & T & i & Hv & _ & HT & _ & Hf & Hp & Hi & Hty) (v' & T' & i' & Hv' & _ & HT' & _ & Hf' & Hp' & Hi' & Hty') [= E1 E2].
  rewrite <- E1 in Hv'. rewrite Hv in Hv'. assert (v' = v) as -> by congruence.
  rewrite <- E2 in Hf'. assert (i' = i) as -> by congruence.
  destruct rs, rs'; cbn in *. congruence.
Qed.

(** The problem contains exactly the residuals selected by [S]; points in [E] may have any flag. *)
Record inv (S : N -> N -> Prop) (E : N -> Prop) a : Prop := {
  i_dom : forall b, is_Some (ba_blocks a !! b) <-> exists rs, rs ∈ ba_residuals a /\ b ∈ blocks_of rs;
  i_res : forall rs, rs ∈ ba_residuals a <-> good_residual rs /\ S (rs_view rs) (rs_track rs);
  i_nodup : NoDup (pair_of <$> ba_residuals a);
  i_sub : forall b k, ba_blocks a !! b = Some k -> f_subset k = None;
  i_ext : forall u k, ba_blocks a !! BExtrinsics u = Some k -> f_constant k = bool_decide (u ∉ ba_views a);
  i_int : forall p k, ba_blocks a !! BIntrinsics p = Some k -> f_constant k = false;
  i_pt : forall t k, ba_blocks a !! BPoint t = Some k -> ~ E t -> f_constant k = bool_decide (t ∉ ba_tracks a);
  i_groups : forall g, g ∈ ba_groups a <-> exists u, u ∈ ba_views a /\ default kInvalidId (rc_view_group r !! u) = g;
  i_pot : forall g, g ∈ ba_pot_groups a <->
    exists rs, rs ∈ ba_residuals a /\ rs_view rs ∉ ba_views a /\ default kInvalidId (rc_view_group r !! rs_view rs) = g }.

Lemma inv_ext (S S' : N -> N -> Prop) (E E' : N -> Prop) a :
  (forall rs, good_residual rs -> S (rs_view rs) (rs_track rs) <-> S' (rs_view rs) (rs_track rs)) -> (forall t, E t -> E' t) ->
  inv S E a -> inv S' E' a.
Proof.
  intros HS HE I. destruct I as [H1 H2 H3 H4 H5 H6 H7 H8 H9]. split; try done.
  - intros rs. rewrite H2. split; intros [Hg ?]; (split; [done|]); by apply (HS rs).
  - intros t k Hk HE'. apply H7; [done|]. intros X. by apply HE', HE.
Qed.

Lemma inv_dom_add a rs :
  (forall b, is_Some (ba_blocks a !! b) <-> exists rs, rs ∈ ba_residuals a /\ b ∈ blocks_of rs) ->
  forall b, is_Some (ba_blocks (add_residual a rs) !! b) <-> exists rs', rs' ∈ ba_residuals (add_residual a rs) /\ b ∈ blocks_of rs'.
Proof.
  intros Hdom b. rewrite add_residual_lookup. unfold add_residual at 1. cbn [ba_residuals set_problem].
  assert (Hs : is_Some (match ba_blocks a !! b with Some k => Some k
      | None => if decide (b ∈ blocks_of rs) then Some (Flags false None) else None end)
    <-> is_Some (ba_blocks a !! b) \/ b ∈ blocks_of rs).
  { destruct (ba_blocks a !! b) as [k|]; [split; [left|]; eauto|].
    destruct (decide (b ∈ blocks_of rs)) as [Hb|Hb]; (split; [|intros [[? [=]]|]]); eauto; try tauto. }
  rewrite Hs, Hdom. split.
  - intros [(rs' & H1 & H2)|H]; [exists rs'|exists rs]; (split; [|done]); apply elem_of_app; [by left|right].
    by apply elem_of_list_singleton.
  - intros (rs' & [H1|H1]%elem_of_app & H2); [left; eauto|]. apply elem_of_list_singleton in H1. subst. by right.
Qed.

Lemma inv_res_add (S : N -> N -> Prop) a rs :
  (forall rs, rs ∈ ba_residuals a <-> good_residual rs /\ S (rs_view rs) (rs_track rs)) ->
  good_residual rs ->
  forall rs', rs' ∈ ba_residuals (add_residual a rs) <->
    good_residual rs' /\ (S (rs_view rs') (rs_track rs') \/ rs_view rs' = rs_view rs /\ rs_track rs' = rs_track rs).
Proof.
  intros Hres Hg rs'. unfold add_residual. cbn [ba_residuals set_problem].
  rewrite elem_of_app, elem_of_list_singleton, Hres. split.
  - intros [[? ?]| ->]; tauto.
  - intros [Hg' [HS|[E1 E2]]]; [by left|right]. apply good_residual_unique; try done. unfold pair_of. congruence.
Qed.

Lemma inv_nodup_add (S : N -> N -> Prop) a rs :
  (forall rs, rs ∈ ba_residuals a <-> good_residual rs /\ S (rs_view rs) (rs_track rs)) ->
  NoDup (pair_of <$> ba_residuals a) -> ~ S (rs_view rs) (rs_track rs) ->
  NoDup (pair_of <$> ba_residuals (add_residual a rs)).
Proof.
  intros Hres Hnd HS. unfold add_residual. cbn [ba_residuals set_problem]. rewrite fmap_app. apply NoDup_app.
  split; [done|]. split.
  - intros x (rs' & -> & Hrs')%elem_of_list_fmap Hx. apply elem_of_list_singleton in Hx. unfold pair_of in Hx.
    injection Hx as E1 E2. apply Hres in Hrs'. rewrite E1, E2 in Hrs'. tauto.
  - cbn. apply NoDup_singleton.
Qed.

(** The block of a track point or of extrinsics exists after its residual was added. *)
Lemma add_residual_has a rs b : b ∈ blocks_of rs -> exists k, ba_blocks (add_residual a rs) !! b = Some k /\
  (ba_blocks a !! b = Some k \/ ba_blocks a !! b = None /\ k = Flags false None).
Proof.
  intros Hb. rewrite add_residual_lookup. destruct (ba_blocks a !! b) as [k|]; [eauto|].
  rewrite decide_True by done. eauto.
Qed.

Lemma add_residual_old a rs b k : ba_blocks (add_residual a rs) !! b = Some k ->
  ba_blocks a !! b = Some k \/ k = Flags false None /\ b ∈ blocks_of rs.
Proof.
  rewrite add_residual_lookup. destruct (ba_blocks a !! b) as [k'|]; [auto|].
  destruct (decide (b ∈ blocks_of rs)); [|done]. intros [= <-]. auto.
Qed.

(** One observation of a view that is optimized. *)
Lemma view_residual_inv (S : N -> N -> Prop) (E : N -> Prop) a rs :
  inv S E a -> good_residual rs -> ~ S (rs_view rs) (rs_track rs) -> rs_view rs ∈ ba_views a -> rs_track rs ∉ ba_tracks a ->
  exists a', set_constant true (BPoint (rs_track rs)) (add_residual a rs) = Ok a' /\
    ba_views a' = ba_views a /\ ba_tracks a' = ba_tracks a /\
    inv (fun u t => S u t \/ u = rs_view rs /\ t = rs_track rs) E a'.
Proof.
  intros I Hg HS Hv Ht.
  destruct (add_residual_has a rs (BPoint (rs_track rs))) as (k & Hk & Hk').
  { apply elem_of_blocks_of. tauto. }
  unfold set_constant. rewrite Hk. cbn [or_die mbind outcome_bind]. eexists. split; [reflexivity|].
  split; [done|]. split; [done|]. destruct I as [H1 H2 H3 H4 H5 H6 H7 H8 H9].
  assert (Hsub : f_subset k = None) by (destruct Hk' as [Hk'|[_ ->]]; [by eapply H4|done]).
  split; cbn [ba_blocks ba_residuals ba_views ba_tracks ba_groups ba_pot_groups set_problem].
  - intros b. rewrite <- (inv_dom_add a rs H1). destruct (decide (b = BPoint (rs_track rs))) as [->|Hne].
    + rewrite lookup_insert, Hk. split; eauto.
    + by rewrite lookup_insert_ne by done.
  - by apply inv_res_add.
  - by eapply inv_nodup_add.
  - intros b k'. destruct (decide (b = BPoint (rs_track rs))) as [->|Hne].
    + rewrite lookup_insert. by intros [= <-].
    + rewrite lookup_insert_ne by done. intros [Ho|[-> _]]%add_residual_old; [by eapply H4|done].
  - intros u k'. rewrite lookup_insert_ne by done. intros [Ho|[-> Hb]]%add_residual_old; [by eapply H5|].
    apply elem_of_blocks_of in Hb. destruct Hb as [[= ->]|[[=]|[=]]]. cbn. symmetry. apply bool_decide_eq_false. tauto.
  - intros p k'. rewrite lookup_insert_ne by done. intros [Ho|[-> Hb]]%add_residual_old; [by eapply H6|done].
  - intros t k'. destruct (decide (t = rs_track rs)) as [->|Hne].
    + rewrite lookup_insert. intros [= <-] _. cbn. symmetry. by apply bool_decide_eq_true.
    + rewrite lookup_insert_ne by congruence. intros [Ho|[-> Hb]]%add_residual_old HE; [by eapply H7|].
      apply elem_of_blocks_of in Hb. destruct Hb as [[=]|[[=]|[=]]]. congruence.
  - done.
  - intros g. rewrite H9. unfold add_residual. cbn [ba_residuals set_problem]. split.
    + intros (rs' & Hr & ?). exists rs'. split; [apply elem_of_app; by left|done].
    + intros (rs' & [Hr|Hr]%elem_of_app & Hn & Hgr); [eauto|]. apply elem_of_list_singleton in Hr. by subst.
Qed.

(** One observation of a track that is optimized, in a view that is not. *)
Lemma track_residual_inv (S : N -> N -> Prop) (E : N -> Prop) a rs :
  inv S E a -> good_residual rs -> ~ S (rs_view rs) (rs_track rs) -> rs_view rs ∉ ba_views a -> E (rs_track rs) ->
  exists a', set_constant true (BExtrinsics (rs_view rs)) (add_residual a rs) = Ok a' /\
    let g := default kInvalidId (rc_view_group r !! rs_view rs) in
    let a'' := Adjuster (ba_views a') (ba_tracks a') (ba_groups a') ({[g]} ∪ ba_pot_groups a') (ba_blocks a') (ba_residuals a') in
    ba_views a'' = ba_views a /\ ba_tracks a'' = ba_tracks a /\
    inv (fun u t => S u t \/ u = rs_view rs /\ t = rs_track rs) E a''.
Proof.
  intros I Hg HS Hv HEt.
  destruct (add_residual_has a rs (BExtrinsics (rs_view rs))) as (k & Hk & Hk').
  { apply elem_of_blocks_of. tauto. }
  unfold set_constant. rewrite Hk. cbn [or_die mbind outcome_bind]. eexists. split; [reflexivity|].
  split; [done|]. split; [done|]. destruct I as [H1 H2 H3 H4 H5 H6 H7 H8 H9].
  assert (Hsub : f_subset k = None) by (destruct Hk' as [Hk'|[_ ->]]; [by eapply H4|done]).
  split; cbn [ba_blocks ba_residuals ba_views ba_tracks ba_groups ba_pot_groups set_problem].
  - intros b. rewrite <- (inv_dom_add a rs H1). destruct (decide (b = BExtrinsics (rs_view rs))) as [->|Hne].
    + rewrite lookup_insert, Hk. split; eauto.
    + by rewrite lookup_insert_ne by done.
  - by apply inv_res_add.
  - by eapply inv_nodup_add.
  - intros b k'. destruct (decide (b = BExtrinsics (rs_view rs))) as [->|Hne].
    + rewrite lookup_insert. by intros [= <-].
    + rewrite lookup_insert_ne by done. intros [Ho|[-> _]]%add_residual_old; [by eapply H4|done].
  - intros u k'. destruct (decide (u = rs_view rs)) as [->|Hne].
    + rewrite lookup_insert. intros [= <-]. cbn. symmetry. by apply bool_decide_eq_true.
    + rewrite lookup_insert_ne by congruence. intros [Ho|[-> Hb]]%add_residual_old; [by eapply H5|].
      apply elem_of_blocks_of in Hb. destruct Hb as [[=]|[[=]|[=]]]. congruence.
  - intros p k'. rewrite lookup_insert_ne by done. intros [Ho|[-> Hb]]%add_residual_old; [by eapply H6|done].
  - intros t k'. rewrite lookup_insert_ne by done. intros [Ho|[-> Hb]]%add_residual_old HE; [by eapply H7|].
    apply elem_of_blocks_of in Hb. destruct Hb as [[=]|[[=]|[=]]]. subst. tauto.
  - done.
  - intros g. unfold add_residual. cbn [ba_residuals ba_pot_groups set_problem].
    rewrite elem_of_union, elem_of_singleton, H9. split.
    + intros [->|(rs' & Hr & ?)].
      * exists rs. split; [apply elem_of_app; right; by apply elem_of_list_singleton|done].
      * exists rs'. split; [apply elem_of_app; by left|done].
    + intros (rs' & [Hr|Hr]%elem_of_app & Hn & Hgr); [right; eauto|]. apply elem_of_list_singleton in Hr. subst. by left.
Qed.

(** AddView. *)
Lemma add_view_loop (u : N) (v : view F (list R)) (S : N -> N -> Prop) (l : list N) a (done : N -> Prop) :
  rc_views r !! u = Some v -> v_est v = true -> (forall t, ~ S u t) -> NoDup l -> (forall t, t ∈ l -> ~ done t) ->
  (forall t, t ∈ l -> is_Some (v_feats v !! t)) ->
  u ∈ ba_views a -> ba_tracks a = ∅ ->
  inv (fun u' t => S u' t \/ u' = u /\ done t) (fun _ => False) a ->
  exists a', run_steps (add_view_track r h u v) a l = Ok a' /\ ba_views a' = ba_views a /\ ba_tracks a' = ∅ /\
    inv (fun u' t => S u' t \/ u' = u /\ (done t \/ t ∈ l)) (fun _ => False) a'.
Proof.
  intros Hv He HS. revert a done. induction l as [|t l IH]; intros a dn Hnd Hdn Hin Hu Ht I.
  { exists a. cbn. split; [done|]. split; [done|]. split; [done|]. eapply inv_ext; [| |exact I]; [|done].
    intros rs _. rewrite elem_of_nil. tauto. }
  apply NoDup_cons in Hnd as [Htl Hnd].
  destruct (Hin t) as [f Hf]; [by left|].
  assert (HT : exists T, rc_tracks r !! t = Some T).
  { destruct (Hcons u t) as [_ Hc]. destruct Hc as (T & HT & _); eauto. }
  destruct HT as [T HT]. destruct (Halloc u v Hv) as [i Hi].
  assert (Hstep : exists a', add_view_track r h u v a t = Ok a' /\ ba_views a' = ba_views a /\ ba_tracks a' = ba_tracks a /\
    inv (fun u' t' => S u' t' \/ u' = u /\ (dn t' \/ t' = t)) (fun _ => False) a').
  { unfold add_view_track. rewrite Hf, HT. cbn [or_die mbind outcome_bind].
    destruct (t_est T) eqn:ET; cbn [negb].
    - unfold deref. rewrite Hi. cbn [or_ub mbind outcome_bind].
      destruct (view_residual_inv _ _ a (Residual (i_type i) f u (v_intr v) t) I) as (a' & E1 & E2 & E3 & I').
      + exists v, T, i. cbn. tauto.
      + cbn. intros [H|[_ H]]; [by apply (HS t)|]. eapply Hdn; [|exact H]. by left.
      + done.
      + cbn. rewrite Ht. set_solver.
      + exists a'. cbn in E1. rewrite E1. split; [done|]. split; [done|]. split; [done|].
        eapply inv_ext; [| |exact I']; [|done]. intros rs _. cbn. tauto.
    - exists a. split; [done|]. split; [done|]. split; [done|]. eapply inv_ext; [| |exact I]; [|done].
      intros rs (v' & T' & i' & _ & _ & HT' & HeT' & _). split; [tauto|].
      intros [H|[H [H'|H']]]; [tauto..|]. rewrite H' in HT'. congruence. }
  destruct Hstep as (a1 & E1 & Hv1 & Ht1 & I1). cbn [run_steps]. rewrite E1. cbn [mbind outcome_bind].
  destruct (IH a1 (fun t' => dn t' \/ t' = t)) as (a' & E' & Hv' & Ht' & I').
  - done.
  - intros t' Ht' [H| ->]; [|done]. eapply Hdn; [|exact H]. by right.
  - intros t' Ht'. apply Hin. by right.
  - by rewrite Hv1.
  - by rewrite Ht1.
  - done.
  - exists a'. split; [done|]. split; [congruence|]. split; [done|]. eapply inv_ext; [| |exact I']; [|done].
    intros rs _. cbn. rewrite elem_of_cons. tauto.
Qed.

(** The state after AddView for the views [vs]. *)
Definition views_state (vs : gset N) a : Prop :=
  ba_tracks a = ∅ /\ (forall u, u ∈ ba_views a <-> u ∈ vs /\ est_view r u) /\
  inv (fun u t => u ∈ ba_views a) (fun _ => False) a.

Lemma views_state_new : views_state ∅ ba_new.
Proof.
  split; [done|]. split; [set_solver|]. split; cbn [ba_new ba_blocks ba_residuals ba_views ba_tracks ba_groups ba_pot_groups].
  - intros b. rewrite lookup_empty. split; [intros [? [=]]|]. intros (rs & H & _). by apply elem_of_nil in H.
  - intros rs. split; [intros H; by apply elem_of_nil in H|set_solver].
  - constructor.
  - intros b k. by rewrite lookup_empty.
  - intros u k. by rewrite lookup_empty.
  - intros p k. by rewrite lookup_empty.
  - intros t k. by rewrite lookup_empty.
  - set_solver.
  - intros g. split; [set_solver|]. intros (rs & H & _). by apply elem_of_nil in H.
Qed.

Lemma add_view_spec (vs : gset N) a (u : N) : views_state vs a -> is_Some (rc_views r !! u) ->
  exists a', add_view os r h a u = Ok a' /\ views_state ({[u]} ∪ vs) a'.
Proof.
  intros (Ht & Hvs & I) [v Hv]. unfold add_view. rewrite Hv. cbn [or_die mbind outcome_bind].
  destruct (v_est v) eqn:He; cbn [negb orb].
  2:{ exists a. split; [done|]. split; [done|]. split; [|done]. intros w. rewrite elem_of_union, elem_of_singleton, Hvs.
      split; [tauto|]. intros [[->|H] H']; [|done]. destruct H' as (v' & Hv' & He'). congruence. }
  destruct (decide (u ∈ ba_views a)) as [Hin|Hin].
  { rewrite (bool_decide_eq_true_2 (u ∈ ba_views a)) by done. exists a. split; [done|]. split; [done|]. split; [|done].
    intros w. rewrite elem_of_union, elem_of_singleton. pose proof (Hvs u) as Hu. rewrite (Hvs w).
    split; [tauto|]. intros [[->|H] H']; [tauto|done]. }
  rewrite (bool_decide_eq_false_2 (u ∈ ba_views a)) by done.
  set (g := default kInvalidId (rc_view_group r !! u)).
  destruct (add_view_loop u v (fun u' t => u' ∈ ba_views a) (os 0 u (elements (dom (v_feats v))))
    (Adjuster ({[u]} ∪ ba_views a) (ba_tracks a) ({[g]} ∪ ba_groups a) (ba_pot_groups a) (ba_blocks a) (ba_residuals a))
    (fun _ => False)) as (a' & E & Hv' & Ht' & I').
  - done.
  - done.
  - done.
  - rewrite ord_perm. apply NoDup_elements.
  - tauto.
  - intros t. rewrite ord_perm, elem_of_elements. apply elem_of_dom.
  - cbn. set_solver.
  - done.
  - destruct I as [H1 H2 H3 H4 H5 H6 H7 H8 H9].
    assert (Hno : forall k, ba_blocks a !! BExtrinsics u = Some k -> False).
    { intros k Hk. destruct (H1 (BExtrinsics u)) as [H1' _]. destruct H1' as (rs & Hrs & Hb); [eauto|].
      apply H2 in Hrs. apply elem_of_blocks_of in Hb. destruct Hb as [[= ->]|[[=]|[=]]]. tauto. }
    split; cbn [ba_blocks ba_residuals ba_views ba_tracks ba_groups ba_pot_groups].
    + done.
    + intros rs. rewrite H2. tauto.
    + done.
    + done.
    + intros w k Hk. rewrite (H5 w k Hk). apply bool_decide_ext. rewrite elem_of_union, elem_of_singleton.
      split; [|tauto]. intros Hw [->|H]; [by eapply Hno|tauto].
    + done.
    + done.
    + intros g'. rewrite elem_of_union, elem_of_singleton, H8. split.
      * intros [->|(w & Hw & Hg)]; [exists u|exists w]; (split; [|done]); rewrite elem_of_union, elem_of_singleton; tauto.
      * intros (w & [Hw|Hw]%elem_of_union & Hg); [apply elem_of_singleton in Hw; subst w; by left|right; eauto].
    + intros g'. rewrite H9. split; intros (rs & Hrs & Hn & Hg); exists rs; (split; [done|]); (split; [|done]).
      * apply H2 in Hrs. tauto.
      * rewrite elem_of_union in Hn. tauto.
  - exists a'. split; [exact E|]. split; [done|]. cbn in Hv'. split.
    + intros w. rewrite Hv', !elem_of_union, !elem_of_singleton, Hvs. split; [|tauto].
      intros [->|?]; [|tauto]. split; [tauto|]. exists v. done.
    + eapply inv_ext; [| |exact I']; [|done]. intros rs (v' & T & i & Hvv & _ & _ & _ & Hf & _). cbn.
      rewrite Hv', elem_of_union, elem_of_singleton. split; [tauto|].
      intros [H|?]; [|tauto]. rewrite H in *. right. split; [done|]. right. rewrite ord_perm, elem_of_elements.
      apply elem_of_dom. assert (v' = v) as -> by congruence. eauto.
Qed.

Lemma add_views_spec (l : list N) (vs : gset N) a : views_state vs a ->
  ((forall u, u ∈ l -> is_Some (rc_views r !! u)) ->
    exists a', run_steps (add_view os r h) a l = Ok a' /\ views_state (list_to_set l ∪ vs) a') /\
  (~ (forall u, u ∈ l -> is_Some (rc_views r !! u)) -> run_steps (add_view os r h) a l = CheckFail).
Proof.
  revert vs a. induction l as [|u l IH]; intros vs a I.
  { split; [|intros H; exfalso; apply H; intros u Hu; by apply elem_of_nil in Hu].
    intros _. exists a. split; [done|]. replace (list_to_set [] ∪ vs) with vs by set_solver. done. }
  destruct (rc_views r !! u) as [v|] eqn:Hv.
  - destruct (add_view_spec vs a u I) as (a1 & E1 & I1); [eauto|]. destruct (IH _ _ I1) as [A B].
    cbn [run_steps]. rewrite E1. cbn [mbind outcome_bind]. split.
    + intros H. destruct A as (a' & E' & I'); [intros w Hw; apply H; by right|]. exists a'. split; [done|].
      replace (list_to_set (u :: l) ∪ vs) with (list_to_set l ∪ ({[u]} ∪ vs)) by set_solver. done.
    + intros H. apply B. intros H'. apply H. intros w [->|Hw]%elem_of_cons; eauto.
  - split; [intros H; destruct (H u) as [? ?]; [by left|congruence]|]. intros _. cbn [run_steps].
    assert (add_view os r h a u = CheckFail) as -> by (unfold add_view; by rewrite Hv). done.
Qed.

(** AddTrack. *)
Lemma add_track_loop (t : N) (T : track (list R)) (S : N -> N -> Prop) (l : list N) a (done : N -> Prop) :
  rc_tracks r !! t = Some T -> t_est T = true -> (forall u, S u t <-> u ∈ ba_views a) -> NoDup l -> (forall u, u ∈ l -> ~ done u) ->
  (forall u, u ∈ l -> u ∈ t_views T) ->
  inv (fun u t' => S u t' \/ t' = t /\ done u) (eq t) a ->
  exists a', run_steps (add_track_view r h t) a l = Ok a' /\ ba_views a' = ba_views a /\ ba_tracks a' = ba_tracks a /\
    inv (fun u t' => S u t' \/ t' = t /\ (done u \/ u ∈ l)) (eq t) a'.
Proof.
  intros HT He. revert a done. induction l as [|u l IH]; intros a dn HS Hnd Hdn Hin I.
  { exists a. cbn. split; [done|]. split; [done|]. split; [done|]. eapply inv_ext; [| |exact I]; [|done].
    intros rs _. rewrite elem_of_nil. tauto. }
  apply NoDup_cons in Hnd as [Hul Hnd].
  assert (Hv : exists v, rc_views r !! u = Some v /\ is_Some (v_feats v !! t)).
  { apply Hcons. exists T. split; [done|]. apply Hin. by left. }
  destruct Hv as (v & Hv & f & Hf). destruct (Halloc u v Hv) as [i Hi].
  assert (Hstep : exists a', add_track_view r h t a u = Ok a' /\ ba_views a' = ba_views a /\ ba_tracks a' = ba_tracks a /\
    inv (fun u' t' => S u' t' \/ t' = t /\ (dn u' \/ u' = u)) (eq t) a').
  { unfold add_track_view. rewrite Hv. cbn [or_die mbind outcome_bind].
    destruct (decide (u ∈ ba_views a)) as [Hu|Hu].
    { rewrite (bool_decide_eq_true_2 (u ∈ ba_views a)) by done. cbn [orb].
      exists a. split; [done|]. split; [done|]. split; [done|]. eapply inv_ext; [| |exact I]; [|done].
      intros rs _. split; [tauto|]. intros [H|[H [H'|H']]]; [tauto..|]. left. rewrite H, H'. by apply HS. }
    rewrite (bool_decide_eq_false_2 (u ∈ ba_views a)) by done. cbn [orb].
    destruct (v_est v) eqn:Ev; cbn [negb].
    - rewrite Hf. unfold deref. rewrite Hi. cbn [or_die or_ub mbind outcome_bind].
      destruct (track_residual_inv _ _ a (Residual (i_type i) f u (v_intr v) t) I) as (a' & E1 & E2 & E3 & I').
      + exists v, T, i. cbn. tauto.
      + cbn. intros [H|[_ H]]; [by apply Hu, HS|]. eapply Hdn; [|exact H]. by left.
      + done.
      + done.
      + cbn in E1. rewrite E1. cbn [mbind outcome_bind]. eexists. split; [reflexivity|]. split; [exact E2|]. split; [exact E3|].
        eapply inv_ext; [| |exact I']; [|done]. intros rs _. cbn. tauto.
    - exists a. split; [done|]. split; [done|]. split; [done|]. eapply inv_ext; [| |exact I]; [|done].
      intros rs (v' & T' & i' & Hv' & Hev' & _). split; [tauto|].
      intros [H|[H [H'|H']]]; [tauto..|]. rewrite H' in Hv'. congruence. }
  destruct Hstep as (a1 & E1 & Hv1 & Ht1 & I1). cbn [run_steps]. rewrite E1. cbn [mbind outcome_bind].
  destruct (IH a1 (fun u' => dn u' \/ u' = u)) as (a' & E' & Hv' & Ht' & I').
  - intros w. rewrite Hv1. apply HS.
  - done.
  - intros w Hw [H| ->]; [|done]. eapply Hdn; [|exact H]. by right.
  - intros w Hw. apply Hin. by right.
  - done.
  - exists a'. split; [done|]. split; [congruence|]. split; [congruence|]. eapply inv_ext; [| |exact I']; [|done].
    intros rs _. cbn. rewrite elem_of_cons. tauto.
Qed.

(** An estimated track that no estimated view sees has no parameter block. *)
Definition anchored (t : N) : Prop := est_track r t -> exists u, est_view r u /\ sees r u t.

(** The state after AddView for [V] and AddTrack for [ts]. *)
Definition tracks_state (V : gset N) (ts : gset N) a : Prop :=
  ba_views a = V /\ (forall t, t ∈ ba_tracks a <-> t ∈ ts /\ est_track r t) /\ (forall t, t ∈ ba_tracks a -> anchored t) /\
  inv (fun u t => u ∈ V \/ t ∈ ba_tracks a) (fun _ => False) a.

Lemma add_track_spec (V ts : gset N) a (t : N) : tracks_state V ts a ->
  (is_Some (rc_tracks r !! t) -> anchored t -> exists a', add_track os r h a t = Ok a' /\ tracks_state V ({[t]} ∪ ts) a') /\
  (~ (is_Some (rc_tracks r !! t) /\ anchored t) -> add_track os r h a t = CheckFail).
Proof.
  intros (HV & Hts & Han & I).
  assert (Hanch : forall T, rc_tracks r !! t = Some T -> t_est T = true -> t ∉ ba_tracks a ->
    exists a', run_steps (add_track_view r h t)
      (Adjuster (ba_views a) ({[t]} ∪ ba_tracks a) (ba_groups a) (ba_pot_groups a) (ba_blocks a) (ba_residuals a))
      (os 1 t (elements (t_views T))) = Ok a' /\ ba_views a' = V /\ ba_tracks a' = {[t]} ∪ ba_tracks a /\
      inv (fun u t' => u ∈ V \/ t' ∈ {[t]} ∪ ba_tracks a) (eq t) a').
  { intros T HT He Hnot.
    destruct (add_track_loop t T (fun u t' => u ∈ V \/ t' ∈ ba_tracks a) (os 1 t (elements (t_views T)))
      (Adjuster (ba_views a) ({[t]} ∪ ba_tracks a) (ba_groups a) (ba_pot_groups a) (ba_blocks a) (ba_residuals a))
      (fun _ => False)) as (a' & E & Hv' & Ht' & I').
    - done.
    - done.
    - intros u. cbn. rewrite HV. tauto.
    - rewrite ord_perm. apply NoDup_elements.
    - tauto.
    - intros u. rewrite ord_perm. apply elem_of_elements.
    - destruct I as [H1 H2 H3 H4 H5 H6 H7 H8 H9].
      split; cbn [ba_blocks ba_residuals ba_views ba_tracks ba_groups ba_pot_groups]; try done.
      + intros rs. rewrite H2. tauto.
      + intros t' k Hk Hne. rewrite (H7 t' k Hk) by tauto. apply bool_decide_ext. rewrite elem_of_union, elem_of_singleton.
        split; [|tauto]. intros ? [->|?]; tauto.
    - exists a'. split; [done|]. cbn in Hv', Ht'. split; [congruence|]. split; [done|].
      eapply inv_ext; [| |exact I']; [|done]. intros rs (v & T' & i & Hv & _ & HT' & _ & Hf & _). cbn.
      rewrite elem_of_union, elem_of_singleton. split; [tauto|].
      intros [H|[H|H]]; [tauto| |tauto]. right. split; [done|]. right. rewrite ord_perm, elem_of_elements.
      rewrite H in *. assert (T' = T) as -> by congruence.
      destruct (Hcons (rs_view rs) t) as [_ Hc]. destruct Hc as (T'' & HT'' & Hu); [eauto|].
      by assert (T'' = T) as -> by congruence. }
  assert (Hblk : forall T a', rc_tracks r !! t = Some T -> t_est T = true ->
    inv (fun u t' => u ∈ V \/ t' ∈ {[t]} ∪ ba_tracks a) (eq t) a' ->
    is_Some (ba_blocks a' !! BPoint t) <-> exists u, est_view r u /\ sees r u t).
  { intros T a' HT He I'. rewrite (i_dom _ _ _ I'). split.
    - intros (rs & Hrs & Hb). apply elem_of_blocks_of in Hb. destruct Hb as [[=]|[[=]|[= Hb]]].
      apply (i_res _ _ _ I') in Hrs. destruct Hrs as [(v & T' & i & Hv & Hev & _ & _ & Hf & _) _].
      exists (rs_view rs). split; [by exists v|]. exists v. rewrite Hb. eauto.
    - intros (u & (v & Hv & Hev) & (v' & Hv' & f & Hf)). assert (v' = v) as -> by congruence.
      destruct (Halloc u v Hv) as [i Hi].
      exists (Residual (i_type i) f u (v_intr v) t). split; [|apply elem_of_blocks_of; cbn; tauto].
      apply (i_res _ _ _ I'). cbn. split; [|set_solver]. exists v, T, i. cbn. tauto. }
  split.
  - intros [T HT] Ha. unfold add_track. rewrite HT. cbn [or_die mbind outcome_bind].
    destruct (t_est T) eqn:He; cbn [negb orb].
    2:{ exists a. split; [done|]. split; [done|]. split; [|done]. intros w. rewrite elem_of_union, elem_of_singleton, Hts.
        split; [tauto|]. intros [[->|H] H']; [|done]. destruct H' as (T' & HT' & He'). congruence. }
    destruct (decide (t ∈ ba_tracks a)) as [Hin|Hin].
    { rewrite (bool_decide_eq_true_2 (t ∈ ba_tracks a)) by done. exists a. split; [done|]. split; [done|]. split; [|done].
      intros w. rewrite elem_of_union, elem_of_singleton. pose proof (Hts t) as Hu. rewrite (Hts w).
      split; [tauto|]. intros [[->|H] H']; [tauto|done]. }
    rewrite (bool_decide_eq_false_2 (t ∈ ba_tracks a)) by done.
    destruct (Hanch T HT He Hin) as (a' & E' & Hv' & Ht' & I'). rewrite E'. cbn [mbind outcome_bind].
    destruct (Hblk T a' HT He I') as [_ Hb]. destruct Hb as [k Hk]; [apply Ha; by exists T|].
    unfold set_constant. rewrite Hk. cbn [or_die mbind outcome_bind]. eexists. split; [reflexivity|].
    destruct I' as [H1 H2 H3 H4 H5 H6 H7 H8 H9].
    split; [done|]. split.
    { intros w. cbn [ba_tracks set_problem]. rewrite Ht', !elem_of_union, !elem_of_singleton, Hts. split; [|tauto].
      intros [->|?]; [|tauto]. split; [tauto|]. by exists T. }
    split.
    { intros w. cbn [ba_tracks set_problem]. rewrite Ht', elem_of_union, elem_of_singleton. intros [->|?]; [done|auto]. }
    split; cbn [ba_blocks ba_residuals ba_views ba_tracks ba_groups ba_pot_groups set_problem]; try done.
    + intros b. rewrite <- H1. destruct (decide (b = BPoint t)) as [->|Hne].
      * rewrite lookup_insert, Hk. split; eauto.
      * by rewrite lookup_insert_ne by done.
    + intros rs. rewrite H2. by rewrite Ht'.
    + intros b k'. destruct (decide (b = BPoint t)) as [->|Hne].
      * rewrite lookup_insert. intros [= <-]. cbn. by eapply H4.
      * rewrite lookup_insert_ne by done. apply H4.
    + intros u k'. rewrite lookup_insert_ne by done. apply H5.
    + intros p k'. rewrite lookup_insert_ne by done. apply H6.
    + intros w k'. rewrite Ht'. destruct (decide (w = t)) as [->|Hne].
      * rewrite lookup_insert. intros [= <-] _. cbn. symmetry. apply bool_decide_eq_false. set_solver.
      * rewrite lookup_insert_ne by congruence. intros Hk' _. rewrite <- Ht'. apply H7; [done|]. congruence.
  - intros Hn. unfold add_track. destruct (rc_tracks r !! t) as [T|] eqn:HT; [|done]. cbn [or_die mbind outcome_bind].
    destruct (t_est T) eqn:He; cbn [negb orb].
    2:{ exfalso. apply Hn. split; [eauto|]. intros (T' & HT' & He'). congruence. }
    destruct (decide (t ∈ ba_tracks a)) as [Hin|Hin]; [exfalso; apply Hn; split; [eauto|auto]|].
    rewrite (bool_decide_eq_false_2 (t ∈ ba_tracks a)) by done.
    destruct (Hanch T eq_refl He Hin) as (a' & E' & Hv' & Ht' & I'). rewrite E'. cbn [mbind outcome_bind].
    unfold set_constant. destruct (ba_blocks a' !! BPoint t) as [k|] eqn:Hk; [|done].
    exfalso. apply Hn. split; [eauto|]. intros _. apply (Hblk T a' eq_refl He I'). eauto.
Qed.

Lemma add_tracks_spec (V : gset N) (l : list N) (ts : gset N) a : tracks_state V ts a ->
  ((forall t, t ∈ l -> is_Some (rc_tracks r !! t) /\ anchored t) ->
    exists a', run_steps (add_track os r h) a l = Ok a' /\ tracks_state V (list_to_set l ∪ ts) a') /\
  (~ (forall t, t ∈ l -> is_Some (rc_tracks r !! t) /\ anchored t) -> run_steps (add_track os r h) a l = CheckFail).
Proof.
  revert ts a. induction l as [|t l IH]; intros ts a I.
  { split; [|intros H; exfalso; apply H; intros u Hu; by apply elem_of_nil in Hu].
    intros _. exists a. split; [done|]. replace (list_to_set [] ∪ ts) with ts by set_solver. done. }
  destruct (add_track_spec V ts a t I) as [A B]. split.
  - intros H. destruct A as (a1 & E1 & I1); [apply H; by left..|]. destruct (IH _ _ I1) as [A' _].
    cbn [run_steps]. rewrite E1. cbn [mbind outcome_bind].
    destruct A' as (a' & E' & I'); [intros w Hw; apply H; by right|]. exists a'. split; [done|].
    replace (list_to_set (t :: l) ∪ ts) with (list_to_set l ∪ ({[t]} ∪ ts)) by set_solver. done.
  - intros H. cbn [run_steps].
    destruct (Classical_Prop.classic (is_Some (rc_tracks r !! t) /\ anchored t)) as [[H1 H2]|Hn].
    + destruct A as (a1 & E1 & I1); [done..|]. rewrite E1. cbn [mbind outcome_bind]. apply (IH _ _ I1).
      intros H'. apply H. intros w [->|Hw]%elem_of_cons; [done|by apply H'].
    + by rewrite (B Hn).
Qed.

(** A pass that updates the flags of one block per element. *)
Lemma flag_pass (step : adjuster -> N -> outcome adjuster) (G : gset N) (need : N -> Prop) (beta : N -> block) (phi : N -> flags -> flags)
    (pre : N -> flags -> Prop) (l : list N) a :
  (forall x, Decision (need x)) ->
  (forall a x, x ∈ l -> ba_groups a = G -> need x -> ba_blocks a !! beta x = None -> step a x = CheckFail) ->
  (forall a x k, x ∈ l -> ba_groups a = G -> need x -> ba_blocks a !! beta x = Some k -> pre x k ->
     step a x = Ok (set_problem a (<[beta x := phi x k]> (ba_blocks a)) (ba_residuals a))) ->
  (forall a x, x ∈ l -> ba_groups a = G -> ~ need x -> step a x = Ok a) ->
  NoDup l -> (forall x y, x ∈ l -> y ∈ l -> beta x = beta y -> x = y) ->
  ba_groups a = G -> (forall x k, x ∈ l -> ba_blocks a !! beta x = Some k -> pre x k) ->
  ((forall x, x ∈ l -> need x -> is_Some (ba_blocks a !! beta x)) ->
     exists a', run_steps step a l = Ok a' /\ ba_residuals a' = ba_residuals a /\ ba_groups a' = ba_groups a /\
       ba_views a' = ba_views a /\ ba_tracks a' = ba_tracks a /\ ba_pot_groups a' = ba_pot_groups a /\
       (forall x, x ∈ l -> need x -> ba_blocks a' !! beta x = phi x <$> ba_blocks a !! beta x) /\
       (forall b, (forall x, x ∈ l -> need x -> beta x <> b) -> ba_blocks a' !! b = ba_blocks a !! b)) /\
  (~ (forall x, x ∈ l -> need x -> is_Some (ba_blocks a !! beta x)) -> run_steps step a l = CheckFail).
Proof.
  intros Hdec. revert a. induction l as [|x l IH]; intros a Hn Hs Hk Hnd Hinj HG Hpre.
  { split; [|intros H; exfalso; apply H; intros u Hu; by apply elem_of_nil in Hu].
    intros _. exists a. repeat (split; [done|]). split; [intros x Hx; by apply elem_of_nil in Hx|done]. }
  apply NoDup_cons in Hnd as [Hxl Hnd].
  assert (Hx : x ∈ x :: l) by by left.
  assert (IH' : forall a, ba_groups a = G -> (forall y k, y ∈ l -> ba_blocks a !! beta y = Some k -> pre y k) -> _)
    by (intros a0 HG0 Hp0; refine (IH a0 _ _ _ Hnd _ HG0 Hp0);
        [intros; apply Hn; (try by right); done|intros; eapply Hs; (try by right); done|
         intros; apply Hk; (try by right); done|intros; apply Hinj; (try by right); done]).
  clear IH. cbn [run_steps]. destruct (decide (need x)) as [Hnx|Hnx].
  2:{ rewrite (Hk a x Hx HG Hnx). cbn [mbind outcome_bind].
      destruct (IH' a HG) as [A B]; [intros y k Hy; apply Hpre; by right|]. split.
      - intros H. destruct A as (a' & E' & H1 & H2 & H3 & H4 & H5 & H6 & H7); [intros y Hy; apply H; by right|].
        exists a'. repeat (split; [done|]). split.
        + intros y [->|Hy]%elem_of_cons Hny; [done|auto].
        + intros b Hb. apply H7. intros y Hy. apply Hb. by right.
      - intros H. apply B. intros H'. apply H. intros y [->|Hy]%elem_of_cons Hny; [done|auto]. }
  destruct (ba_blocks a !! beta x) as [k|] eqn:Ek.
  2:{ split; [intros H; destruct (H x Hx Hnx) as [? ?]; congruence|]. intros _. by rewrite (Hn a x Hx HG Hnx Ek). }
  rewrite (Hs a x k Hx HG Hnx Ek (Hpre x k Hx Ek)). cbn [mbind outcome_bind].
  set (a1 := set_problem a (<[beta x := phi x k]> (ba_blocks a)) (ba_residuals a)).
  assert (Hb1 : forall y, y ∈ l -> ba_blocks a1 !! beta y = ba_blocks a !! beta y).
  { intros y Hy. unfold a1. cbn. rewrite lookup_insert_ne; [done|]. intros Heq. apply Hinj in Heq; [|done|by right].
    by subst y. }
  destruct (IH' a1 HG) as [A B].
  { intros y k' Hy. rewrite Hb1 by done. apply Hpre. by right. }
  split.
  - intros H. destruct A as (a' & E' & H1 & H2 & H3 & H4 & H5 & H6 & H7).
    { intros y Hy Hny. rewrite Hb1 by done. apply H; [by right|done]. }
    exists a'. split; [done|]. repeat (split; [done|]). split.
    + intros y [->|Hy]%elem_of_cons Hny.
      * rewrite H7; [unfold a1; cbn; by rewrite lookup_insert, Ek|]. intros z Hz Hnz Heq. apply Hinj in Heq; [|by right|done].
        by subst z.
      * rewrite (H6 y Hy Hny). by rewrite Hb1.
    + intros b Hb. rewrite H7; [|intros y Hy; apply Hb; by right]. unfold a1. cbn. rewrite lookup_insert_ne; [done|].
      by apply Hb.
  - intros H. apply B. intros H'. apply H. intros y [->|Hy]%elem_of_cons Hny; [rewrite Ek; eauto|].
    rewrite <- Hb1 by done. by apply H'.
Qed.
End proofs.
