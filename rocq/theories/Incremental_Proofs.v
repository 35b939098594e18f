(** Proofs about incremental reconstruction: what every step preserves. *)
From stdpp Require Import gmap sorting.
From Coq Require Import Reals QArith_base Qcanon.
From Verif Require Import Base Reconstruction_Model ViewGraph_Model SfmQueries_Model SfmQueries_Spec SfmQueries_Proofs SfmQueries_Props
  TrackEstimator_Model TrackEstimator_Spec TrackEstimator_Props TrackSelection_Model TrackSelection_Props
  VisibilityPyramid_Model VisibilityPyramid_Spec VisibilityPyramid_Props
  BundleAdjust_Model BundleAdjust_Spec BundleAdjust_Proofs BundleAdjust_Setup BundleAdjust_Result BundleAdjust_Props
  Localize_Model Localize_Spec Localize_Proofs Localize_Props Incremental_Model Incremental_Spec.

(** The result, if there is one, satisfies [Q]; undefined behaviour only if [ub]. *)
Definition safe {A} (ub : Prop) (x : outcome A) (Q : A -> Prop) : Prop :=
  match x with Ok a => Q a | UB => ub | CheckFail | Hang => True end.
Lemma safe_bind {A B} ub (x : outcome A) (f : A -> outcome B) (Q : A -> Prop) (R : B -> Prop) :
  safe ub x Q -> (forall a, Q a -> safe ub (f a) R) -> safe ub (x ≫= f) R.
Proof. intros Hx Hf. destruct x; cbn in *; auto. Qed.
Lemma safe_weaken {A} ub (x : outcome A) (Q R : A -> Prop) : safe ub x Q -> (forall a, Q a -> R a) -> safe ub x R.
Proof. intros Hx H. destruct x; cbn in *; auto. Qed.
Lemma safe_steps {S O} ub (step : S -> O -> outcome S) (I : S -> Prop) (l : list O) : forall s,
  I s -> (forall s o, o ∈ l -> I s -> safe ub (step s o) I) -> safe ub (run_steps step s l) I.
Proof.
  induction l as [|o l IH]; intros s Hs Hstep; [done|]. cbn [run_steps]. eapply safe_bind; [apply Hstep; [by left|done]|].
  intros s' Hs'. apply IH; [done|]. intros s1 o1 Ho1. apply Hstep. by right.
Qed.

Section scene.
Context {F : Type}.
Notation recon := (recon F (list R) (list R)).
Notation heap := (gmap N intrinsics).
Implicit Types (r : recon) (h : heap).

(** The same views, features, tracks, groups and intrinsics objects. *)
Definition scene r h r' h' : Prop :=
  rc_next_track r' = rc_next_track r /\ rc_next_view r' = rc_next_view r /\ rc_next_group r' = rc_next_group r /\
  rc_names r' = rc_names r /\ rc_view_group r' = rc_view_group r /\ rc_groups r' = rc_groups r /\ rc_next_ptr r' = rc_next_ptr r /\
  (forall u, option_Forall2 (fun v v' => v_name v' = v_name v /\ v_feats v' = v_feats v /\ v_intr v' = v_intr v /\ length (v_data v') = length (v_data v))
               (rc_views r !! u) (rc_views r' !! u)) /\
  (forall t, option_Forall2 (fun T T' => t_views T' = t_views T) (rc_tracks r !! t) (rc_tracks r' !! t)) /\
  (forall p, option_Forall2 (fun i i' => i_type i' = i_type i /\ length (i_params i') = length (i_params i)) (h !! p) (h' !! p)).

(** Only the tracks differ; only the flags, the poses and the tracks differ; the flags of the views stay. *)
Definition same_flags r r' : Prop := forall u, est_view r' u <-> est_view r u.

Lemma scene_refl r h : scene r h r h.
Proof.
  do 7 (split; [done|]). split; [|split]; intros k; [destruct (rc_views r !! k)|destruct (rc_tracks r !! k)|destruct (h !! k)]; by constructor.
Qed.
Lemma scene_trans r h r1 h1 r2 h2 : scene r h r1 h1 -> scene r1 h1 r2 h2 -> scene r h r2 h2.
Proof.
  intros (A1 & A2 & A3 & A4 & A5 & A6 & A7 & A8 & A9 & A10) (B1 & B2 & B3 & B4 & B5 & B6 & B7 & B8 & B9 & B10).
  do 7 (split; [congruence|]). split; [|split]; intros k.
  - specialize (A8 k). specialize (B8 k). destruct A8 as [v v' H|]; inversion B8 as [? v2 H2|]; subst; constructor. naive_solver congruence.
  - specialize (A9 k). specialize (B9 k). destruct A9 as [v v' H|]; inversion B9 as [? v2 H2|]; subst; constructor. congruence.
  - specialize (A10 k). specialize (B10 k). destruct A10 as [v v' H|]; inversion B10 as [? v2 H2|]; subst; constructor. naive_solver congruence.
Qed.

Lemma scene_view r h r' h' u v' : scene r h r' h' -> rc_views r' !! u = Some v' ->
  exists v, rc_views r !! u = Some v /\ v_name v' = v_name v /\ v_feats v' = v_feats v /\ v_intr v' = v_intr v /\ length (v_data v') = length (v_data v).
Proof. intros (_ & _ & _ & _ & _ & _ & _ & H & _) Hv. specialize (H u). rewrite Hv in H. inversion H; subst. eauto. Qed.
Lemma scene_view' r h r' h' u v : scene r h r' h' -> rc_views r !! u = Some v ->
  exists v', rc_views r' !! u = Some v' /\ v_name v' = v_name v /\ v_feats v' = v_feats v /\ v_intr v' = v_intr v /\ length (v_data v') = length (v_data v).
Proof. intros (_ & _ & _ & _ & _ & _ & _ & H & _) Hv. specialize (H u). rewrite Hv in H. inversion H; subst. eauto. Qed.
Lemma scene_track r h r' h' t T' : scene r h r' h' -> rc_tracks r' !! t = Some T' -> exists T, rc_tracks r !! t = Some T /\ t_views T' = t_views T.
Proof. intros (_ & _ & _ & _ & _ & _ & _ & _ & H & _) Hv. specialize (H t). rewrite Hv in H. inversion H; subst. eauto. Qed.
Lemma scene_track' r h r' h' t T : scene r h r' h' -> rc_tracks r !! t = Some T -> exists T', rc_tracks r' !! t = Some T' /\ t_views T' = t_views T.
Proof. intros (_ & _ & _ & _ & _ & _ & _ & _ & H & _) Hv. specialize (H t). rewrite Hv in H. inversion H; subst. eauto. Qed.
Lemma scene_dom r h r' h' : scene r h r' h' -> dom (rc_tracks r') = dom (rc_tracks r) /\ dom (rc_views r') = dom (rc_views r) /\ dom h' = dom h.
Proof.
  intros H. split; [|split]; apply set_eq; intros k; rewrite !elem_of_dom.
  - split; intros [x Hx]; [destruct (scene_track _ _ _ _ _ _ H Hx) as (? & ? & _)|destruct (scene_track' _ _ _ _ _ _ H Hx) as (? & ? & _)]; eauto.
  - split; intros [x Hx]; [destruct (scene_view _ _ _ _ _ _ H Hx) as (? & ? & _)|destruct (scene_view' _ _ _ _ _ _ H Hx) as (? & ? & _)]; eauto.
  - destruct H as (_ & _ & _ & _ & _ & _ & _ & _ & _ & H). specialize (H k). destruct H; split; intros [? ?]; eauto; done.
Qed.
Lemma scene_sees r h r' h' u t : scene r h r' h' -> sees r' u t <-> sees r u t.
Proof.
  intros H. split; intros (v & Hv & K).
  - destruct (scene_view _ _ _ _ _ _ H Hv) as (v0 & ? & _ & E & _). exists v0. split; [done|]. congruence.
  - destruct (scene_view' _ _ _ _ _ _ H Hv) as (v0 & ? & _ & E & _). exists v0. split; [done|]. congruence.
Qed.
Lemma scene_consistent r h r' h' : scene r h r' h' -> consistent r -> consistent r'.
Proof.
  intros H Hc u t. specialize (Hc u t). split.
  - intros (T' & HT & Hu). destruct (scene_track _ _ _ _ _ _ H HT) as (T & HT' & E). apply (scene_sees _ _ _ _ u t H). apply Hc. exists T. split; [done|]. congruence.
  - intros K. apply (scene_sees _ _ _ _ u t H) in K. apply Hc in K as (T & HT & Hu). destruct (scene_track' _ _ _ _ _ _ H HT) as (T' & HT' & E). exists T'. split; [done|]. congruence.
Qed.
Lemma scene_grouped r h r' h' : scene r h r' h' -> grouped r -> grouped r'.
Proof.
  intros H (G1 & G2 & G3 & G4). pose proof (scene_dom _ _ _ _ H) as (_ & Dv & _). pose proof H as (_ & _ & _ & _ & E1 & E2 & _).
  split; [|split; [|split]].
  - intros u. rewrite E1, <- G1, <- !elem_of_dom. by rewrite Dv.
  - intros g u. by rewrite E1, E2.
  - intros g X. rewrite E2. apply G3.
  - intros u u' v v' Hv Hv'. destruct (scene_view _ _ _ _ _ _ H Hv) as (w & Hw & _ & _ & -> & _). destruct (scene_view _ _ _ _ _ _ H Hv') as (w' & Hw' & _ & _ & -> & _).
    rewrite E1. by apply G4.
Qed.
Lemma scene_allocated r h r' h' : scene r h r' h' -> allocated r h -> allocated r' h'.
Proof.
  intros H Ha u v Hv. destruct (scene_view _ _ _ _ _ _ H Hv) as (w & Hw & _ & _ & -> & _). apply elem_of_dom.
  destruct (scene_dom _ _ _ _ H) as (_ & _ & ->). apply elem_of_dom. by eapply Ha.
Qed.
Lemma scene_six r h r' h' : scene r h r' h' -> six r -> six r'.
Proof. intros H H6 u v Hv. destruct (scene_view _ _ _ _ _ _ H Hv) as (w & Hw & _ & _ & _ & ->). by eapply H6. Qed.

(** The steps. *)
Lemma set_tracks_scene r h r' : r' = set_tracks r (rc_tracks r') ->
  (forall t, option_Forall2 (fun T T' => t_views T' = t_views T) (rc_tracks r !! t) (rc_tracks r' !! t)) -> scene r h r' h /\ same_flags r r'.
Proof.
  intros E H. assert (Ev : rc_views r' = rc_views r) by (by rewrite E). split.
  - destruct (scene_refl r h) as (_ & _ & _ & _ & _ & _ & _ & S1 & _ & S3). rewrite E. do 7 (split; [done|]). split; [done|]. split; [|done]. by rewrite E in H.
  - intros u. unfold est_view. by rewrite Ev.
Qed.
Lemma tracks_cleared_scene r h r' ts : tracks_cleared r r' ts -> scene r h r' h /\ same_flags r r'.
Proof.
  intros [E H]. apply set_tracks_scene; [done|]. intros t. rewrite H. destruct (rc_tracks r !! t); by constructor.
Qed.
Lemma set_views_scene r h r' h' : r' = set_views r (rc_views r') ->
  (forall u, option_Forall2 (fun v v' => v_name v' = v_name v /\ v_feats v' = v_feats v /\ v_intr v' = v_intr v /\ length (v_data v') = length (v_data v)) (rc_views r !! u) (rc_views r' !! u)) ->
  (forall p, option_Forall2 (fun i i' => i_type i' = i_type i /\ length (i_params i') = length (i_params i)) (h !! p) (h' !! p)) -> scene r h r' h'.
Proof.
  intros E H Hh. destruct (scene_refl r h) as (_ & _ & _ & _ & _ & _ & _ & _ & S2 & _). rewrite E. do 7 (split; [done|]). split; [by rewrite E in H|]. done.
Qed.
Lemma heap_refl h p : option_Forall2 (fun i i' => i_type i' = i_type i /\ length (i_params i') = length (i_params i)) (h !! p) (h !! p).
Proof. destruct (h !! p); by constructor. Qed.
Lemma views_cleared_scene r h r' us : views_cleared r r' us -> scene r h r' h.
Proof.
  intros [E H]. apply set_views_scene; [done| |apply heap_refl]. intros u. rewrite H. destruct (rc_views r !! u); by constructor.
Qed.
Lemma views_cleared_est r r' us u : views_cleared r r' us -> est_view r' u <-> est_view r u /\ u ∉ us.
Proof.
  intros [E H]. unfold est_view. rewrite H. split.
  - intros (v' & Hv & He). apply fmap_Some in Hv as (v & Hv & ->). cbn in He. destruct (decide (u ∈ us)); [done|]. split; [|done]. by exists v.
  - intros [(v & Hv & He) Hn]. rewrite Hv. eexists. split; [done|]. cbn. by rewrite decide_False.
Qed.
Lemma frame_scene opts vs ts r h r' h' : frame opts vs ts r h r' h' -> scene r h r' h' /\ same_flags r r'.
Proof.
  intros (E & Hv & Ht & Hh). split.
  - rewrite E. do 7 (split; [done|]). split; [|split].
    + intros u. specialize (Hv u). change (rc_views (set_tracks (set_views r (rc_views r')) (rc_tracks r'))) with (rc_views r'). destruct Hv as [v v' H|]; constructor. destruct H as (? & ? & ? & ? & ? & _). done.
    + intros t. specialize (Ht t). change (rc_tracks (set_tracks (set_views r (rc_views r')) (rc_tracks r'))) with (rc_tracks r'). destruct Ht as [v v' H|]; constructor. by destruct H as (_ & ? & _).
    + intros p. specialize (Hh p). destruct Hh as [v v' H|]; constructor. by destruct H as (? & ? & _).
  - intros u. specialize (Hv u). unfold est_view. destruct Hv as [v v' H|].
    + destruct H as (_ & He & _). split; intros (w & [= <-] & K); eexists; (split; [done|]); congruence.
    + split; intros (w & ? & _); done.
Qed.
Lemma posed_scene r h r' h' u v est d : rc_views r !! u = Some v -> length d = length (v_data v) -> posed r r' u est d ->
  (forall p, option_Forall2 (fun i i' => i_type i' = i_type i /\ length (i_params i') = length (i_params i)) (h !! p) (h' !! p)) -> scene r h r' h'.
Proof.
  intros Hv Hd (E & Hw & Hu) Hh. apply set_views_scene; [done| |done]. intros w. destruct (decide (w = u)) as [->|Nw].
  - rewrite (Hu v Hv), Hv. by constructor.
  - rewrite Hw by done. destruct (rc_views r !! w); by constructor.
Qed.
Lemma posed_est r r' u v est d w : rc_views r !! u = Some v -> posed r r' u est d -> est_view r' w <-> (w = u /\ est = true) \/ (w <> u /\ est_view r w).
Proof.
  intros Hv (E & Hw & Hu). unfold est_view. destruct (decide (w = u)) as [->|Nw].
  - rewrite (Hu v Hv). split; [intros (v' & [= <-] & He); by left|]. intros [[_ ->]|[? _]]; [|done]. eexists. split; [done|]. done.
  - rewrite Hw by done. naive_solver.
Qed.
Lemma unestimate_track_cleared r t : tracks_cleared r (unestimate_track_in r t) {[t]}.
Proof.
  split; [done|]. intros t'. unfold unestimate_track_in. cbn [rc_tracks set_tracks]. destruct (decide (t' = t)) as [->|Nt].
  - rewrite lookup_alter. destruct (rc_tracks r !! t); [cbn; by rewrite decide_True by set_solver|done].
  - rewrite lookup_alter_ne by done. destruct (rc_tracks r !! t') as [[]|]; [cbn; by rewrite decide_False by set_solver|done].
Qed.
Lemma unestimate_view_cleared r u : views_cleared r (unestimate_view_in r u) {[u]}.
Proof.
  split; [done|]. intros t'. unfold unestimate_view_in. cbn [rc_views set_views]. destruct (decide (t' = u)) as [->|Nt].
  - rewrite lookup_alter. destruct (rc_views r !! u); [cbn; by rewrite decide_True by set_solver|done].
  - rewrite lookup_alter_ne by done. destruct (rc_views r !! t') as [[]|]; [cbn; by rewrite decide_False by set_solver|done].
Qed.
Lemma tracks_cleared_trans r r1 r2 X Y : tracks_cleared r r1 X -> tracks_cleared r1 r2 Y -> tracks_cleared r r2 (X ∪ Y).
Proof.
  intros [E1 H1] [E2 H2]. split; [rewrite E2, E1; done|]. intros t. rewrite H2, H1. destruct (rc_tracks r !! t) as [T|]; [|done]. cbn. f_equal. f_equal.
  destruct (decide (t ∈ Y)), (decide (t ∈ X)); [rewrite decide_True by set_solver|rewrite decide_True by set_solver|rewrite decide_True by set_solver|rewrite decide_False by set_solver]; done.
Qed.
Lemma views_cleared_trans r r1 r2 X Y : views_cleared r r1 X -> views_cleared r1 r2 Y -> views_cleared r r2 (X ∪ Y).
Proof.
  intros [E1 H1] [E2 H2]. split; [rewrite E2, E1; done|]. intros t. rewrite H2, H1. destruct (rc_views r !! t) as [T|]; [|done]. cbn. f_equal. f_equal.
  destruct (decide (t ∈ Y)), (decide (t ∈ X)); [rewrite decide_True by set_solver|rewrite decide_True by set_solver|rewrite decide_True by set_solver|rewrite decide_False by set_solver]; done.
Qed.
Lemma tracks_cleared_empty r : tracks_cleared r r ∅.
Proof. split; [by destruct r|]. intros t. destruct (rc_tracks r !! t) as [[]|]; [cbn; by rewrite decide_False by set_solver|done]. Qed.
Lemma views_cleared_empty r : views_cleared r r ∅.
Proof. split; [by destruct r|]. intros t. destruct (rc_views r !! t) as [[]|]; [cbn; by rewrite decide_False by set_solver|done]. Qed.
Lemma foldl_unestimate_tracks l : forall r, tracks_cleared r (foldl unestimate_track_in r l) (list_to_set l).
Proof.
  induction l as [|t l IH]; intros r; [apply tracks_cleared_empty|]. cbn [foldl list_to_set]. eapply tracks_cleared_trans; [apply unestimate_track_cleared|apply IH].
Qed.
Lemma foldl_unestimate_views l : forall r, views_cleared r (foldl unestimate_view_in r l) (list_to_set l).
Proof.
  induction l as [|t l IH]; intros r; [apply views_cleared_empty|]. cbn [foldl list_to_set]. eapply views_cleared_trans; [apply unestimate_view_cleared|apply IH].
Qed.

(** SetReconstructionAsUnestimated. *)
Lemma set_unestimated_ok (o : order N) r h : let r' := set_unestimated o r in
  scene r h r' h /\ (forall u, ~ est_view r' u) /\ (forall t, ~ est_track r' t) /\ (forall u d, pose_is r' u d <-> pose_is r u d).
Proof.
  cbn zeta. unfold set_unestimated. cbv zeta. set (r1 := foldl unestimate_track_in r _).
  pose proof (foldl_unestimate_tracks (o (elements (dom (rc_tracks r)))) r) as H1. fold r1 in H1.
  pose proof (foldl_unestimate_views (o (elements (dom (rc_views r1)))) r1) as H2. set (r2 := foldl unestimate_view_in r1 _) in *.
  split; [eapply scene_trans; [by eapply tracks_cleared_scene|by eapply views_cleared_scene]|]. split; [|split].
  - intros u Hu. apply (views_cleared_est _ _ _ _ H2) in Hu as [(v & Hv & _) Hn]. apply Hn. apply elem_of_list_to_set. rewrite ord_perm, elem_of_elements, elem_of_dom. eauto.
  - intros t (T & HT & He). destruct H2 as [E2 _]. rewrite E2 in HT. change (rc_tracks (set_views r1 (rc_views r2))) with (rc_tracks r1) in HT. destruct H1 as [_ H1]. rewrite H1 in HT.
    apply fmap_Some in HT as (T0 & HT0 & ->). cbn in He. rewrite decide_True in He; [done|]. apply elem_of_list_to_set. rewrite ord_perm, elem_of_elements, elem_of_dom. eauto.
  - intros u d. unfold pose_is. destruct H2 as [_ H2]. rewrite H2. destruct H1 as [E1 _]. replace (rc_views r1) with (rc_views r) by (by rewrite E1). destruct (rc_views r !! u) as [v|]; cbn; [|naive_solver].
    split; intros (v' & [= <-] & ?); eexists; done.
Qed.

(** SetTracksInViewsToUnestimated. *)
Lemma foldl_unestimate_unless (stay : gset N) l : forall r, exists ts, tracks_cleared r (foldl (fun r t => if decide (t ∈ stay) then r else unestimate_track_in r t) r l) ts /\
  forall t, t ∈ ts <-> t ∈ l /\ t ∉ stay.
Proof.
  induction l as [|t l IH]; intros r; [exists ∅; split; [apply tracks_cleared_empty|set_solver]|]. cbn [foldl]. destruct (decide (t ∈ stay)) as [Hs|Hs].
  - destruct (IH r) as (ts & H1 & H2). exists ts. split; [done|]. intros x. rewrite H2, elem_of_cons. naive_solver.
  - destruct (IH (unestimate_track_in r t)) as (ts & H1 & H2). exists ({[t]} ∪ ts). split; [eapply tracks_cleared_trans; [apply unestimate_track_cleared|done]|].
    intros x. rewrite elem_of_union, elem_of_singleton, H2, elem_of_cons. naive_solver.
Qed.
Lemma set_tracks_in_views_ok (o : order N) views (stay : gset N) : forall r, exists ts, tracks_cleared r (set_tracks_in_views o views stay r) ts /\
  forall t, t ∈ ts <-> t ∉ stay /\ exists u, u ∈ views /\ est_view r u /\ sees r u t.
Proof.
  unfold set_tracks_in_views. induction views as [|u views IH]; intros r.
  { exists ∅. split; [apply tracks_cleared_empty|]. intros t. split; [set_solver|]. intros (_ & u & Hu & _). by apply elem_of_nil in Hu. }
  cbn [foldl]. assert (H : exists ts, tracks_cleared r (set_tracks_in_view o stay r u) ts /\ forall t, t ∈ ts <-> t ∉ stay /\ est_view r u /\ sees r u t).
  { unfold set_tracks_in_view. destruct (rc_views r !! u) as [v|] eqn:Hv.
    - destruct (v_est v) eqn:He.
      + destruct (foldl_unestimate_unless stay (o (elements (dom (v_feats v)))) r) as (ts & H1 & H2). exists ts. split; [done|]. intros t. rewrite H2, ord_perm, elem_of_elements, elem_of_dom.
        split; [intros [Hf Hn]; split; [done|]; split; [by exists v|by exists v]|]. intros (Hn & _ & v' & Hv' & Hf). split; [|done]. congruence.
      + exists ∅. split; [apply tracks_cleared_empty|]. intros t. split; [set_solver|]. intros (_ & (v' & Hv' & He') & _). congruence.
    - exists ∅. split; [apply tracks_cleared_empty|]. intros t. split; [set_solver|]. intros (_ & (v' & Hv' & He') & _). congruence. }
  destruct H as (X & H1 & H2). destruct (IH (set_tracks_in_view o stay r u)) as (Y & H3 & H4). exists (X ∪ Y). split; [by eapply tracks_cleared_trans|].
  intros t. rewrite elem_of_union, H2, H4. destruct (tracks_cleared_scene _ ∅ _ _ H1) as [Hsc Hf]. setoid_rewrite (scene_sees _ _ _ _ _ t Hsc). setoid_rewrite (Hf _). setoid_rewrite elem_of_cons. clear. split.
  - intros [(A & B & C)|(A & x & B & C)]; (split; [done|]); [exists u; auto|exists x; auto].
  - intros (A & x & [->|B] & C); [by left|right]. split; [done|]. by exists x.
Qed.
End scene.
