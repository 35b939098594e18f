(** Consequences of the refinement, in terms of the accessors of the reconstruction. *)
From stdpp Require Import gmap strings sorting.
From Verif Require Import Base Reconstruction_Model Reconstruction_Spec Reconstruction_Proofs.

Lemma diff_singleton_empty (X : gset N) u : X ≠ ∅ -> X ∖ {[u]} = ∅ -> X = {[u]}.
Proof.
  intros [w Hw]%set_choose_L Hd. assert (Hall : forall x, x ∈ X -> x = u).
  { intros x Hx. destruct (decide (x = u)); [done|]. assert (x ∈ X ∖ {[u]}) by set_solver. set_solver. }
  apply set_eq. intros x. rewrite elem_of_singleton. split; [apply Hall|]. intros ->.
  by rewrite <- (Hall w Hw).
Qed.
Lemma diff_singleton_self (u : N) : ({[u]} : gset N) ∖ {[u]} = ∅.
Proof. set_solver. Qed.
Lemma diff_empty_l (u : N) : (∅ : gset N) ∖ {[u]} = ∅.
Proof. set_solver. Qed.

Section lemmas.
Context {F C D : Type} (c0 : C) (d0 : D).
Implicit Types (r : recon F C D) (a : arecon F C D) (ops : list (rc_op F C D)).

Notation run := (run_obs (rc_step c0 d0)).
Notation arun := (run_obs (spec_step c0 d0)).
Definition few ops : Prop := (N.of_nat (length ops) < 2 ^ 32)%N.

Lemma reach_rel ops r rs : few ops -> run rc_empty ops = Ok (r, rs) ->
  exists a, arun a_empty ops = Ok (a, rs) /\ rel r a /\ wf a /\
    (a_next_view a <= N.of_nat (length ops))%N /\ (a_next_track a <= N.of_nat (length ops))%N.
Proof.
  intros Hf Hr. pose proof (run_refines c0 d0 ops rc_empty a_empty 0 rel_empty wf_empty) as H.
  simpl in H. specialize (H ltac:(lia) ltac:(lia) Hf). rewrite Hr in H.
  destruct (arun a_empty ops) as [[a rs']| | |]; try done.
  destruct H as (-> & ? & ? & ? & ?). exists a. done.
Qed.

(** The refinement itself. *)
Lemma reconstruction_refines_lemma ops : few ops ->
  match run rc_empty ops, arun a_empty ops with
  | Ok (r, rs), Ok (a, rs') => rs = rs' /\ shows r a
  | CheckFail, CheckFail => True
  | _, _ => False
  end.
Proof.
  intros Hf. pose proof (run_refines c0 d0 ops rc_empty a_empty 0 rel_empty wf_empty) as H.
  simpl in H. specialize (H ltac:(lia) ltac:(lia) Hf).
  destruct (run rc_empty ops) as [[r rs]| | |], (arun a_empty ops) as [[a rs']| | |]; try done.
  destruct H as (-> & HR & _). split; [done|]. by apply rel_shows.
Qed.

(** C08. *)
Lemma incidence_lemma ops r rs : few ops -> run rc_empty ops = Ok (r, rs) -> forall u t,
  (exists T, rc_tracks r !! t = Some T /\ u ∈ t_views T) <->
  (exists v, rc_views r !! u = Some v /\ is_Some (v_feats v !! t)).
Proof.
  intros Hf Hr u t. destruct (reach_rel ops r rs Hf Hr) as (a & _ & R & W & _).
  split.
  - intros (T & HT & Hu). destruct (rel_track_Some r a t T R HT) as (aT & _ & _ & _ & Hv).
    apply Hv in Hu as Ho. destruct (wf_obs a W u t Ho) as [[av Hav] _].
    destruct (rel_view_Some' r a u av R Hav) as (v & Hv' & Hok). exists v. split; [done|].
    destruct Hok as (_ & _ & _ & _ & ->). done.
  - intros (v & Hv & Ht). destruct (rel_view_Some r a u v R Hv) as (av & _ & _ & _ & _ & _ & Hfe).
    rewrite Hfe in Ht. destruct (wf_obs a W u t Ht) as [_ [aT HaT]].
    destruct (rel_track_Some' r a t aT R HaT) as (T & HT & _ & _ & Hok). exists T. split; [done|].
    by apply Hok.
Qed.

(** The only aborting calls are those documented to need existing views / tracks. *)
Lemma no_abort_lemma ops r rs op : few ops -> (N.of_nat (length ops) + 1 < 2 ^ 32)%N ->
  run rc_empty ops = Ok (r, rs) ->
  (exists r' x, rc_step c0 d0 r op = Ok (r', x)) \/
  (rc_step c0 d0 r op = CheckFail /\
   ((exists obs u, op = OAddTrack obs /\ u ∈ obs.*1 /\ rc_views r !! u = None) \/
    (exists u t f, op = OAddObservation u t f /\ (rc_views r !! u = None \/ rc_tracks r !! t = None)))).
Proof.
  intros Hf Hb Hr. destruct (reach_rel ops r rs Hf Hr) as (a & _ & R & W & Hv & Ht).
  pose proof (step_refines c0 d0 r a op _ R W Hv Ht Hb) as H.
  destruct (rc_step c0 d0 r op) as [[r' x]| | |]; [left; eauto| |done..].
  right. split; [done|].
  destruct (spec_step c0 d0 a op) as [[a' x']| | |] eqn:E; try done. clear H.
  destruct op as [o nm|o nm g|o u| |obs|u t f|o t|u e c|t e d]; unfold spec_step in E;
    try (by repeat case_match).
  - left. exists obs. unfold spec_add_track in E.
    destruct (decide _); [done|]. destruct (decide _) as [|Hall]; [done|].
    apply not_Forall_Exists in Hall; [|apply _].
    apply Exists_exists in Hall as (u & Hu & Hn). exists u. split; [done|]. split; [done|].
    apply (rel_view_None r a); [done|]. by apply eq_None_not_Some.
  - right. exists u, t, f. split; [done|]. unfold spec_add_observation in E.
    destruct (decide _) as [|Hn]; [by case_match|].
    rewrite (rel_view_None r a), (rel_track_None r a), !eq_None_not_Some by done.
    destruct (decide (is_Some (a_views a !! u))); naive_solver.
Qed.

(** C09. *)
Lemma names_lemma ops r rs : few ops -> run rc_empty ops = Ok (r, rs) ->
  (forall n u v, rc_views r !! u = Some v -> v_name v = n -> rc_view_id_from_name r n = u) /\
  (forall n, (forall u v, rc_views r !! u = Some v -> v_name v ≠ n) ->
     rc_view_id_from_name r n = kInvalidId) /\
  (forall u v, rc_views r !! u = Some v -> u ≠ kInvalidId /\ v_name v ≠ EmptyString).
Proof.
  intros Hf Hr. destruct (reach_rel ops r rs Hf Hr) as (a & _ & R & W & Hb & _).
  unfold few in Hf. split; [|split].
  - intros n u v Hv <-. unfold rc_view_id_from_name.
    destruct (rel_view_Some r a u v R Hv) as (av & Hav & Hok).
    assert (rc_names r !! v_name v = Some u) as ->; [|done].
    apply R. exists av. destruct Hok as [-> _]. done.
  - intros n Hn. unfold rc_view_id_from_name. destruct (rc_names r !! n) as [u|] eqn:E; [|done].
    apply R in E as (av & Hav & Hna). destruct (rel_view_Some' r a u av R Hav) as (v & Hv & Hok).
    destruct (Hn u v Hv). destruct Hok as [-> _]. done.
  - intros u v Hv. destruct (rel_view_Some r a u v R Hv) as (av & Hav & Hok). split.
    + pose proof (wf_view a W u (mk_is_Some _ _ Hav)). unfold kInvalidId. lia.
    + destruct Hok as [-> _]. by eapply W.
Qed.

Lemma spec_step_next a op a' x : spec_step c0 d0 a op = Ok (a', x) ->
  (a_next_view a <= a_next_view a')%N /\ (a_next_track a <= a_next_track a')%N /\
  (adds_view op -> forall i, x = RId i -> i ≠ kInvalidId -> i = a_next_view a /\
     a_next_view a' = (a_next_view a + 1)%N) /\
  (adds_track op -> forall i, x = RId i -> i ≠ kInvalidId -> i = a_next_track a /\
     a_next_track a' = (a_next_track a + 1)%N).
Proof.
  destruct op as [o nm|o nm g|o u| |obs|u t f|o t|u e c|t e d]; unfold spec_step; simpl adds_view;
    simpl adds_track.
  - unfold spec_add_view. destruct (decide _); intros [= <- <-]; simpl; repeat split; try done; try lia;
      congruence.
  - unfold spec_add_view. destruct (decide _); intros [= <- <-]; simpl; repeat split; try done; try lia;
      congruence.
  - unfold spec_remove_view. destruct (decide _); intros [= <- <-]; simpl; done.
  - intros [= <- <-]; simpl; repeat split; try done; try lia; congruence.
  - unfold spec_add_track. destruct (decide _); [|destruct (decide _); [|done]];
      intros [= <- <-]; simpl; repeat split; try done; try lia; congruence.
  - unfold spec_add_observation. destruct (decide _); [|done]. case_match; intros [= <- <-]; simpl; done.
  - unfold spec_remove_track. destruct (decide _); intros [= <- <-]; simpl; done.
  - intros [= <- <-]; done.
  - intros [= <- <-]; done.
Qed.

Lemma arun_cons a op ops a' rs : arun a (op :: ops) = Ok (a', rs) ->
  exists a1 x rs1, spec_step c0 d0 a op = Ok (a1, x) /\ arun a1 ops = Ok (a', rs1) /\ rs = x :: rs1.
Proof.
  cbn [run_obs]. intros ([a1 x] & H1 & H2)%bind_Ok. apply bind_Ok in H2 as ([a2 rs1] & H2 & H3).
  simplify_eq. eauto 10.
Qed.

Lemma arun_ids ops : forall a a' rs, arun a ops = Ok (a', rs) -> forall j op i,
  ops !! j = Some op -> rs !! j = Some (RId i) -> i ≠ kInvalidId ->
  (adds_view op -> (a_next_view a <= i)%N) /\ (adds_track op -> (a_next_track a <= i)%N).
Proof.
  induction ops as [|op0 ops IH]; intros a a' rs Hr j op i Hop Hi Hne; [done|].
  apply arun_cons in Hr as (a1 & x & rs1 & Hs & Hr & ->).
  destruct (spec_step_next _ _ _ _ Hs) as (Hv & Ht & Hav & Hat).
  destruct j as [|j]; simpl in *; simplify_eq.
  - split; intros Had; [destruct (Hav Had i)|destruct (Hat Had i)]; try done; lia.
  - destruct (IH _ _ _ Hr j op i Hop Hi Hne) as [H1 H2].
    split; intros Had; [specialize (H1 Had)|specialize (H2 Had)]; lia.
Qed.

Lemma arun_fresh ops : forall a a' rs, arun a ops = Ok (a', rs) -> forall j k op op' i i',
  (j < k)%nat -> ops !! j = Some op -> ops !! k = Some op' ->
  rs !! j = Some (RId i) -> rs !! k = Some (RId i') -> i ≠ kInvalidId -> i' ≠ kInvalidId ->
  (adds_view op -> adds_view op' -> i ≠ i') /\ (adds_track op -> adds_track op' -> i ≠ i').
Proof.
  induction ops as [|op0 ops IH]; intros a a' rs Hr j k op op' i i' Hjk Hop Hop' Hi Hi' Hne Hne'; [done|].
  apply arun_cons in Hr as (a1 & x & rs1 & Hs & Hr & ->).
  destruct (spec_step_next _ _ _ _ Hs) as (Hv & Ht & Hav & Hat).
  destruct k as [|k]; [lia|]. destruct j as [|j]; simpl in *; simplify_eq.
  - destruct (arun_ids _ _ _ _ Hr k op' i' Hop' Hi' Hne') as [H1 H2].
    split; intros Had Had'.
    + destruct (Hav Had i) as [-> ?]; try done. specialize (H1 Had'). lia.
    + destruct (Hat Had i) as [-> ?]; try done. specialize (H2 Had'). lia.
  - eapply IH; [done| |done..]. lia.
Qed.

Lemma fresh_ids_lemma ops r rs : few ops -> run rc_empty ops = Ok (r, rs) -> forall j k op op' i i',
  (j < k)%nat -> ops !! j = Some op -> ops !! k = Some op' ->
  rs !! j = Some (RId i) -> rs !! k = Some (RId i') -> i ≠ kInvalidId -> i' ≠ kInvalidId ->
  (adds_view op -> adds_view op' -> i ≠ i') /\ (adds_track op -> adds_track op' -> i ≠ i').
Proof.
  intros Hf Hr. destruct (reach_rel ops r rs Hf Hr) as (a & Ha & _). eapply arun_fresh. exact Ha.
Qed.

(** Determinacy of the concrete tables. *)
Lemma view_ok_det a a' u v v' av : view_ok a u v av -> view_ok a' u v' av ->
  (forall t, a_obs a !! (u, t) = a_obs a' !! (u, t)) -> v = v'.
Proof.
  destruct v, v'. intros (H1 & H2 & H3 & H4 & H5) (G1 & G2 & G3 & G4 & G5) H. simpl in *. subst.
  f_equal. apply map_eq. intros t. by rewrite H5, G5.
Qed.
Lemma track_ok_det a a' t T T' aT : track_ok a t T aT -> track_ok a' t T' aT ->
  (forall u, is_Some (a_obs a !! (u, t)) <-> is_Some (a_obs a' !! (u, t))) -> T = T'.
Proof.
  destruct T, T'. intros (H1 & H2 & H3) (G1 & G2 & G3) H. simpl in *. subst.
  f_equal. apply set_eq. intros u. by rewrite H3, G3.
Qed.

Lemma rel_views_det r a r' a' u : rel r a -> rel r' a' -> a_views a !! u = a_views a' !! u ->
  (forall t, a_obs a !! (u, t) = a_obs a' !! (u, t)) -> rc_views r !! u = rc_views r' !! u.
Proof.
  intros R R' Hv Ho. pose proof (rel_views r a R u) as H. pose proof (rel_views r' a' R' u) as H'.
  rewrite <- Hv in H'. destruct (a_views a !! u) as [av|]; inversion H; inversion H'; subst; [|done].
  f_equal. by eapply view_ok_det.
Qed.
Lemma rel_tracks_det r a r' a' t : rel r a -> rel r' a' -> a_tracks a !! t = a_tracks a' !! t ->
  (forall u, is_Some (a_obs a !! (u, t)) <-> is_Some (a_obs a' !! (u, t))) ->
  rc_tracks r !! t = rc_tracks r' !! t.
Proof.
  intros R R' Hv Ho. pose proof (rel_tracks r a R t) as H. pose proof (rel_tracks r' a' R' t) as H'.
  rewrite <- Hv in H'. destruct (a_tracks a !! t) as [av|]; inversion H; inversion H'; subst; [|done].
  f_equal. by eapply track_ok_det.
Qed.
Lemma rel_group_lookup r a g : rel r a ->
  rc_groups r !! g = if decide (members a g = ∅) then None else Some (members a g).
Proof.
  intros R. destruct (rel_shows r a R) as (_ & _ & _ & _ & _ & _ & _ & Hg & _).
  destruct (decide _) as [He|He].
  - destruct (rc_groups r !! g) as [X|] eqn:E; [|done]. apply Hg in E as [-> ?]. done.
  - by apply Hg.
Qed.
Lemma rel_name_det r a r' a' n : rel r a -> rel r' a' ->
  (forall u, (exists v, a_views a !! u = Some v /\ a_name v = n) <->
             (exists v, a_views a' !! u = Some v /\ a_name v = n)) ->
  rc_names r !! n = rc_names r' !! n.
Proof.
  intros R R' H. apply option_eq. intros u. by rewrite (rel_names r a R), (rel_names r' a' R').
Qed.

(** C10. *)
Lemma remove_view_lemma ops r rs o u : few ops -> run rc_empty ops = Ok (r, rs) ->
  (rc_views r !! u = None -> rc_remove_view o r u = Ok (r, false)) /\
  (forall v, rc_views r !! u = Some v ->
    exists r', rc_remove_view o r u = Ok (r', true) /\
      rc_views r' = delete u (rc_views r) /\
      rc_names r' = delete (v_name v) (rc_names r) /\
      (forall t, rc_tracks r' !! t =
         T ← rc_tracks r !! t;
         if decide (t_views T = {[u]}) then None
         else Some (Track (t_est T) (t_data T) (t_views T ∖ {[u]}))) /\
      rc_view_group r' = delete u (rc_view_group r) /\
      (forall g, rc_groups r' !! g =
         X ← rc_groups r !! g; if decide (X = {[u]}) then None else Some (X ∖ {[u]})) /\
      rc_next_view r' = rc_next_view r /\ rc_next_track r' = rc_next_track r /\
      rc_next_group r' = rc_next_group r).
Proof.
  intros Hf Hr. destruct (reach_rel ops r rs Hf Hr) as (a & _ & R & W & _). split.
  { intros E. unfold rc_remove_view. by rewrite E. }
  intros v Hv. destruct (remove_view_refines o r a u R W) as (r' & Hr' & R' & W').
  destruct (rel_view_Some r a u v R Hv) as (av & Hav & Hok).
  assert (Hs : spec_remove_view a u = (ARecon (delete u (a_views a))
       (filter (fun kt => observers a kt.1 ≠ {[u]}) (a_tracks a))
       (filter (fun kf => kf.1.1 ≠ u) (a_obs a))
       (a_next_view a) (a_next_track a) (a_next_group a) (a_next_ptr a), true)).
  { unfold spec_remove_view. rewrite decide_True by eauto. done. }
  rewrite Hs in Hr', R', W'. cbn [fst snd] in *. clear Hs.
  set (a' := ARecon _ _ _ _ _ _ _) in R', W'.
  assert (Hobs : forall w t, a_obs a' !! (w, t) = if decide (w ≠ u) then a_obs a !! (w, t) else None)
    by (intros w t; by apply filter_lookup_if).
  assert (Hviews : forall w, a_views a' !! w = if decide (w ≠ u) then a_views a !! w else None).
  { intros w. cbn [a' a_views]. destruct (decide (w ≠ u)) as [| ->%dec_stable]; [by rewrite lookup_delete_ne|].
    by rewrite lookup_delete. }
  exists r'. split; [done|]. split; [|split; [|split; [|split; [|split]]]].
  - apply map_eq. intros w. destruct (decide (w = u)) as [->|Hne].
    + rewrite lookup_delete. apply (rel_view_None r' a'); [done|]. rewrite Hviews. by rewrite decide_False by tauto.
    + rewrite lookup_delete_ne by done. symmetry. eapply rel_views_det; [done..| |].
      * rewrite Hviews. by rewrite decide_True.
      * intros t. rewrite Hobs. by rewrite decide_True.
  - apply map_eq. intros n. apply option_eq. intros w. rewrite (rel_names r' a' R').
    rewrite lookup_delete_Some, (rel_names r a R). destruct Hok as [-> _]. split.
    + intros (x & Hx & Hn). rewrite Hviews in Hx. destruct (decide _) as [Hne|]; [|done].
      split; [|eauto]. intros Heq. apply Hne. eapply (wf_names a W); [done..|]. congruence.
    + intros [Hne (x & Hx & Hn)]. exists x. split; [|done]. rewrite Hviews.
      rewrite decide_True; [done|]. intros ->. congruence.
  - intros t. pose proof (rel_tracks r a R t) as HT. pose proof (rel_tracks r' a' R' t) as HT'.
    assert (a_tracks a' !! t = if decide (observers a t ≠ {[u]}) then a_tracks a !! t else None) as E
      by (by apply filter_lookup_if).
    rewrite E in HT'. inversion HT as [T aT Hok1 E1 E2|E1 E2]; rewrite <- E2 in HT'.
    2:{ destruct (decide _); inversion HT'; done. }
    cbn [mbind option_bind]. destruct Hok1 as (H1 & H2 & H3).
    assert (t_views T = observers a t) as Hob.
    { apply set_eq. intros w. by rewrite H3, elem_of_observers. }
    rewrite Hob. destruct (decide (observers a t ≠ {[u]})) as [Hne|Hne].
    + rewrite decide_False by done. inversion HT' as [T' aT' Hok' E1' E2'|]; subst.
      f_equal. destruct Hok' as (G1 & G2 & G3). destruct T' as [e d X]. simpl in *. f_equal; try congruence.
      apply set_eq. intros w. rewrite G3, Hobs, elem_of_difference, elem_of_observers, elem_of_singleton.
      destruct (decide (w ≠ u)); [tauto|]. split; [by intros [? ?]|tauto].
    + rewrite decide_True by (by apply dec_stable). inversion HT'; done.
  - apply map_eq. intros w. rewrite (rel_vgroup r' a' R'), Hviews.
    destruct (decide (w ≠ u)) as [| ->%dec_stable];
      [rewrite lookup_delete_ne by done; symmetry; apply R|].
    by rewrite lookup_delete.
  - intros g. rewrite (rel_group_lookup r' a') by done. rewrite (rel_group_lookup r a) by done.
    assert (members a' g = members a g ∖ {[u]}) as ->.
    { apply set_eq. intros w. rewrite elem_of_difference, !elem_of_members, Hviews, elem_of_singleton.
      destruct (decide (w ≠ u)); naive_solver. }
    destruct (decide (members a g = ∅)) as [E|E]; cbn [mbind option_bind].
    + rewrite E. rewrite decide_True by apply diff_empty_l. done.
    + destruct (decide (members a g = {[u]})) as [E'|E'].
      * rewrite E'. rewrite decide_True by apply diff_singleton_self. done.
      * rewrite decide_False; [done|]. intros Hd. apply E'. by apply diff_singleton_empty.
  - rewrite (rel_next_view r' a'), (rel_next_track r' a'), (rel_next_group r' a') by done.
    rewrite (rel_next_view r a), (rel_next_track r a), (rel_next_group r a) by done. done.
Qed.

Lemma remove_track_lemma ops r rs o t : few ops -> run rc_empty ops = Ok (r, rs) ->
  (rc_tracks r !! t = None -> rc_remove_track o r t = (r, false)) /\
  (is_Some (rc_tracks r !! t) ->
    exists r', rc_remove_track o r t = (r', true) /\
      rc_tracks r' = delete t (rc_tracks r) /\
      (forall u, rc_views r' !! u =
         (fun v => View (v_name v) (v_est v) (v_intr v) (v_data v) (delete t (v_feats v)))
           <$> rc_views r !! u) /\
      rc_names r' = rc_names r /\ rc_view_group r' = rc_view_group r /\ rc_groups r' = rc_groups r /\
      rc_next_view r' = rc_next_view r /\ rc_next_track r' = rc_next_track r /\
      rc_next_group r' = rc_next_group r).
Proof.
  intros Hf Hr. destruct (reach_rel ops r rs Hf Hr) as (a & _ & R & W & _). split.
  { intros E. unfold rc_remove_track. by rewrite E. }
  intros [T HT]. destruct (rel_track_Some r a t T R HT) as (aT & HaT & _ & _ & HTv).
  unfold rc_remove_track. rewrite HT.
  assert (Hin : forall u, u ∈ o (elements (t_views T)) <-> is_Some (a_obs a !! (u, t))).
  { intros u. rewrite (ord_perm o), elem_of_elements. apply HTv. }
  destruct (remove_track_loop_eq t (o (elements (t_views T))) r) as (m & -> & Hm).
  { rewrite (ord_perm o). apply NoDup_elements. }
  { intros u Hu%Hin. destruct (wf_obs a W u t Hu) as [[av Hav] _].
    destruct (rel_view_Some' r a u av R Hav) as (v & Hv & Hok). exists v. split; [done|].
    destruct Hok as (_ & _ & _ & _ & ->). done. }
  eexists. split; [done|]. cbn [set_tracks set_views rc_tracks rc_views rc_names rc_view_group rc_groups
    rc_next_view rc_next_track rc_next_group]. split; [done|]. split; [|done].
  intros u. rewrite Hm. destruct (decide _) as [Hi|Hi]; [done|].
  destruct (rc_views r !! u) as [v|] eqn:E; [|done]. simpl. f_equal.
  destruct v as [n e i d fs]. simpl. f_equal. rewrite delete_notin; [done|].
  destruct (rel_view_Some r a u _ R E) as (av & Hav & _ & _ & _ & _ & Hfe). simpl in Hfe.
  rewrite Hfe. rewrite Hin in Hi. by apply eq_None_not_Some.
Qed.

(** C11. *)
Lemma add_track_lemma ops r rs obs : few ops -> (N.of_nat (length ops) + 1 < 2 ^ 32)%N ->
  run rc_empty ops = Ok (r, rs) -> (forall u, u ∈ obs.*1 -> is_Some (rc_views r !! u)) ->
  ((length obs < 2)%nat \/ ~ NoDup obs.*1 -> rc_add_track d0 r obs = Ok (r, kInvalidId)) /\
  ((2 <= length obs)%nat -> NoDup obs.*1 ->
    exists r' t, rc_add_track d0 r obs = Ok (r', t) /\ t ≠ kInvalidId /\ rc_tracks r !! t = None /\
      rc_tracks r' = <[t := Track false d0 (list_to_set obs.*1)]> (rc_tracks r) /\
      (forall u f, (u, f) ∈ obs -> rc_views r' !! u =
         (fun v => View (v_name v) (v_est v) (v_intr v) (v_data v) (<[t := f]> (v_feats v)))
           <$> rc_views r !! u) /\
      (forall u, u ∉ obs.*1 -> rc_views r' !! u = rc_views r !! u) /\
      rc_names r' = rc_names r /\ rc_view_group r' = rc_view_group r /\ rc_groups r' = rc_groups r /\
      rc_next_view r' = rc_next_view r /\ rc_next_group r' = rc_next_group r).
Proof.
  intros Hf Hb Hr Hex. destruct (reach_rel ops r rs Hf Hr) as (a & _ & R & W & _ & Hnt). split.
  - intros H. unfold rc_add_track. destruct (decide _); [done|].
    destruct H as [?|Hnd]; [done|]. destruct (duplicate_views obs) eqn:E; [done|].
    by apply duplicate_views_spec in E.
  - intros Hl Hnd. unfold rc_add_track. rewrite decide_False by lia.
    apply duplicate_views_spec in Hnd as Ed. rewrite Ed.
    destruct (fresh_track r a R W) as (Hfr & _ & _). rewrite Hfr.
    destruct (add_track_loop_eq (rc_next_track r) obs r ∅ Hnd) as [H1 _].
    destruct H1 as (m & -> & Hm1 & Hm2); [by apply Forall_forall|].
    cbn [mbind outcome_bind]. eexists _, _. split; [done|].
    cbn [set_tracks set_views rc_tracks rc_views rc_names rc_view_group rc_groups
      rc_next_view rc_next_track rc_next_group]. split.
    { rewrite (rel_next_track r a R). unfold kInvalidId. lia. }
    split; [done|]. split; [|done]. do 2 f_equal. set_solver.
Qed.

(** C12. *)
Lemma groups_lemma ops r rs : few ops -> run rc_empty ops = Ok (r, rs) ->
  (forall u, is_Some (rc_views r !! u) <-> is_Some (rc_view_group r !! u)) /\
  (forall g u, (exists X, rc_groups r !! g = Some X /\ u ∈ X) <-> rc_view_group r !! u = Some g) /\
  (forall g X, rc_groups r !! g = Some X -> X ≠ ∅) /\
  (forall u u' v v', rc_views r !! u = Some v -> rc_views r !! u' = Some v' ->
     (rc_view_group r !! u = rc_view_group r !! u' <-> v_intr v = v_intr v')).
Proof.
  intros Hf Hr. destruct (reach_rel ops r rs Hf Hr) as (a & _ & R & W & _).
  split; [|split; [|split]].
  - intros u. rewrite (rel_vgroup r a R), fmap_is_Some.
    pose proof (rel_views r a R u) as H. inversion H; split; intros [? ?]; try done; eauto.
  - intros g u. rewrite (rel_vgroup r a R), fmap_Some.
    transitivity (u ∈ rc_groups r !!! g).
    + rewrite lookup_total_alt. destruct (rc_groups r !! g) as [X|]; simpl; [naive_solver|].
      split; [naive_solver|set_solver].
    + rewrite (rel_groups r a R). naive_solver.
  - apply R.
  - intros u u' v v' Hv Hv'.
    destruct (rel_view_Some r a u v R Hv) as (av & Hav & Hok).
    destruct (rel_view_Some r a u' v' R Hv') as (av' & Hav' & Hok').
    rewrite !(rel_vgroup r a R), Hav, Hav'. simpl.
    destruct Hok as (_ & _ & -> & _). destruct Hok' as (_ & _ & -> & _).
    rewrite <- (wf_share a W u u' av av') by done. split; [by intros [= ->]|by intros ->].
Qed.

Definition groups_below a : Prop := forall u v, a_views a !! u = Some v -> (a_group v < a_next_group a)%N.

Lemma arun_groups ops : forall a a' rs, arun a ops = Ok (a', rs) -> groups_below a ->
  names_existing_groups (a_next_group a) ops ->
  (a_next_group a + N.of_nat (length ops) < 2 ^ 32)%N ->
  groups_below a' /\ (a_next_group a' <= a_next_group a + N.of_nat (length ops))%N.
Proof.
  induction ops as [|op ops IH]; intros a a' rs Hr Hg Hn Hb.
  { simpl in Hr. simplify_eq. split; [done|]. lia. }
  apply arun_cons in Hr as (a1 & x & rs1 & Hs & Hr & ->).
  cbn [length] in *. rewrite Nat2N.inj_succ in *.
  assert (groups_below a1 /\ names_existing_groups (a_next_group a1) ops /\
    (a_next_group a1 <= a_next_group a + 1)%N) as (Hg1 & Hn1 & Hb1).
  { destruct op as [o nm|o nm g|o u| |obs|u t f|o t|u e c|t e d]; unfold spec_step in Hs;
      cbn [names_existing_groups] in Hn.
    - unfold spec_add_view in Hs. destruct (decide _); simplify_eq; simpl;
        rewrite wrap32_small by lia; (split; [|split; [done|lia]]).
      + intros w v Hv. simpl in *. rewrite wrap32_small by lia. specialize (Hg w v Hv). lia.
      + intros w v Hv. simpl in *. rewrite wrap32_small by lia.
        destruct (decide (w = a_next_view a)) as [->|]; simplify_map_eq; [lia|].
        specialize (Hg w v Hv). lia.
    - destruct Hn as [Hlt Hn].
      unfold spec_add_view in Hs. destruct (decide _); simplify_eq; simpl; (split; [|split; [done|lia]]); [done|].
      intros w v Hv. simpl in *.
      destruct (decide (w = a_next_view a)) as [->|]; simplify_map_eq; [done|]. by eapply Hg.
    - unfold spec_remove_view in Hs. destruct (decide _); simplify_eq; simpl; (split; [|split; [done|lia]]); [|done].
      intros w v Hv. cbn [a_views] in Hv. apply lookup_delete_Some in Hv as [_ Hv]. by eapply Hg.
    - unfold spec_add_empty_track in Hs; simplify_eq. simpl. split; [exact Hg|]. split; [done|]. lia.
    - unfold spec_add_track in Hs. destruct (decide _); [|destruct (decide _); [|done]]; simplify_eq/=;
        (split; [exact Hg|split; [done|lia]]).
    - unfold spec_add_observation in Hs. destruct (decide _); [|done].
      destruct (a_obs a !! (u, t)); simplify_eq/=; (split; [exact Hg|split; [done|lia]]).
    - unfold spec_remove_track in Hs. destruct (decide _); simplify_eq/=; (split; [exact Hg|split; [done|lia]]).
    - simplify_eq/=. split; [|split; [done|lia]]. intros w v Hv. simpl in *.
      destruct (decide (w = u)) as [->|].
      + rewrite lookup_alter in Hv. apply fmap_Some in Hv as (v' & Hv' & ->). simpl. by eapply Hg.
      + rewrite lookup_alter_ne in Hv by done. by eapply Hg.
    - simplify_eq/=. split; [exact Hg|]. split; [done|]. lia. }
  destruct (IH a1 a' rs1 Hr Hg1 Hn1) as [H1 H2]; [lia|]. split; [done|]. lia.
Qed.

Lemma private_group_lemma ops r rs o n : few ops -> (N.of_nat (length ops) + 1 < 2 ^ 32)%N ->
  names_existing_groups 0 ops ->
  run rc_empty ops = Ok (r, rs) -> forall r' u, rc_add_view c0 o r n = Ok (r', u) -> u ≠ kInvalidId ->
  exists v, rc_views r' !! u = Some v /\
    forall u' v', rc_views r' !! u' = Some v' -> u' ≠ u ->
      rc_view_group r' !! u' ≠ rc_view_group r' !! u /\ v_intr v' ≠ v_intr v.
Proof.
  intros Hf Hb Hn Hr r' u Hadd Hu. destruct (reach_rel ops r rs Hf Hr) as (a & Ha & R & W & Hnv & Hnt).
  pose proof (step_refines c0 d0 r a (OAddView o n) _ R W Hnv Hnt Hb) as H.
  cbn [rc_step] in H. rewrite Hadd in H. cbn [mbind outcome_bind] in H.
  destruct (arun_groups ops a_empty a rs Ha) as [Hg _].
  { intros w v Hv. simpl in Hv. by rewrite lookup_empty in Hv. }
  { done. }
  { simpl. unfold few in Hf. lia. }
  cbn [spec_step] in H. unfold spec_add_view in H. destruct (decide _) as [Hd|Hd].
  { destruct H as [[= ->] _]. done. }
  destruct H as ([= ->] & R' & W' & _).
  set (a' := bump_group _) in R', W'.
  assert (exists p, a_views a' !! a_next_view a = Some (AView n (a_next_group a) false p c0) /\
    forall w, w ≠ a_next_view a -> a_views a' !! w = a_views a !! w) as (p & Hav & Ho).
  { eexists. cbn [a' bump_group a_views]. split; [by rewrite lookup_insert|].
    intros w Hw. by rewrite lookup_insert_ne. }
  destruct (rel_view_Some' r' a' _ _ R' Hav) as (v & Hv & Hok). exists v. split; [done|].
  intros u' v' Hv' Hne.
  destruct (rel_view_Some r' a' u' v' R' Hv') as (av' & Hav' & Hok').
  assert (a_group av' < a_next_group a)%N as Hlt.
  { rewrite Ho in Hav' by done. by eapply Hg. }
  split.
  - rewrite !(rel_vgroup r' a' R'), Hav, Hav'. simpl. intros [= E]. lia.
  - destruct Hok as (_ & _ & -> & _). destruct Hok' as (_ & _ & -> & _). intros E.
    apply (wf_share a' W' u' (a_next_view a) av' _ Hav' Hav) in E. simpl in E. lia.
Qed.

(** C13. *)
Lemma sub_lemma ops r rs o (S : gset N) : few ops -> run rc_empty ops = Ok (r, rs) ->
  exists sub, rc_sub o r S rc_empty = Ok sub /\
    (forall u, rc_views sub !! u = if decide (u ∈ S) then rc_views r !! u else None) /\
    (forall t, rc_tracks sub !! t =
       T ← rc_tracks r !! t;
       if decide (t_views T ∩ S = ∅) then None
       else Some (Track (t_est T) (t_data T) (t_views T ∩ S))) /\
    (forall n u, rc_names sub !! n = Some u <-> rc_names r !! n = Some u /\ u ∈ S) /\
    (forall u, rc_view_group sub !! u = if decide (u ∈ S) then rc_view_group r !! u else None) /\
    (forall g, rc_groups sub !! g =
       X ← rc_groups r !! g; if decide (X ∩ S = ∅) then None else Some (X ∩ S)) /\
    rc_next_view sub = rc_next_view r /\ rc_next_track sub = rc_next_track r /\
    rc_next_group sub = rc_next_group r.
Proof.
  intros Hf Hr. destruct (reach_rel ops r rs Hf Hr) as (a & _ & R & W & _).
  destruct (rc_sub_rel o r a S R W) as (sub & Hsub & R' & W'). exists sub. split; [done|].
  set (a' := spec_sub a S) in *.
  assert (Hviews : forall u, a_views a' !! u = if decide (u ∈ S) then a_views a !! u else None)
    by (intros u; by apply filter_lookup_if).
  assert (Hobs : forall u t, a_obs a' !! (u, t) = if decide (u ∈ S) then a_obs a !! (u, t) else None)
    by (intros u t; by apply filter_lookup_if).
  split; [|split; [|split; [|split; [|split]]]].
  - intros u. destruct (decide (u ∈ S)) as [Hu|Hu].
    + symmetry. eapply rel_views_det; [done..| |].
      * by rewrite Hviews, decide_True.
      * intros t. by rewrite Hobs, decide_True.
    + apply (rel_view_None sub a'); [done|]. by rewrite Hviews, decide_False.
  - intros t. pose proof (rel_tracks r a R t) as HT. pose proof (rel_tracks sub a' R' t) as HT'.
    assert (a_tracks a' !! t = if decide (observers a t ∩ S ≠ ∅) then a_tracks a !! t else None) as E
      by (by apply filter_lookup_if).
    rewrite E in HT'. inversion HT as [T aT Hok1 E1 E2|E1 E2]; rewrite <- E2 in HT'.
    2:{ destruct (decide _); inversion HT'; done. }
    cbn [mbind option_bind]. destruct Hok1 as (H1 & H2 & H3).
    assert (t_views T = observers a t) as Hob.
    { apply set_eq. intros w. by rewrite H3, elem_of_observers. }
    rewrite Hob. destruct (decide (observers a t ∩ S ≠ ∅)) as [Hne|Hne].
    + rewrite decide_False by done. inversion HT' as [T' aT' Hok' E1' E2'|]; subst.
      f_equal. destruct Hok' as (G1 & G2 & G3). destruct T' as [e d X]. simpl in *. f_equal; try congruence.
      apply set_eq. intros w. rewrite G3, Hobs, elem_of_intersection, elem_of_observers.
      destruct (decide (w ∈ S)); [tauto|]. split; [by intros [? ?]|tauto].
    + rewrite decide_True by (by apply dec_stable). inversion HT'; done.
  - intros n u. rewrite (rel_names sub a' R'), (rel_names r a R), Hviews.
    destruct (decide (u ∈ S)); naive_solver.
  - intros u. rewrite (rel_vgroup sub a' R'), Hviews, (rel_vgroup r a R). by destruct (decide (u ∈ S)).
  - intros g. rewrite (rel_group_lookup sub a') by done. rewrite (rel_group_lookup r a) by done.
    assert (members a' g = members a g ∩ S) as ->.
    { apply set_eq. intros w. rewrite elem_of_intersection, !elem_of_members, Hviews.
      destruct (decide (w ∈ S)); naive_solver. }
    destruct (decide (members a g = ∅)) as [E|E]; cbn [mbind option_bind].
    + rewrite E. rewrite decide_True by set_solver. done.
    + done.
  - rewrite (rel_next_view sub a'), (rel_next_track sub a'), (rel_next_group sub a') by done.
    rewrite (rel_next_view r a), (rel_next_track r a), (rel_next_group r a) by done. done.
Qed.

(** Every further history on a sub-reconstruction is again described by the specification. *)
Lemma sub_continues_lemma ops r rs o (S : gset N) a : few ops -> run rc_empty ops = Ok (r, rs) ->
  arun a_empty ops = Ok (a, rs) ->
  exists sub, rc_sub o r S rc_empty = Ok sub /\ shows sub (spec_sub a S) /\
  forall ops2, (N.of_nat (length ops + length ops2) < 2 ^ 32)%N ->
    match run sub ops2, arun (spec_sub a S) ops2 with
    | Ok (r', rs), Ok (a', rs') => rs = rs' /\ shows r' a'
    | CheckFail, CheckFail => True
    | _, _ => False
    end.
Proof.
  intros Hf Hr Ha. destruct (reach_rel ops r rs Hf Hr) as (a0 & Ha0 & R & W & Hv & Ht).
  assert (a0 = a) as -> by congruence.
  destruct (rc_sub_rel o r a S R W) as (sub & Hsub & R' & W'). exists sub. split; [done|].
  split; [by apply rel_shows|]. intros ops2 Hb.
  pose proof (run_refines c0 d0 ops2 sub (spec_sub a S) (N.of_nat (length ops)) R' W' Hv Ht ltac:(lia)) as H.
  destruct (run sub ops2) as [[r2 rs2]| | |], (arun (spec_sub a S) ops2) as [[a2 rs2']| | |]; try done.
  destruct H as (-> & ? & _). split; [done|]. by apply rel_shows.
Qed.

(** C14. *)
Definition with_group r (g : N) : recon F C D :=
  Recon (rc_next_track r) (rc_next_view r) g (rc_names r) (rc_views r) (rc_tracks r)
    (rc_view_group r) (rc_groups r) (rc_next_ptr r).

Lemma wg_remove_track_loop g t vs : forall r, remove_track_loop (with_group r g) t vs =
  (with_group (remove_track_loop r t vs).1 g, (remove_track_loop r t vs).2).
Proof.
  induction vs as [|u vs IH]; intros r; cbn [remove_track_loop]; [done|].
  change (rc_views (with_group r g)) with (rc_views r).
  destruct (rc_views r !! u) as [v|]; [|done]. destruct (v_feats v !! t); [|done]. apply (IH (set_views r _)).
Qed.
Lemma wg_remove_track g o t r : rc_remove_track o (with_group r g) t =
  (with_group (rc_remove_track o r t).1 g, (rc_remove_track o r t).2).
Proof.
  unfold rc_remove_track. change (rc_tracks (with_group r g)) with (rc_tracks r).
  destruct (rc_tracks r !! t) as [T|]; [|done]. rewrite wg_remove_track_loop.
  destruct (remove_track_loop r t _) as [r' ok]. cbn [fst snd]. by destruct ok.
Qed.
Lemma wg_remove_view_loop g o u ts : forall r, remove_view_loop o (with_group r g) u ts =
  (with_group (remove_view_loop o r u ts).1 g, (remove_view_loop o r u ts).2).
Proof.
  induction ts as [|t ts IH]; intros r; cbn [remove_view_loop]; [done|].
  change (rc_tracks (with_group r g)) with (rc_tracks r).
  destruct (rc_tracks r !! t) as [T|]; [|done]. destruct (decide (u ∈ t_views T)); [|done].
  destruct (decide _).
  - change (set_tracks (with_group r g) ?m) with (with_group (set_tracks r m) g).
    rewrite wg_remove_track. cbn [fst]. apply IH.
  - apply (IH (set_tracks r _)).
Qed.
Lemma wg_add_track_loop g t obs : forall r vs, add_track_loop (with_group r g) t vs obs =
  (fun p => (with_group p.1 g, p.2)) <$> add_track_loop r t vs obs.
Proof.
  induction obs as [|[u f] obs IH]; intros r vs; cbn [add_track_loop]; [done|].
  change (rc_views (with_group r g)) with (rc_views r).
  destruct (rc_views r !! u) as [v|]; cbn [or_die mbind outcome_bind]; [|done].
  apply (IH (set_views r _)).
Qed.

Lemma wg_step g r op : no_auto_group op -> rc_step c0 d0 (with_group r g) op =
  (fun p => (with_group p.1 g, p.2)) <$> rc_step c0 d0 r op.
Proof.
  destruct op as [o nm|o nm g'|o u| |obs|u t f|o t|u e c|t e d]; cbn [no_auto_group rc_step];
    intros Hop; try done.
  - unfold rc_add_view_group. change (rc_names (with_group r g)) with (rc_names r).
    destruct (rc_names r !! nm); [done|]. destruct (decide _); [done|].
    change (rc_groups (with_group r g)) with (rc_groups r).
    change (rc_views (with_group r g)) with (rc_views r).
    destruct (o _) as [|u l]; [done|].
    destruct (rc_views r !! u); done.
  - unfold rc_remove_view. change (rc_views (with_group r g)) with (rc_views r).
    destruct (rc_views r !! u) as [v|]; [|done]. rewrite wg_remove_view_loop.
    destruct (remove_view_loop o r u _) as [r' ok]. cbn [fst snd]. destruct ok; [|done].
    change (rc_views (with_group r' g)) with (rc_views r').
    change (rc_groups (with_group r' g)) with (rc_groups r').
    change (rc_view_group (with_group r' g)) with (rc_view_group r').
    destruct (rc_views r' !! u); cbn [or_ub mbind outcome_bind]; [|done].
    destruct (rc_groups r' !! _); done.
  - unfold rc_add_empty_track. change (rc_tracks (with_group r g)) with (rc_tracks r).
    change (rc_next_track (with_group r g)) with (rc_next_track r).
    destruct (rc_tracks r !! _); done.
  - unfold rc_add_track. destruct (decide _); [done|]. destruct (duplicate_views obs); [done|].
    change (rc_tracks (with_group r g)) with (rc_tracks r).
    change (rc_next_track (with_group r g)) with (rc_next_track r).
    destruct (rc_tracks r !! _); [done|]. rewrite wg_add_track_loop.
    destruct (add_track_loop r _ _ _) as [[r' vs]| | |]; done.
  - unfold rc_add_observation. change (rc_tracks (with_group r g)) with (rc_tracks r).
    change (rc_views (with_group r g)) with (rc_views r).
    destruct (rc_views r !! u) as [v|]; cbn [or_die mbind outcome_bind]; [|done].
    destruct (rc_tracks r !! t) as [T|]; cbn [or_die mbind outcome_bind]; [|done].
    destruct (v_feats v !! t); [done|]. destruct (decide _); done.
  - rewrite wg_remove_track. by destruct (rc_remove_track o r t).
Qed.

Lemma wg_run g ops : forall r, Forall no_auto_group ops -> run (with_group r g) ops =
  (fun p => (with_group p.1 g, p.2)) <$> run r ops.
Proof.
  induction ops as [|op ops IH]; intros r Hops; cbn [run_obs]; [done|].
  apply Forall_cons in Hops as [Hop Hops]. rewrite wg_step by done.
  destruct (rc_step c0 d0 r op) as [[r1 x]| | |]; cbn [fmap outcome_fmap mbind outcome_bind fst snd]; try done.
  rewrite IH by done. by destruct (run r1 ops) as [[r2 xs]| | |].
Qed.

Lemma save_load_lemma ops r rs o : few ops -> run rc_empty ops = Ok (r, rs) ->
  exists a e l, arun a_empty ops = Ok (a, rs) /\
    rc_estimated o r = Ok e /\ shows e (spec_estimated a) /\
    rc_write_read o r = Ok l /\ same_but_next_group l e /\
    forall ops2, Forall no_auto_group ops2 ->
      match run l ops2, run e ops2 with
      | Ok (s, x), Ok (s', x') => x = x' /\ same_but_next_group s s'
      | CheckFail, CheckFail | UB, UB | Hang, Hang => True
      | _, _ => False
      end.
Proof.
  intros Hf Hr. destruct (reach_rel ops r rs Hf Hr) as (a & Ha & R & W & _).
  destruct (rc_estimated_rel o r a R W) as (e & He & Re & We).
  exists a, e, (with_group e 0). split; [done|]. split; [done|]. split; [by apply rel_shows|].
  split; [unfold rc_write_read; by rewrite He|]. split; [done|].
  intros ops2 Hops. rewrite wg_run by done. by destruct (run e ops2) as [[s x]| | |].
Qed.

End lemmas.

(** *** Counterexamples *)

Lemma private_group_counterexample :
  exists (ops : list (rc_op unit unit unit)) r rs r' u u' v v',
    run_obs (rc_step tt tt) rc_empty ops = Ok (r, rs) /\
    rc_add_view tt ord_id r "b" = Ok (r', u) /\ u ≠ kInvalidId /\ u' ≠ u /\
    rc_views r' !! u = Some v /\ rc_views r' !! u' = Some v' /\
    rc_view_group r' !! u = rc_view_group r' !! u' /\ v_intr v = v_intr v'.
Proof.
  set (ops := [OAddViewGroup ord_id "a" 0%N] : list (rc_op unit unit unit)).
  assert (match run_obs (rc_step tt tt) rc_empty ops with
    | Ok (r, _) =>
        match rc_add_view tt ord_id r "b" with
        | Ok (r', u) =>
            match rc_views r' !! u, rc_views r' !! 0%N with
            | Some v, Some v' => bool_decide (u = 1%N /\
                rc_view_group r' !! u = rc_view_group r' !! 0%N /\ v_intr v = v_intr v')
            | _, _ => false end
        | _ => false end
    | _ => false end = true) as H by (vm_compute; reflexivity).
  destruct (run_obs _ _ ops) as [[r rs]| | |] eqn:E1; try done.
  destruct (rc_add_view _ _ _ _) as [[r' u]| | |] eqn:E2; try done.
  destruct (rc_views r' !! u) as [v|] eqn:E3; [|done].
  destruct (rc_views r' !! 0%N) as [v'|] eqn:E4; [|done].
  apply bool_decide_eq_true in H as (-> & H1 & H2).
  exists ops, r, rs, r', 1%N, 0%N, v, v'. done.
Qed.

Lemma save_load_counterexample :
  exists (ops : list (rc_op unit unit unit)) r rs e l e' l' u,
    run_obs (rc_step tt tt) rc_empty ops = Ok (r, rs) /\
    rc_estimated ord_id r = Ok e /\ rc_write_read ord_id r = Ok l /\
    rc_add_view tt ord_id e "b" = Ok (e', u) /\ rc_add_view tt ord_id l "b" = Ok (l', u) /\
    rc_view_group e' !! u = Some 1%N /\ rc_view_group l' !! u = Some 0%N /\
    rc_view_group l' !! 0%N = Some 0%N.
Proof.
  set (ops := [OAddView ord_id "a"; OSetView 0%N true tt] : list (rc_op unit unit unit)).
  assert (match run_obs (rc_step tt tt) rc_empty ops with
    | Ok (r, _) =>
        match rc_estimated ord_id r, rc_write_read ord_id r with
        | Ok e, Ok l =>
          match rc_add_view tt ord_id e "b", rc_add_view tt ord_id l "b" with
          | Ok (e', u), Ok (l', u') =>
            bool_decide (u = u' /\ rc_view_group e' !! u = Some 1%N /\ rc_view_group l' !! u = Some 0%N /\
              rc_view_group l' !! 0%N = Some 0%N)
          | _, _ => false end
        | _, _ => false end
    | _ => false end = true) as H by (vm_compute; reflexivity).
  destruct (run_obs _ _ ops) as [[r rs]| | |] eqn:E1; try done.
  destruct (rc_estimated _ _) as [e| | |] eqn:E2; try done.
  destruct (rc_write_read _ _) as [l| | |] eqn:E3; try done.
  destruct (rc_add_view _ _ e _) as [[e' u]| | |] eqn:E4; try done.
  destruct (rc_add_view _ _ l _) as [[l' u']| | |] eqn:E5; try done.
  apply bool_decide_eq_true in H as (-> & H1 & H2 & H3).
  exists ops, r, rs, e, l, e', l', u'. done.
Qed.
