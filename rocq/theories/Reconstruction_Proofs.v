(** Refinement proof: the reconstruction with its redundant tables against the specification with a
    single observation table. *)
From stdpp Require Import gmap strings sorting.
From Verif Require Import Base Reconstruction_Model Reconstruction_Spec.

Ltac unfold_in_term f t := let x := eval unfold f in t in change t with x.

Section proofs.
Context {F C D : Type} (c0 : C) (d0 : D).
Implicit Types (r : recon F C D) (a : arecon F C D).

Definition view_ok a (u : N) (v : view F C) (av : aview C) : Prop :=
  v_name v = a_name av /\ v_est v = a_vest av /\ v_intr v = a_intr av /\ v_data v = a_vdata av /\
  forall t, v_feats v !! t = a_obs a !! (u, t).
Definition track_ok a (t : N) (T : track D) (aT : atrack D) : Prop :=
  t_est T = a_test aT /\ t_data T = a_tdata aT /\
  forall u, u ∈ t_views T <-> is_Some (a_obs a !! (u, t)).

Record rel r a : Prop := {
  rel_views : forall u, option_Forall2 (view_ok a u) (rc_views r !! u) (a_views a !! u);
  rel_tracks : forall t, option_Forall2 (track_ok a t) (rc_tracks r !! t) (a_tracks a !! t);
  rel_names : forall n u, rc_names r !! n = Some u <->
    exists v, a_views a !! u = Some v /\ a_name v = n;
  rel_vgroup : forall u, rc_view_group r !! u = a_group <$> a_views a !! u;
  rel_groups : forall g u, u ∈ rc_groups r !!! g <->
    exists v, a_views a !! u = Some v /\ a_group v = g;
  rel_groups_ne : forall g X, rc_groups r !! g = Some X -> X ≠ ∅;
  rel_next_view : rc_next_view r = a_next_view a;
  rel_next_track : rc_next_track r = a_next_track a;
  rel_next_group : rc_next_group r = a_next_group a;
  rel_next_ptr : rc_next_ptr r = a_next_ptr a }.

Record wf a : Prop := {
  wf_obs : forall u t, is_Some (a_obs a !! (u, t)) ->
    is_Some (a_views a !! u) /\ is_Some (a_tracks a !! t);
  wf_view : forall u, is_Some (a_views a !! u) -> (u < a_next_view a)%N;
  wf_track : forall t, is_Some (a_tracks a !! t) -> (t < a_next_track a)%N;
  wf_names : forall u u' v v', a_views a !! u = Some v -> a_views a !! u' = Some v' ->
    a_name v = a_name v' -> u = u';
  wf_noempty : forall u v, a_views a !! u = Some v -> a_name v ≠ EmptyString;
  wf_ptr : forall u v, a_views a !! u = Some v -> (a_intr v < a_next_ptr a)%N;
  wf_share : forall u u' v v', a_views a !! u = Some v -> a_views a !! u' = Some v' ->
    (a_group v = a_group v' <-> a_intr v = a_intr v') }.

Lemma rel_empty : rel rc_empty a_empty.
Proof.
  split; simpl; intros; try done.
  - rewrite !lookup_empty. constructor.
  - rewrite !lookup_empty. constructor.
  - rewrite lookup_empty. split; [done|]. intros (v & H & _). by rewrite lookup_empty in H.
  - rewrite lookup_total_alt, lookup_empty; simpl. split; [set_solver|].
    intros (v & H & _). by rewrite lookup_empty in H.
Qed.

Lemma wf_empty : wf a_empty.
Proof.
  split; simpl; intros *; rewrite ?lookup_empty; try (by intros [? ?]); try done.
Qed.

Lemma name_taken_alt a n : name_taken a n <-> exists u v, a_views a !! u = Some v /\ a_name v = n.
Proof.
  unfold name_taken. split.
  - intros (v & -> & Hv)%elem_of_list_fmap.
    apply elem_of_list_fmap in Hv as ([u v'] & -> & Hv%elem_of_map_to_list). eauto.
  - intros (u & v & Hv & <-). apply elem_of_list_fmap. exists v. split; [done|].
    apply elem_of_list_fmap. exists (u, v). split; [done|]. by apply elem_of_map_to_list.
Qed.

Lemma rel_view_Some r a u v : rel r a -> rc_views r !! u = Some v ->
  exists av, a_views a !! u = Some av /\ view_ok a u v av.
Proof.
  intros R Hv. pose proof (rel_views r a R u) as H. rewrite Hv in H. inversion H; subst. eauto.
Qed.
Lemma rel_view_Some' r a u av : rel r a -> a_views a !! u = Some av ->
  exists v, rc_views r !! u = Some v /\ view_ok a u v av.
Proof.
  intros R Hv. pose proof (rel_views r a R u) as H. rewrite Hv in H. inversion H; subst. eauto.
Qed.
Lemma rel_view_None r a u : rel r a -> rc_views r !! u = None <-> a_views a !! u = None.
Proof.
  intros R. pose proof (rel_views r a R u) as H. inversion H; subst; naive_solver.
Qed.
Lemma rel_track_Some r a u v : rel r a -> rc_tracks r !! u = Some v ->
  exists av, a_tracks a !! u = Some av /\ track_ok a u v av.
Proof.
  intros R Hv. pose proof (rel_tracks r a R u) as H. rewrite Hv in H. inversion H; subst. eauto.
Qed.
Lemma rel_track_Some' r a u av : rel r a -> a_tracks a !! u = Some av ->
  exists v, rc_tracks r !! u = Some v /\ track_ok a u v av.
Proof.
  intros R Hv. pose proof (rel_tracks r a R u) as H. rewrite Hv in H. inversion H; subst. eauto.
Qed.
Lemma rel_track_None r a u : rel r a -> rc_tracks r !! u = None <-> a_tracks a !! u = None.
Proof.
  intros R. pose proof (rel_tracks r a R u) as H. inversion H; subst; naive_solver.
Qed.

Lemma rel_name_None r a n : rel r a -> rc_names r !! n = None <-> ~ name_taken a n.
Proof.
  intros R. rewrite name_taken_alt. split.
  - intros H (u & v & Hv & Hn). assert (rc_names r !! n = Some u) by (apply R; eauto). congruence.
  - intros H. destruct (rc_names r !! n) as [u|] eqn:E; [|done].
    apply R in E as (v & ? & ?). exfalso; eauto.
Qed.

(** *** AddView *)

(** The intrinsics object a view of group [g] gets. *)
Definition group_ptr a (g : N) : N :=
  match filter (fun kv => a_group kv.2 = g) (map_to_list (a_views a)) with
  | [] => a_next_ptr a
  | (_, v) :: _ => a_intr v end.

Lemma group_ptr_None a g : (forall u v, a_views a !! u = Some v -> a_group v ≠ g) ->
  group_ptr a g = a_next_ptr a.
Proof.
  intros H. unfold group_ptr.
  destruct (filter _ _) as [|[u v] l] eqn:E; [done|].
  assert ((u, v) ∈ filter (fun kv => a_group kv.2 = g) (map_to_list (a_views a))) as Hin
    by (rewrite E; by left).
  apply elem_of_list_filter in Hin as [Hg Hin%elem_of_map_to_list]. simpl in *. by destruct (H u v).
Qed.
Lemma group_ptr_Some a g u v : wf a -> a_views a !! u = Some v -> a_group v = g ->
  group_ptr a g = a_intr v.
Proof.
  intros W Hv Hg. unfold group_ptr.
  destruct (filter _ _) as [|[u' v'] l] eqn:E.
  - assert ((u, v) ∈ filter (fun kv => a_group kv.2 = g) (map_to_list (a_views a))) as Hin
      by (apply elem_of_list_filter; split; [done|]; by apply elem_of_map_to_list).
    rewrite E in Hin. by apply elem_of_nil in Hin.
  - assert ((u', v') ∈ filter (fun kv => a_group kv.2 = g) (map_to_list (a_views a))) as Hin
      by (rewrite E; by left).
    apply elem_of_list_filter in Hin as [Hg' Hin%elem_of_map_to_list]. simpl in *.
    apply (wf_share a W u' u); [done..|congruence].
Qed.

Lemma wrap32_small n : (n < 2 ^ 32)%N -> wrap32 n = n.
Proof. intros. unfold wrap32. by apply N.mod_small. Qed.

Lemma wrap32_pred n : (n + 1 < 2 ^ 32)%N -> wrap32 (wrap32 (n + 1) + 2 ^ 32 - 1) = n.
Proof.
  intros. rewrite (wrap32_small (n + 1)) by done. unfold wrap32.
  replace (n + 1 + 2 ^ 32 - 1)%N with (n + 1 * 2 ^ 32)%N by lia.
  rewrite N.mod_add by lia. apply N.mod_small. lia.
Qed.

Lemma emplace_None {K A} `{Countable K} (k : K) (x : A) (m : gmap K A) :
  m !! k = None -> emplace k x m = <[k := x]> m.
Proof. intros E. unfold emplace. by rewrite E. Qed.

Lemma add_view_group_refines o r a n g :
  rel r a -> wf a -> (a_next_view a + 1 < 2 ^ 32)%N ->
  exists r', rc_add_view_group c0 o r n g = Ok (r', (spec_add_view c0 a n g).2) /\
    rel r' (spec_add_view c0 a n g).1 /\ wf (spec_add_view c0 a n g).1.
Proof.
  intros R W Hb. unfold rc_add_view_group, spec_add_view.
  destruct (rc_names r !! n) as [u|] eqn:En.
  { rewrite decide_True; [eauto|]. left. apply name_taken_alt. apply R in En as (v & ? & ?). eauto. }
  destruct (decide (n = EmptyString)) as [->|Hne].
  { rewrite decide_True by (by right). eauto. }
  pose proof (proj1 (rel_name_None r a n R) En) as Hnt.
  rewrite decide_False by (intros [?|?]; done).
  set (members := rc_groups r !!! g).
  fold (group_ptr a g).
  assert (match o (elements members) with
          | [] => Ok (rc_next_ptr r)
          | u :: _ => v_intr <$> or_die (rc_views r !! u)
          end = Ok (group_ptr a g)) as ->.
  { destruct (o (elements members)) as [|u l] eqn:E.
    - rewrite group_ptr_None; [by rewrite (rel_next_ptr r a R)|].
      intros u v Hv Hg. assert (u ∈ members) as Hm by (apply R; eauto).
      apply elem_of_elements in Hm. rewrite <- (ord_perm o), E in Hm. by apply elem_of_nil in Hm.
    - assert (u ∈ members) as Hm.
      { apply elem_of_elements. rewrite <- (ord_perm o), E. by left. }
      apply R in Hm as (v & Hv & Hg).
      destruct (rel_view_Some' r a u v R Hv) as (v' & Hv' & Hok). rewrite Hv'. simpl.
      rewrite (group_ptr_Some a g u v W Hv Hg). by destruct Hok as (_ & _ & -> & _). }
  cbn [mbind outcome_bind].
  assert (Eid : rc_next_view r = a_next_view a) by apply R.
  assert (Hnv : a_views a !! (rc_next_view r) = None).
  { destruct (a_views a !! (rc_next_view r)) eqn:E; [|done]. pose proof (wf_view a W (rc_next_view r) (mk_is_Some _ _ E)). lia. }
  assert (Hnvr : rc_views r !! (rc_next_view r) = None) by by apply (rel_view_None r a).
  assert (Hobs : forall t, a_obs a !! ((rc_next_view r), t) = None).
  { intros t. destruct (a_obs a !! ((rc_next_view r), t)) eqn:E; [|done].
    destruct (wf_obs a W (rc_next_view r) t (mk_is_Some _ _ E)) as [[? ?] _]. congruence. }
  assert (Hgrp : rc_view_group r !! (rc_next_view r) = None) by by rewrite (rel_vgroup r a R), Hnv.
  rewrite wrap32_pred by (rewrite Eid; done).
  rewrite wrap32_small by (rewrite Eid; lia).
  rewrite !emplace_None by done. cbn [fst snd].
  eexists. split; [by rewrite <- Eid|]. rewrite <- Eid. split.
  - split; cbn [rc_views rc_tracks rc_names rc_view_group rc_groups rc_next_view rc_next_track
      rc_next_group rc_next_ptr a_views a_tracks a_obs a_next_view a_next_track a_next_group
      a_next_ptr]; try apply R; try done.
    + intros u. destruct (decide (u = (rc_next_view r))) as [->|Hu]; simplify_map_eq.
      * constructor. repeat split. simpl. intros t. by rewrite lookup_empty, Hobs.
      * apply R.
    + intros m u. destruct (decide (m = n)) as [->|Hm]; simplify_map_eq.
      * split.
        -- intros [= <-]. exists (AView n g false (group_ptr a g) c0). by simplify_map_eq.
        -- intros (v & Hv & Hn). destruct (decide (u = (rc_next_view r))) as [->|Hu]; [done|]. simplify_map_eq.
           exfalso. apply Hnt. apply name_taken_alt. eauto.
      * rewrite (rel_names r a R m u). split.
        -- intros (v & Hv & Hn). exists v. split; [|done].
           rewrite lookup_insert_ne; [done|]. intros <-. congruence.
        -- intros (v & Hv & Hn). destruct (decide (u = (rc_next_view r))) as [->|Hu]; simplify_map_eq; eauto.
    + intros u. destruct (decide (u = (rc_next_view r))) as [->|Hu]; simplify_map_eq; [done|]. apply R.
    + intros g' u. destruct (decide (g' = g)) as [->|Hg].
      * rewrite lookup_total_insert, elem_of_union, elem_of_singleton. unfold members.
        rewrite (rel_groups r a R g u).
        destruct (decide (u = (rc_next_view r))) as [->|Hu].
        -- split; [|by left]. intros _. exists (AView n g false (group_ptr a g) c0).
           by simplify_map_eq.
        -- rewrite lookup_insert_ne by done. naive_solver.
      * rewrite lookup_total_insert_ne by done. rewrite (rel_groups r a R g' u). split.
        -- intros (v & Hv & Hg'). exists v. split; [|done].
           rewrite lookup_insert_ne; [done|]. intros <-. congruence.
        -- intros (v & Hv & Hg'). destruct (decide (u = (rc_next_view r))) as [->|Hu]; simplify_map_eq; eauto.
    + intros g' X. destruct (decide (g' = g)) as [->|Hg]; simplify_map_eq; [set_solver|]. apply R.
    + by rewrite (rel_next_ptr r a R).
  - split; cbn [a_views a_tracks a_obs a_next_view a_next_track a_next_group a_next_ptr]; try apply W.
    + intros u t H. destruct (wf_obs a W u t H) as [Hu Ht]. split; [|done].
      destruct (decide (u = (rc_next_view r))) as [->|]; simplify_map_eq; eauto.
    + intros u [v Hu]. destruct (decide (u = (rc_next_view r))) as [->|]; simplify_map_eq; [lia|].
      pose proof (wf_view a W u (mk_is_Some _ _ Hu)). lia.
    + intros u u' v v' Hu Hu'.
      destruct (decide (u = (rc_next_view r))) as [->|]; destruct (decide (u' = (rc_next_view r))) as [->|];
        simplify_map_eq; try done; intros Hn.
      * exfalso. apply Hnt, name_taken_alt. eauto.
      * exfalso. apply Hnt, name_taken_alt. eauto.
      * eapply W; eauto.
    + intros u v Hu. destruct (decide (u = (rc_next_view r))) as [->|]; simplify_map_eq; [done|]. by eapply W.
    + assert (group_ptr a g < a_next_ptr a + 1)%N.
      { unfold group_ptr. destruct (filter _ _) as [|[u v] l] eqn:E; [lia|].
        assert ((u, v) ∈ filter (fun kv => a_group kv.2 = g) (map_to_list (a_views a))) as Hin
          by (rewrite E; by left).
        apply elem_of_list_filter in Hin as [_ Hin%elem_of_map_to_list].
        pose proof (wf_ptr a W u v Hin). lia. }
      intros u v Hu. destruct (decide (u = (rc_next_view r))) as [->|]; simplify_map_eq; [done|].
      pose proof (wf_ptr a W u v Hu). lia.
    + assert (Hkey : forall u v, a_views a !! u = Some v ->
        (g = a_group v <-> group_ptr a g = a_intr v)).
      { intros u v Hv. split.
        - intros ->. by apply (group_ptr_Some a _ u v).
        - intros Hp. destruct (set_choose_or_empty members) as [(u' & (v' & Hv' & Hg')%(rel_groups r a R))|Hno].
          + rewrite (group_ptr_Some a g u' v' W Hv' Hg') in Hp.
            rewrite <- Hg'. by apply (wf_share a W u' u).
          + rewrite group_ptr_None in Hp.
            2:{ intros u' v' Hv' Hg'. assert (u' ∈ members) by (apply R; eauto). set_solver. }
            pose proof (wf_ptr a W u v Hv). lia. }
      intros u u' v v' Hu Hu'.
      destruct (decide (u = (rc_next_view r))) as [->|]; destruct (decide (u' = (rc_next_view r))) as [->|];
        simplify_map_eq; try done.
      * by apply (Hkey u').
      * rewrite (eq_comm (a_group v)), (eq_comm (a_intr v)). by apply (Hkey u).
      * eapply W; eauto.
Qed.

(** *** RemoveTrack *)

Definition drop_feat (t : N) (v : view F C) : view F C :=
  View (v_name v) (v_est v) (v_intr v) (v_data v) (delete t (v_feats v)).

Lemma remove_track_loop_eq t vs : forall r, NoDup vs ->
  (forall u, u ∈ vs -> exists v, rc_views r !! u = Some v /\ is_Some (v_feats v !! t)) ->
  exists m, remove_track_loop r t vs = (set_views r m, true) /\
    forall u, m !! u = if decide (u ∈ vs) then drop_feat t <$> rc_views r !! u
                       else rc_views r !! u.
Proof.
  induction vs as [|w vs IH]; intros r Hnd Hall; cbn [remove_track_loop].
  { exists (rc_views r). split; [by destruct r|]. intros u. by rewrite decide_False by set_solver. }
  apply NoDup_cons in Hnd as [Hw Hnd].
  destruct (Hall w) as (v & Hv & [f Hf]); [set_solver|]. rewrite Hv, Hf.
  destruct (IH (set_views r (<[w := drop_feat t v]> (rc_views r))) Hnd) as (m & Hm & Hlk).
  { intros u Hu. cbn [rc_views set_views]. rewrite lookup_insert_ne by set_solver.
    apply Hall. set_solver. }
  exists m. unfold drop_feat at 1 in Hm. split; [by rewrite Hm|].
  intros u. rewrite Hlk. cbn [rc_views set_views].
  destruct (decide (u = w)) as [->|Hne].
  - rewrite decide_False by done. rewrite decide_True by set_solver. by rewrite lookup_insert, Hv.
  - rewrite lookup_insert_ne by done.
    destruct (decide (u ∈ vs)); [rewrite decide_True by set_solver|rewrite decide_False by set_solver];
    done.
Qed.

Lemma remove_track_refines o r a t :
  rel r a -> wf a ->
  exists r', rc_remove_track o r t = (r', (spec_remove_track a t).2) /\
    rel r' (spec_remove_track a t).1 /\ wf (spec_remove_track a t).1.
Proof.
  intros R W. unfold rc_remove_track, spec_remove_track.
  destruct (rc_tracks r !! t) as [T|] eqn:ET.
  2:{ apply (rel_track_None r a) in ET; [|done]. rewrite decide_False; [eauto|].
      intros [? ?]. congruence. }
  destruct (rel_track_Some r a t T R ET) as (aT & HaT & _ & _ & HTv).
  rewrite decide_True by eauto.
  assert (Hin : forall u, u ∈ o (elements (t_views T)) <-> is_Some (a_obs a !! (u, t))).
  { intros u. rewrite (ord_perm o), elem_of_elements. apply HTv. }
  destruct (remove_track_loop_eq t (o (elements (t_views T))) r) as (m & -> & Hm).
  { rewrite (ord_perm o). apply NoDup_elements. }
  { intros u Hu%Hin. destruct (wf_obs a W u t Hu) as [[av Hav] _].
    destruct (rel_view_Some' r a u av R Hav) as (v & Hv & Hok). exists v. split; [done|].
    destruct Hok as (_ & _ & _ & _ & ->). done. }
  eexists. split; [done|]. cbn [fst snd].
  assert (Hobs : forall u t', filter (fun kf => kf.1.2 ≠ t) (a_obs a) !! (u, t') =
    if decide (t' = t) then None else a_obs a !! (u, t')).
  { intros u t'. destruct (decide (t' = t)) as [->|Ht].
    - apply map_filter_lookup_None. right. intros x _ H. by apply H.
    - destruct (a_obs a !! (u, t')) as [f|] eqn:E.
      + by apply map_filter_lookup_Some.
      + apply map_filter_lookup_None. by left. }
  split.
  - split; cbn [set_views set_tracks rc_views rc_tracks rc_names rc_view_group rc_groups rc_next_view
      rc_next_track rc_next_group rc_next_ptr a_views a_tracks a_obs a_next_view a_next_track
      a_next_group a_next_ptr]; try apply R; try done.
    + intros u. rewrite Hm. pose proof (rel_views r a R u) as Hu.
      destruct (rc_views r !! u) as [v|] eqn:Ev; inversion Hu as [? av Hok E1 E2|]; subst.
      2:{ destruct (decide _); constructor. }
      destruct Hok as (H1 & H2 & H3 & H4 & H5).
      destruct (decide (u ∈ o (elements (t_views T)))) as [Hi|Hi]; simpl; constructor;
        repeat split; try done; cbn [a_obs]; intros t'; rewrite Hobs.
      * simpl. destruct (decide (t' = t)) as [->|Ht]; [by rewrite lookup_delete|].
        by rewrite lookup_delete_ne.
      * destruct (decide (t' = t)) as [->|Ht]; [|done]. rewrite H5.
        rewrite Hin in Hi. by apply eq_None_not_Some.
    + intros t'. destruct (decide (t' = t)) as [->|Ht]; simplify_map_eq; [constructor|].
      pose proof (rel_tracks r a R t') as HT'.
      inversion HT' as [T' aT' Hok E1 E2|]; [|constructor]. constructor.
      destruct Hok as (H1 & H2 & H3). repeat split; try done; cbn [a_obs]; rewrite Hobs;
        rewrite decide_False by done; apply H3.
  - split; cbn [a_views a_tracks a_obs a_next_view a_next_track a_next_group a_next_ptr]; try apply W.
    + intros u t' [f Hf]. rewrite Hobs in Hf. destruct (decide (t' = t)); [done|].
      rewrite lookup_delete_ne by done. by eapply W.
    + intros t' [x Hx]. apply lookup_delete_Some in Hx as [? Hx]. eapply W; eauto.
Qed.

(** *** RemoveView *)

Definition drop_view (u : N) (T : track D) : track D :=
  Track (t_est T) (t_data T) (t_views T ∖ {[u]}).

Lemma remove_track_empty o r t T : rc_tracks r !! t = Some T -> t_views T = ∅ ->
  rc_remove_track o r t = (set_tracks r (delete t (rc_tracks r)), true).
Proof.
  intros HT He. unfold rc_remove_track. rewrite HT, He, elements_empty.
  assert (o [] = []) as ->; [|done].
  apply Permutation_nil. symmetry. apply ord_perm.
Qed.

Lemma remove_view_loop_eq o u ts : forall r, NoDup ts ->
  (forall t, t ∈ ts -> exists T, rc_tracks r !! t = Some T /\ u ∈ t_views T) ->
  exists m, remove_view_loop o r u ts = (set_tracks r m, true) /\
    forall t, m !! t = if decide (t ∈ ts) then
                         T ← rc_tracks r !! t;
                         if decide (t_views T ∖ {[u]} = ∅) then None else Some (drop_view u T)
                       else rc_tracks r !! t.
Proof.
  induction ts as [|w ts IH]; intros r Hnd Hall; cbn [remove_view_loop].
  { exists (rc_tracks r). split; [by destruct r|]. intros t. by rewrite decide_False by set_solver. }
  apply NoDup_cons in Hnd as [Hw Hnd].
  destruct (Hall w) as (T & HT & Hu); [set_solver|]. rewrite HT. rewrite decide_True by done.
  cbn [t_views].
  set (r2 := if decide (t_views T ∖ {[u]} = ∅) then _ else _).
  assert (exists m2, r2 = set_tracks r m2 /\
    (m2 !! w = if decide (t_views T ∖ {[u]} = ∅) then None else Some (drop_view u T)) /\
    (forall t, t ≠ w -> m2 !! t = rc_tracks r !! t)) as (m2 & -> & Hw2 & Ho2).
  { unfold r2. destruct (decide (t_views T ∖ {[u]} = ∅)) as [He|He].
    - erewrite (remove_track_empty o _ w); [|cbn [set_tracks rc_tracks]; by rewrite lookup_insert|done].
      cbn [fst set_tracks rc_tracks].
      exists (delete w (<[w := drop_view u T]> (rc_tracks r))). split; [done|]. split.
      + by rewrite lookup_delete.
      + intros t Ht. rewrite lookup_delete_ne by done. by rewrite lookup_insert_ne.
    - exists (<[w := drop_view u T]> (rc_tracks r)). split; [done|]. split.
      + by rewrite lookup_insert.
      + intros t Ht. by rewrite lookup_insert_ne. }
  destruct (IH (set_tracks r m2) Hnd) as (m & Hm & Hlk).
  { intros t Ht. cbn [rc_tracks set_tracks]. rewrite Ho2 by set_solver. apply Hall. set_solver. }
  exists m. split; [by rewrite Hm|].
  intros t. rewrite Hlk. cbn [rc_tracks set_tracks].
  destruct (decide (t = w)) as [->|Hne].
  - rewrite decide_False by done. rewrite decide_True by set_solver. by rewrite Hw2, HT.
  - rewrite Ho2 by done.
    destruct (decide (t ∈ ts)); [rewrite decide_True by set_solver|rewrite decide_False by set_solver];
    done.
Qed.

Lemma elem_of_observers a t u : u ∈ observers a t <-> is_Some (a_obs a !! (u, t)).
Proof.
  unfold observers. rewrite elem_of_map. split.
  - intros ([u' t'] & -> & [Ht Hd]%elem_of_filter). simpl in *. subst. by apply elem_of_dom.
  - intros H. exists (u, t). split; [done|]. apply elem_of_filter. split; [done|]. by apply elem_of_dom.
Qed.
Lemma elem_of_seen a t u : t ∈ seen a u <-> is_Some (a_obs a !! (u, t)).
Proof.
  unfold seen. rewrite elem_of_map. split.
  - intros ([u' t'] & -> & [Ht Hd]%elem_of_filter). simpl in *. subst. by apply elem_of_dom.
  - intros H. exists (u, t). split; [done|]. apply elem_of_filter. split; [done|]. by apply elem_of_dom.
Qed.
Lemma elem_of_members a g u : u ∈ members a g <-> exists v, a_views a !! u = Some v /\ a_group v = g.
Proof.
  unfold members. rewrite elem_of_dom. split.
  - intros [v [Hv Hg]%map_filter_lookup_Some]. eauto.
  - intros (v & Hv & Hg). exists v. by apply map_filter_lookup_Some.
Qed.

Lemma remove_view_refines o r a u :
  rel r a -> wf a ->
  exists r', rc_remove_view o r u = Ok (r', (spec_remove_view a u).2) /\
    rel r' (spec_remove_view a u).1 /\ wf (spec_remove_view a u).1.
Proof.
  intros R W. unfold rc_remove_view, spec_remove_view.
  destruct (rc_views r !! u) as [v|] eqn:Ev.
  2:{ apply (rel_view_None r a) in Ev; [|done]. rewrite decide_False; [eauto|].
      intros [? ?]. congruence. }
  destruct (rel_view_Some r a u v R Ev) as (av & Hav & Hname & _ & _ & _ & Hf).
  rewrite decide_True by eauto.
  assert (Hin : forall t, t ∈ o (elements (dom (v_feats v))) <-> is_Some (a_obs a !! (u, t))).
  { intros t. rewrite (ord_perm o), elem_of_elements, elem_of_dom. by rewrite Hf. }
  destruct (remove_view_loop_eq o u (o (elements (dom (v_feats v)))) r) as (m & -> & Hm).
  { rewrite (ord_perm o). apply NoDup_elements. }
  { intros t Ht%Hin. destruct (wf_obs a W u t Ht) as [_ [aT HaT]].
    destruct (rel_track_Some' r a t aT R HaT) as (T & HT & _ & _ & Hok). exists T. split; [done|].
    by apply Hok. }
  cbn [set_tracks rc_views rc_tracks rc_names rc_view_group rc_groups rc_next_view rc_next_track
    rc_next_group rc_next_ptr]. rewrite Ev. cbn [or_ub mbind outcome_bind].
  assert (default kInvalidId (rc_view_group r !! u) = a_group av) as -> by
    (by rewrite (rel_vgroup r a R), Hav).
  assert (Hug : u ∈ rc_groups r !!! a_group av) by (apply R; eauto).
  destruct (rc_groups r !! a_group av) as [X|] eqn:EX.
  2:{ rewrite lookup_total_alt, EX in Hug. simpl in Hug. set_solver. }
  rewrite lookup_total_alt, EX in Hug. simpl in Hug.
  cbn [id or_die mbind outcome_bind fst snd].
  eexists. split; [done|].
  assert (HX : forall w, w ∈ X <-> exists v, a_views a !! w = Some v /\ a_group v = a_group av).
  { intros w. rewrite <- (rel_groups r a R). by rewrite lookup_total_alt, EX. }
  assert (Hobs : forall u' t', filter (fun kf => kf.1.1 ≠ u) (a_obs a) !! (u', t') =
    if decide (u' = u) then None else a_obs a !! (u', t')).
  { intros u' t'. destruct (decide (u' = u)) as [->|Ht].
    - apply map_filter_lookup_None. right. intros x _ H. by apply H.
    - destruct (a_obs a !! (u', t')) as [f|] eqn:E.
      + by apply map_filter_lookup_Some.
      + apply map_filter_lookup_None. by left. }
  assert (Htr : forall t, filter (fun kt => observers a kt.1 ≠ {[u]}) (a_tracks a) !! t =
    if decide (observers a t = {[u]}) then None else a_tracks a !! t).
  { intros t. destruct (decide (observers a t = {[u]})) as [Ht|Ht].
    - apply map_filter_lookup_None. right. intros x _ H. by apply H.
    - destruct (a_tracks a !! t) as [f|] eqn:E.
      + by apply map_filter_lookup_Some.
      + apply map_filter_lookup_None. by left. }
  split.
  - split; cbn [set_views set_tracks rc_views rc_tracks rc_names rc_view_group rc_groups rc_next_view
      rc_next_track rc_next_group rc_next_ptr a_views a_tracks a_obs a_next_view a_next_track
      a_next_group a_next_ptr]; try apply R; try done.
    + intros u'. destruct (decide (u' = u)) as [->|Hu]; simplify_map_eq; [constructor|].
      pose proof (rel_views r a R u') as HT'.
      inversion HT' as [v' av' Hok E1 E2|]; [|constructor]. constructor.
      destruct Hok as (H1 & H2 & H3 & H4 & H5). repeat split; try done; cbn [a_obs].
      intros t. rewrite Hobs. by rewrite decide_False.
    + intros t. rewrite Hm, Htr.
      pose proof (rel_tracks r a R t) as HT.
      inversion HT as [T aT Hok E1 E2|E1 E2].
      2:{ destruct (decide _), (decide _); constructor. }
      destruct Hok as (H1 & H2 & H3). cbn [mbind option_bind].
      assert (Hobst : t_views T = observers a t).
      { apply set_eq. intros w. by rewrite H3, elem_of_observers. }
      destruct (decide (t ∈ o (elements (dom (v_feats v))))) as [Hi|Hi].
      * apply Hin in Hi. assert (u ∈ t_views T) by by apply H3.
        destruct (decide (t_views T ∖ {[u]} = ∅)) as [He|He].
        -- rewrite decide_True; [constructor|]. rewrite <- Hobst. apply set_eq.
           intros w. rewrite elem_of_singleton. destruct (decide (w = u)); [naive_solver|set_solver].
        -- rewrite decide_False.
           2:{ rewrite <- Hobst. intros Heq. apply He. rewrite Heq. set_solver. }
           constructor. repeat split; try done; cbn [a_obs drop_view t_views].
           ++ rewrite Hobs. intros [Hw Hne]%elem_of_difference. rewrite decide_False by set_solver.
              by apply H3.
           ++ rewrite Hobs. destruct (decide (u0 = u)); [by intros [? ?]|]. intros Hs%H3. set_solver.
      * rewrite decide_False.
        2:{ rewrite <- Hobst. intros Heq. apply Hi, Hin. apply H3. set_solver. }
        constructor. repeat split; try done; cbn [a_obs].
        -- rewrite Hobs. intros Hw. destruct (decide (u0 = u)) as [->|]; [|by apply H3].
           exfalso. apply Hi, Hin. by apply H3.
        -- rewrite Hobs. destruct (decide (u0 = u)); [by intros [? ?]|]. by intros Hs%H3.
    + intros n w. rewrite Hname. destruct (decide (n = a_name av)) as [->|Hn]; simplify_map_eq.
      * split; [done|]. intros (v' & [Hne Hv']%lookup_delete_Some & Hn). exfalso.
        apply Hne. symmetry. by eapply (wf_names a W).
      * rewrite (rel_names r a R). split; intros (v' & Hv' & Hn').
        -- exists v'. split; [|done]. rewrite lookup_delete_ne; [done|]. intros <-. congruence.
        -- apply lookup_delete_Some in Hv' as [? ?]. eauto.
    + intros u'. destruct (decide (u' = u)) as [->|Hu]; simplify_map_eq; [done|]. apply R.
    + intros g w.
      assert (w ∈ (if decide (X ∖ {[u]} = ∅) then delete (a_group av) (rc_groups r)
        else <[a_group av := X ∖ {[u]}]> (rc_groups r)) !!! g <->
        w ∈ rc_groups r !!! g /\ w ≠ u) as ->.
      { destruct (decide (g = a_group av)) as [->|Hg].
        - rewrite !lookup_total_alt. rewrite EX. simpl.
          destruct (decide (X ∖ {[u]} = ∅)) as [He|He].
          + rewrite lookup_delete. simpl. set_solver.
          + rewrite lookup_insert. simpl. set_solver.
        - assert ((if decide (X ∖ {[u]} = ∅) then delete (a_group av) (rc_groups r)
            else <[a_group av := X ∖ {[u]}]> (rc_groups r)) !!! g = rc_groups r !!! g) as ->.
          { rewrite !lookup_total_alt.
            destruct (decide _); by rewrite ?lookup_delete_ne, ?lookup_insert_ne. }
          split; [|by intros [? _]]. intros Hw. split; [done|]. intros ->.
          apply R in Hw as (v' & Hv' & Hg'). congruence. }
      rewrite (rel_groups r a R). split.
      * intros [(v' & Hv' & Hg') Hne]. exists v'. by rewrite lookup_delete_ne.
      * intros (v' & [Hne Hv']%lookup_delete_Some & Hg'). naive_solver.
    + intros g Y. destruct (decide (X ∖ {[u]} = ∅)) as [He|He].
      * intros [_ HY]%lookup_delete_Some. by eapply R.
      * destruct (decide (g = a_group av)) as [->|Hg]; [rewrite lookup_insert; congruence|].
        rewrite lookup_insert_ne by done. apply R.
  - split; cbn [a_views a_tracks a_obs a_next_view a_next_track a_next_group a_next_ptr]; try apply W.
    + intros u' t [f Hf']. rewrite Hobs in Hf'. destruct (decide (u' = u)) as [|Hne]; [done|].
      destruct (wf_obs a W u' t (mk_is_Some _ _ Hf')) as [? Ht].
      rewrite lookup_delete_ne by done. split; [done|].
      rewrite Htr. rewrite decide_False; [done|]. intros Heq.
      assert (u' ∈ observers a t) by (by apply elem_of_observers). set_solver.
    + intros u' [x Hx]. apply lookup_delete_Some in Hx as [? Hx]. eapply W; eauto.
    + intros t [x Hx]. rewrite Htr in Hx. destruct (decide _); [done|]. eapply W; eauto.
    + intros w w' x x' [_ Hx]%lookup_delete_Some [_ Hx']%lookup_delete_Some. by eapply W.
    + intros w x [_ Hx]%lookup_delete_Some. by eapply W.
    + intros w x [_ Hx]%lookup_delete_Some. by eapply W.
    + intros w w' x x' [_ Hx]%lookup_delete_Some [_ Hx']%lookup_delete_Some. by eapply W.
Qed.

(** *** Tracks *)

Lemma fresh_track r a : rel r a -> wf a ->
  rc_tracks r !! rc_next_track r = None /\ a_tracks a !! a_next_track a = None /\
  forall u, a_obs a !! (u, a_next_track a) = None.
Proof.
  intros R W. assert (Ha : a_tracks a !! a_next_track a = None).
  { destruct (a_tracks a !! a_next_track a) eqn:E; [|done].
    pose proof (wf_track a W _ (mk_is_Some _ _ E)). lia. }
  split; [|split; [done|]].
  - rewrite (rel_next_track r a R). by apply (rel_track_None r a).
  - intros u. destruct (a_obs a !! (u, a_next_track a)) eqn:E; [|done].
    destruct (wf_obs a W _ _ (mk_is_Some _ _ E)) as [_ [? ?]]. congruence.
Qed.

Lemma add_empty_track_refines r a :
  rel r a -> wf a -> (a_next_track a + 1 < 2 ^ 32)%N ->
  exists r', rc_add_empty_track d0 r = Ok (r', (spec_add_empty_track d0 a).2) /\
    rel r' (spec_add_empty_track d0 a).1 /\ wf (spec_add_empty_track d0 a).1.
Proof.
  intros R W Hb. destruct (fresh_track r a R W) as (Hr & Ha & Ho).
  unfold rc_add_empty_track, spec_add_empty_track. rewrite Hr.
  pose proof (rel_next_track r a R) as En. rewrite En.
  rewrite wrap32_small by done. eexists. split; [done|]. cbn [fst snd]. split.
  - split; cbn [rc_views rc_tracks rc_names rc_view_group rc_groups rc_next_view rc_next_track
      rc_next_group rc_next_ptr a_views a_tracks a_obs a_next_view a_next_track a_next_group
      a_next_ptr]; try apply R; try done.
    intros t. destruct (decide (t = a_next_track a)) as [->|Ht]; simplify_map_eq; [|apply R].
    constructor. split; [done|]. split; [done|]. intros u. cbn [a_obs t_views].
    rewrite Ho. split; [by intros ?%elem_of_empty|by intros [? ?]].
  - split; cbn [a_views a_tracks a_obs a_next_view a_next_track a_next_group a_next_ptr]; try apply W.
    + intros u t H. destruct (wf_obs a W u t H) as [Hu Ht]. split; [done|].
      destruct (decide (t = a_next_track a)) as [->|]; simplify_map_eq; eauto.
    + intros t [x Hx]. destruct (decide (t = a_next_track a)) as [->|]; [lia|]. simplify_map_eq.
      pose proof (wf_track a W t (mk_is_Some _ _ Hx)). lia.
Qed.

Lemma add_observation_refines r a u t f :
  rel r a -> wf a ->
  match rc_add_observation r u t f, spec_add_observation a u t f with
  | Ok (r', b), Ok (a', b') => b = b' /\ rel r' a' /\ wf a'
  | CheckFail, CheckFail => True
  | _, _ => False
  end.
Proof.
  intros R W. unfold rc_add_observation, spec_add_observation.
  destruct (rc_views r !! u) as [v|] eqn:Ev; cbn [or_die mbind outcome_bind].
  2:{ apply (rel_view_None r a) in Ev; [|done]. rewrite decide_False; [done|].
      intros [[? ?] _]. congruence. }
  destruct (rc_tracks r !! t) as [T|] eqn:ET; cbn [or_die mbind outcome_bind].
  2:{ apply (rel_track_None r a) in ET; [|done]. rewrite decide_False; [done|].
      intros [_ [? ?]]. congruence. }
  destruct (rel_view_Some r a u v R Ev) as (av & Hav & Hn & He & Hp & Hd & Hf).
  destruct (rel_track_Some r a t T R ET) as (aT & HaT & Hte & Htd & HTv).
  rewrite (decide_True (P := is_Some (a_views a !! u) /\ is_Some (a_tracks a !! t))) by eauto. rewrite Hf.
  destruct (a_obs a !! (u, t)) as [f'|] eqn:Eo; [done|].
  rewrite decide_False by (rewrite HTv, Eo; by intros [? ?]).
  split; [done|].
  assert (Hobs : forall u' t', <[(u, t) := f]> (a_obs a) !! (u', t') =
    if decide (u' = u /\ t' = t) then Some f else a_obs a !! (u', t')).
  { intros u' t'. destruct (decide _) as [[-> ->]|Hne]; [by rewrite lookup_insert|].
    rewrite lookup_insert_ne; [done|]. intros [= -> ->]. by apply Hne. }
  split.
  - split; cbn [set_views set_tracks rc_views rc_tracks rc_names rc_view_group rc_groups rc_next_view
      rc_next_track rc_next_group rc_next_ptr a_views a_tracks a_obs a_next_view a_next_track
      a_next_group a_next_ptr]; try apply R; try done.
    + intros u'. destruct (decide (u' = u)) as [->|Hu].
      * rewrite lookup_insert, Hav. constructor. repeat split; try done; cbn [a_obs add_feature v_feats].
        intros t'. rewrite Hobs. destruct (decide (t' = t)) as [->|Ht].
        -- rewrite decide_True by done. by rewrite lookup_insert.
        -- rewrite decide_False by naive_solver. by rewrite lookup_insert_ne.
      * rewrite lookup_insert_ne by done. pose proof (rel_views r a R u') as HT'.
        inversion HT' as [v' av' Hok E1 E2|]; [|constructor]. constructor.
        destruct Hok as (H1 & H2 & H3 & H4 & H5). repeat split; try done; cbn [a_obs].
        intros t'. rewrite Hobs. by rewrite decide_False by naive_solver.
    + intros t'. destruct (decide (t' = t)) as [->|Ht].
      * rewrite lookup_insert, HaT. constructor. repeat split; try done; cbn [a_obs t_views];
          rewrite Hobs; destruct (decide (u0 = u)) as [->|Hu].
        -- intros _. rewrite decide_True by done. eauto.
        -- rewrite decide_False by naive_solver. intros Hx. apply HTv. set_solver.
        -- set_solver.
        -- rewrite decide_False by naive_solver. intros Hx%HTv. set_solver.
      * rewrite lookup_insert_ne by done. pose proof (rel_tracks r a R t') as HT'.
        inversion HT' as [T' aT' Hok E1 E2|]; [|constructor]. constructor.
        destruct Hok as (H1 & H2 & H3). repeat split; try done; cbn [a_obs]; rewrite Hobs;
          rewrite decide_False by naive_solver; apply H3.
  - split; cbn [a_views a_tracks a_obs a_next_view a_next_track a_next_group a_next_ptr]; try apply W.
    intros u' t'. rewrite Hobs. destruct (decide _) as [[-> ->]|]; [eauto|]. apply W.
Qed.

(** The duplicate test by sorting is the right one. *)
Lemma adjacent_dup_sorted l : Sorted N.le l -> adjacent_dup l = false <-> NoDup l.
Proof.
  intros Hs. apply Sorted_StronglySorted in Hs; [|intros ? ? ?; lia].
  induction Hs as [|x l Hs IH Hx]; [split; [constructor|done]|].
  destruct l as [|y l]; [split; [intros _; apply NoDup_singleton|done]|].
  cbn [adjacent_dup]. rewrite orb_false_iff, IH, bool_decide_eq_false, (NoDup_cons x). split.
  - intros [Hne Hnd]. split; [|done]. intros [->|Hin]%elem_of_cons; [done|].
    apply Forall_cons in Hx as [Hxy _]. inversion Hs as [|? ? ? Hy]; subst.
    rewrite Forall_forall in Hy. specialize (Hy x Hin). lia.
  - intros [Hnin Hnd]. split; [|done]. set_solver.
Qed.

Lemma duplicate_views_spec (obs : list (N * F)) :
  duplicate_views obs = false <-> NoDup obs.*1.
Proof.
  unfold duplicate_views. rewrite adjacent_dup_sorted.
  - by rewrite (merge_sort_Permutation N.le).
  - apply Sorted_merge_sort. intros ? ?; lia.
Qed.

Lemma add_track_loop_eq t (obs : list (N * F)) : forall r X, NoDup obs.*1 ->
  (Forall (fun u => is_Some (rc_views r !! u)) obs.*1 ->
     exists m, add_track_loop r t X obs = Ok (set_views r m, list_to_set obs.*1 ∪ X) /\
       (forall u f, (u, f) ∈ obs -> m !! u = (fun v => add_feature v t f) <$> rc_views r !! u) /\
       (forall u, u ∉ obs.*1 -> m !! u = rc_views r !! u)) /\
  (~ Forall (fun u => is_Some (rc_views r !! u)) obs.*1 -> add_track_loop r t X obs = CheckFail).
Proof.
  induction obs as [|[w f] obs IH]; intros r X Hnd; cbn [add_track_loop].
  { split; [|intros H; exfalso; apply H; constructor]. intros _. exists (rc_views r). split.
    - f_equal. f_equal; [by destruct r|set_solver].
    - split; [intros u g H; by apply elem_of_nil in H|done]. }
  rewrite fmap_cons in Hnd. cbn [fst] in Hnd. apply NoDup_cons in Hnd as [Hw Hnd].
  rewrite fmap_cons. cbn [fst].
  destruct (rc_views r !! w) as [v|] eqn:Ev; cbn [or_die mbind outcome_bind].
  2:{ split; [|done]. intros [[? ?] _]%Forall_cons. congruence. }
  destruct (IH (set_views r (<[w := add_feature v t f]> (rc_views r))) ({[w]} ∪ X) Hnd) as [IH1 IH2].
  assert (Heq : Forall (fun u => is_Some (rc_views (set_views r (<[w := add_feature v t f]> (rc_views r)))
    !! u)) obs.*1 <-> Forall (fun u => is_Some (rc_views r !! u)) obs.*1).
  { rewrite !Forall_forall. cbn [set_views rc_views]. split; intros H u Hu; specialize (H u Hu).
    - by rewrite lookup_insert_ne in H by set_solver.
    - by rewrite lookup_insert_ne by set_solver. }
  split.
  - intros [_ Hall]%Forall_cons. destruct (IH1 (proj2 Heq Hall)) as (m & Hm & H1 & H2).
    exists m. rewrite Hm. cbn [set_views rc_views rc_next_track rc_next_view rc_next_group rc_names
      rc_tracks rc_view_group rc_groups rc_next_ptr] in *. split; [|split].
    + f_equal. f_equal. cbn [list_to_set]. set_solver.
    + intros u g [[= -> ->]|Hin]%elem_of_cons.
      * rewrite H2 by done. by rewrite lookup_insert, Ev.
      * rewrite (H1 _ _ Hin). rewrite lookup_insert_ne; [done|]. intros ->. apply Hw.
        apply elem_of_list_fmap. exists (u, g). done.
    + intros u Hu. rewrite H2 by set_solver. rewrite lookup_insert_ne by set_solver. done.
  - intros Hall. apply IH2. intros H. apply Hall. apply Forall_cons. split; [eauto|]. by apply Heq.
Qed.

Lemma add_track_refines r a obs :
  rel r a -> wf a -> (a_next_track a + 1 < 2 ^ 32)%N ->
  match rc_add_track d0 r obs, spec_add_track d0 a obs with
  | Ok (r', b), Ok (a', b') => b = b' /\ rel r' a' /\ wf a'
  | CheckFail, CheckFail => True
  | _, _ => False
  end.
Proof.
  intros R W Hb. destruct (fresh_track r a R W) as (Hr & Ha & Ho).
  unfold rc_add_track, spec_add_track.
  destruct (decide (length obs < 2)%nat) as [Hl|Hl].
  { rewrite decide_True by (by left). done. }
  destruct (duplicate_views obs) eqn:Ed.
  { rewrite decide_True; [done|]. right. rewrite <- duplicate_views_spec. congruence. }
  apply duplicate_views_spec in Ed. rewrite decide_False by (intros [?|?]; done).
  rewrite Hr. pose proof (rel_next_track r a R) as En. rewrite En.
  destruct (add_track_loop_eq (a_next_track a) obs r ∅ Ed) as [H1 H2].
  assert (Hall : Forall (fun u => is_Some (rc_views r !! u)) obs.*1 <->
    Forall (fun u => is_Some (a_views a !! u)) obs.*1).
  { rewrite !Forall_forall. split; intros H u Hu; destruct (H u Hu) as [v Hv].
    - destruct (rel_view_Some r a u v R Hv) as (? & ? & _). eauto.
    - destruct (rel_view_Some' r a u v R Hv) as (? & ? & _). eauto. }
  destruct (decide (Forall _ _)) as [Hf|Hf].
  2:{ rewrite H2; [done|]. by rewrite Hall. }
  destruct (H1 (proj2 Hall Hf)) as (m & -> & Hm1 & Hm2). cbn [mbind outcome_bind].
  rewrite wrap32_small by done. split; [done|].
  cbn [set_views set_tracks rc_views rc_tracks rc_names rc_view_group rc_groups rc_next_view
      rc_next_track rc_next_group rc_next_ptr].
  set (M := list_to_map ((fun uf => ((uf.1, a_next_track a), uf.2)) <$> obs) : gmap (N * N) F).
  assert (HM : forall u t', (M ∪ a_obs a) !! (u, t') =
    if decide (t' = a_next_track a) then (list_to_map obs : gmap N F) !! u else a_obs a !! (u, t')).
  { intros u t'. destruct (decide (t' = a_next_track a)) as [->|Ht].
    - rewrite lookup_union_l by done. unfold M. clear.
      induction obs as [|[w f] obs IH]; [done|]. rewrite fmap_cons, !list_to_map_cons. cbn [fst snd].
      destruct (decide (u = w)) as [->|Hne]; [by rewrite !lookup_insert|].
      rewrite !lookup_insert_ne by congruence. done.
    - rewrite lookup_union_r; [done|]. unfold M. apply not_elem_of_list_to_map_1.
      intros ([[u0 t0] f] & Heq & ([w g] & Heq' & _)%elem_of_list_fmap)%elem_of_list_fmap.
      simpl in *. congruence. }
  assert (Hlk : forall u, is_Some ((list_to_map obs : gmap N F) !! u) <-> u ∈ obs.*1).
  { intros u. split.
    - intros [f Hf'%elem_of_list_to_map_2]. apply elem_of_list_fmap. by exists (u, f).
    - intros ([u' f] & -> & Hin)%elem_of_list_fmap. exists f. by apply elem_of_list_to_map_1. }
  split.
  - split; cbn [set_views set_tracks rc_views rc_tracks rc_names rc_view_group rc_groups rc_next_view
      rc_next_track rc_next_group rc_next_ptr a_views a_tracks a_obs a_next_view a_next_track
      a_next_group a_next_ptr]; try apply R; try done.
    + intros u. pose proof (rel_views r a R u) as Hu.
      destruct (decide (u ∈ obs.*1)) as [Hi|Hi].
      * apply elem_of_list_fmap in Hi as ([u' f] & -> & Hi). cbn [fst] in *.
        rewrite (Hm1 _ _ Hi). inversion Hu as [v' av' Hok E1 E2|]; [|constructor]. constructor.
        destruct Hok as (G1 & G2 & G3 & G4 & G5). repeat split; try done; cbn [a_obs add_feature v_feats].
        intros t'. rewrite HM. destruct (decide (t' = a_next_track a)) as [->|Ht].
        -- rewrite lookup_insert. symmetry. by apply elem_of_list_to_map_1.
        -- by rewrite lookup_insert_ne.
      * rewrite Hm2 by done. inversion Hu as [v' av' Hok E1 E2|]; [|constructor]. constructor.
        destruct Hok as (G1 & G2 & G3 & G4 & G5). repeat split; try done; cbn [a_obs].
        intros t'. rewrite HM. destruct (decide (t' = a_next_track a)) as [->|Ht]; [|done].
        rewrite G5, Ho. symmetry. apply eq_None_not_Some. by rewrite Hlk.
    + intros t. destruct (decide (t = a_next_track a)) as [->|Ht].
      * rewrite !lookup_insert. constructor. split; [done|]. split; [done|].
        intros u. cbn [a_obs t_views]. rewrite HM, decide_True by done. rewrite Hlk. set_solver.
      * rewrite !lookup_insert_ne by done. pose proof (rel_tracks r a R t) as HT.
        inversion HT as [T' aT' Hok E1 E2|]; [|constructor]. constructor.
        destruct Hok as (G1 & G2 & G3). split; [done|]. split; [done|].
        intros u. cbn [a_obs]. rewrite HM, decide_False by done. apply G3.
  - split; cbn [a_views a_tracks a_obs a_next_view a_next_track a_next_group a_next_ptr]; try apply W.
    + intros u t. rewrite HM. destruct (decide (t = a_next_track a)) as [->|Ht].
      * rewrite Hlk, lookup_insert. intros Hu. rewrite Forall_forall in Hf. eauto.
      * rewrite lookup_insert_ne by done. apply W.
    + intros t [x Hx]. destruct (decide (t = a_next_track a)) as [->|]; [lia|]. simplify_map_eq.
      pose proof (wf_track a W t (mk_is_Some _ _ Hx)). lia.
Qed.

(** *** Setters *)

Lemma set_view_refines r a u e c : rel r a -> wf a ->
  rel (rc_set_view r u e c) (spec_set_view a u e c) /\ wf (spec_set_view a u e c).
Proof.
  intros R W. unfold rc_set_view, spec_set_view. split.
  - split; cbn [set_views set_tracks rc_views rc_tracks rc_names rc_view_group rc_groups rc_next_view
      rc_next_track rc_next_group rc_next_ptr a_views a_tracks a_obs a_next_view a_next_track
      a_next_group a_next_ptr]; try apply R; try done.
    + intros w. pose proof (rel_views r a R w) as Hw.
      destruct (decide (w = u)) as [->|Hne].
      * rewrite !lookup_alter. inversion Hw as [v' av' Hok E1 E2|]; [|constructor]. constructor.
        destruct Hok as (G1 & G2 & G3 & G4 & G5). repeat split; done.
      * by rewrite !lookup_alter_ne.
    + intros n w. rewrite (rel_names r a R). split; intros (v & Hv & Hn).
      * destruct (decide (w = u)) as [->|Hne].
        -- eexists. by rewrite lookup_alter, Hv.
        -- exists v. by rewrite lookup_alter_ne.
      * destruct (decide (w = u)) as [->|Hne].
        -- rewrite lookup_alter in Hv. apply fmap_Some in Hv as (v' & Hv' & ->). eauto.
        -- rewrite lookup_alter_ne in Hv by done. eauto.
    + intros w. rewrite (rel_vgroup r a R). destruct (decide (w = u)) as [->|Hne].
      * rewrite lookup_alter. by destruct (a_views a !! u).
      * by rewrite lookup_alter_ne.
    + intros g w. rewrite (rel_groups r a R). split; intros (v & Hv & Hn).
      * destruct (decide (w = u)) as [->|Hne].
        -- eexists. by rewrite lookup_alter, Hv.
        -- exists v. by rewrite lookup_alter_ne.
      * destruct (decide (w = u)) as [->|Hne].
        -- rewrite lookup_alter in Hv. apply fmap_Some in Hv as (v' & Hv' & ->). eauto.
        -- rewrite lookup_alter_ne in Hv by done. eauto.
  - assert (K : forall w v, alter (fun v => AView (a_name v) (a_group v) e (a_intr v) c) u (a_views a) !! w
      = Some v -> exists v', a_views a !! w = Some v' /\ a_name v = a_name v' /\ a_group v = a_group v' /\
        a_intr v = a_intr v').
    { intros w v Hv. destruct (decide (w = u)) as [->|Hne].
      - rewrite lookup_alter in Hv. apply fmap_Some in Hv as (v' & Hv' & ->). eauto.
      - rewrite lookup_alter_ne in Hv by done. eauto. }
    split; cbn [a_views a_tracks a_obs a_next_view a_next_track a_next_group a_next_ptr]; try apply W.
    + intros w t H. destruct (wf_obs a W w t H). split; [|done]. by rewrite lookup_alter_is_Some.
    + intros w. rewrite lookup_alter_is_Some. apply W.
    + intros w w' v v' (x & Hx & -> & _)%K (x' & Hx' & -> & _)%K. by eapply W.
    + intros w v (x & Hx & -> & _)%K. by eapply W.
    + intros w v (x & Hx & _ & _ & ->)%K. by eapply W.
    + intros w w' v v' (x & Hx & _ & -> & ->)%K (x' & Hx' & _ & -> & ->)%K. by eapply W.
Qed.

Lemma set_track_refines r a t e d : rel r a -> wf a ->
  rel (rc_set_track r t e d) (spec_set_track a t e d) /\ wf (spec_set_track a t e d).
Proof.
  intros R W. unfold rc_set_track, spec_set_track. split.
  - split; cbn [set_views set_tracks rc_views rc_tracks rc_names rc_view_group rc_groups rc_next_view
      rc_next_track rc_next_group rc_next_ptr a_views a_tracks a_obs a_next_view a_next_track
      a_next_group a_next_ptr]; try apply R; try done.
    intros w. pose proof (rel_tracks r a R w) as Hw.
    destruct (decide (w = t)) as [->|Hne].
    * rewrite !lookup_alter. inversion Hw as [v' av' Hok E1 E2|]; [|constructor]. constructor.
      destruct Hok as (G1 & G2 & G3). repeat split; try done; apply G3.
    * by rewrite !lookup_alter_ne.
  - split; cbn [a_views a_tracks a_obs a_next_view a_next_track a_next_group a_next_ptr]; try apply W.
    + intros w t' H. destruct (wf_obs a W w t' H). split; [done|]. by rewrite lookup_alter_is_Some.
    + intros w. rewrite lookup_alter_is_Some. apply W.
Qed.

(** *** The whole machine *)

Lemma step_refines r a op (n : N) :
  rel r a -> wf a -> (a_next_view a <= n)%N -> (a_next_track a <= n)%N -> (n + 1 < 2 ^ 32)%N ->
  match rc_step c0 d0 r op, spec_step c0 d0 a op with
  | Ok (r', b), Ok (a', b') => b = b' /\ rel r' a' /\ wf a' /\
      (a_next_view a' <= n + 1)%N /\ (a_next_track a' <= n + 1)%N
  | CheckFail, CheckFail => True
  | _, _ => False
  end.
Proof.
  intros R W Hv Ht Hb.
  destruct op as [o nm|o nm g|o u| |obs|u t f|o t|u e c|t e d]; unfold rc_step, spec_step.
  - unfold rc_add_view.
    destruct (add_view_group_refines o r a nm (rc_next_group r) R W) as (r' & -> & R' & W'); [lia|].
    rewrite (rel_next_group r a R) in *.
    assert (a_next_view (spec_add_view c0 a nm (a_next_group a)).1 <= n + 1 /\
      a_next_track (spec_add_view c0 a nm (a_next_group a)).1 <= n + 1)%N as [? ?].
    { unfold spec_add_view. destruct (decide _); simpl; lia. }
    destruct (spec_add_view _ _ _ _) as [a' id]. cbn [mbind outcome_bind fst snd] in *.
    split; [done|]. split; [|split; [|done]].
    + destruct R'. split; cbn; try done. congruence.
    + destruct W'. by split.
  - destruct (add_view_group_refines o r a nm g R W) as (r' & -> & R' & W'); [lia|].
    assert (a_next_view (spec_add_view c0 a nm g).1 <= n + 1 /\
      a_next_track (spec_add_view c0 a nm g).1 <= n + 1)%N as [? ?].
    { unfold spec_add_view. destruct (decide _); simpl; lia. }
    destruct (spec_add_view _ _ _ _) as [a' id]. cbn [mbind outcome_bind fst snd] in *. done.
  - destruct (remove_view_refines o r a u R W) as (r' & -> & R' & W').
    assert (a_next_view (spec_remove_view a u).1 <= n + 1 /\
      a_next_track (spec_remove_view a u).1 <= n + 1)%N as [? ?].
    { unfold spec_remove_view. destruct (decide _); simpl; lia. }
    destruct (spec_remove_view _ _) as [a' id]. cbn [mbind outcome_bind fst snd] in *. done.
  - destruct (add_empty_track_refines r a R W) as (r' & -> & R' & W'); [lia|].
    cbn [mbind outcome_bind fst snd spec_add_empty_track a_next_view a_next_track] in *.
    do 3 (split; [done|]). lia.
  - pose proof (add_track_refines r a obs R W ltac:(lia)) as H.
    assert (forall a' b', spec_add_track d0 a obs = Ok (a', b') ->
       (a_next_view a' <= n + 1)%N /\ (a_next_track a' <= n + 1)%N) as K.
    { intros a' b'. unfold spec_add_track. repeat (destruct (decide _)); try done;
        intros [= <- <-]; simpl; lia. }
    destruct (rc_add_track d0 r obs) as [[r' b]| | |], (spec_add_track d0 a obs) as [[a' b']| | |];
      try done; cbn [mbind outcome_bind]. destruct H as (-> & ? & ?). destruct (K a' b' eq_refl). done.
  - pose proof (add_observation_refines r a u t f R W) as H.
    assert (forall a' b', spec_add_observation a u t f = Ok (a', b') ->
       (a_next_view a' <= n + 1)%N /\ (a_next_track a' <= n + 1)%N) as K.
    { intros a' b'. unfold spec_add_observation.
      destruct (decide _); [|done]. destruct (a_obs a !! (u, t)); intros [= <- <-]; simpl; lia. }
    destruct (rc_add_observation r u t f) as [[r' b]| | |],
      (spec_add_observation a u t f) as [[a' b']| | |];
      try done; cbn [mbind outcome_bind]. destruct H as (-> & ? & ?). destruct (K a' b' eq_refl). done.
  - destruct (remove_track_refines o r a t R W) as (r' & -> & R' & W').
    assert (a_next_view (spec_remove_track a t).1 <= n + 1 /\
      a_next_track (spec_remove_track a t).1 <= n + 1)%N as [? ?].
    { unfold spec_remove_track. destruct (decide _); simpl; lia. }
    destruct (spec_remove_track _ _) as [a' id]. cbn [mbind outcome_bind fst snd] in *. done.
  - destruct (set_view_refines r a u e c R W) as [? ?]. do 3 (split; [done|]).
    cbn [spec_set_view a_next_view a_next_track]. lia.
  - destruct (set_track_refines r a t e d R W) as [? ?]. do 3 (split; [done|]).
    cbn [spec_set_track a_next_view a_next_track]. lia.
Qed.

Lemma run_refines ops : forall r a (n : N),
  rel r a -> wf a -> (a_next_view a <= n)%N -> (a_next_track a <= n)%N ->
  (n + N.of_nat (length ops) < 2 ^ 32)%N ->
  match run_obs (rc_step c0 d0) r ops, run_obs (spec_step c0 d0) a ops with
  | Ok (r', b), Ok (a', b') => b = b' /\ rel r' a' /\ wf a' /\
      (a_next_view a' <= n + N.of_nat (length ops))%N /\
      (a_next_track a' <= n + N.of_nat (length ops))%N
  | CheckFail, CheckFail => True
  | _, _ => False
  end.
Proof.
  induction ops as [|op ops IH]; intros r a n R W Hv Ht Hb; cbn [run_obs].
  { simpl. rewrite N.add_0_r. done. }
  cbn [length] in Hb. rewrite Nat2N.inj_succ in Hb.
  pose proof (step_refines r a op n R W Hv Ht ltac:(lia)) as H.
  destruct (rc_step c0 d0 r op) as [[r1 b1]| | |], (spec_step c0 d0 a op) as [[a1 b1']| | |];
    try done; cbn [mbind outcome_bind].
  destruct H as (-> & R1 & W1 & Hv1 & Ht1).
  specialize (IH r1 a1 (n + 1)%N R1 W1 Hv1 Ht1 ltac:(lia)).
  destruct (run_obs (rc_step c0 d0) r1 ops) as [[r2 b2]| | |],
    (run_obs (spec_step c0 d0) a1 ops) as [[a2 b2']| | |]; try done; cbn [mbind outcome_bind].
  destruct IH as (-> & R2 & W2 & ? & ?). split; [done|]. do 2 (split; [done|]).
  cbn [length]. lia.
Qed.

Lemma rel_shows r a : rel r a -> shows r a.
Proof.
  intros R. split; [|split; [|split; [|split; [|split; [|split; [|split; [|split]]]]]]].
  - intros u. pose proof (rel_views r a R u) as H. inversion H as [v av Hok E1 E2|]; [|done].
    destruct Hok as (H1 & H2 & H3 & H4 & H5). simpl. congruence.
  - intros u v t Hv. destruct (rel_view_Some r a u v R Hv) as (av & _ & _ & _ & _ & _ & H). done.
  - intros u. pose proof (rel_tracks r a R u) as H. inversion H as [v av Hok E1 E2|]; [|done].
    destruct Hok as (H1 & H2 & H3). simpl. congruence.
  - intros t T HT. destruct (rel_track_Some r a t T R HT) as (aT & _ & _ & _ & H).
    apply set_eq. intros u. by rewrite H, elem_of_observers.
  - intros n. by apply rel_name_None.
  - apply R.
  - apply R.
  - intros g X. split.
    + intros HX. split; [|by eapply R]. apply set_eq. intros u. rewrite elem_of_members.
      rewrite <- (rel_groups r a R). by rewrite lookup_total_alt, HX.
    + intros [-> Hne]. apply set_choose_L in Hne as [u Hu]. apply elem_of_members in Hu as Hu'.
      apply (rel_groups r a R) in Hu' as Hg. rewrite lookup_total_alt in Hg.
      destruct (rc_groups r !! g) as [X|] eqn:E; [|simpl in Hg; set_solver]. f_equal.
      apply set_eq. intros w. rewrite elem_of_members.
      rewrite <- (rel_groups r a R). by rewrite lookup_total_alt, E.
  - apply R.
Qed.

(** *** GetSubReconstruction *)

Record sub_inv r (P : gset N) (sub : recon F C D) (ts : gset N) : Prop := {
  si_views : forall u, rc_views sub !! u = if decide (u ∈ P) then rc_views r !! u else None;
  si_names : forall n u, rc_names sub !! n = Some u <->
    u ∈ P /\ exists v, rc_views r !! u = Some v /\ v_name v = n;
  si_vgroup : forall u, rc_view_group sub !! u = if decide (u ∈ P) then rc_view_group r !! u else None;
  si_groups : forall g u, u ∈ rc_groups sub !!! g <-> u ∈ P /\ rc_view_group r !! u = Some g;
  si_groups_ne : forall g X, rc_groups sub !! g = Some X -> X ≠ ∅;
  si_ts : forall t, t ∈ ts <-> exists u v, u ∈ P /\ rc_views r !! u = Some v /\ is_Some (v_feats v !! t);
  si_tracks : rc_tracks sub = ∅;
  si_next_view : rc_next_view sub = rc_next_view r;
  si_next_track : rc_next_track sub = rc_next_track r;
  si_next_group : rc_next_group sub = rc_next_group r;
  si_next_ptr : rc_next_ptr sub = rc_next_ptr r }.

Lemma sub_view_loop r a : rel r a -> wf a -> forall l P sub ts, sub_inv r P sub ts ->
  exists sub' ts', run_steps (sub_view_step r) (sub, ts) l = Ok (sub', ts') /\
    sub_inv r (list_to_set l ∪ P) sub' ts'.
Proof.
  intros R W. induction l as [|w l IH]; intros P sub ts I; cbn [run_steps].
  { exists sub, ts. split; [done|]. by replace (list_to_set [] ∪ P) with P by set_solver. }
  assert (HP : forall X : gset N, X = {[w]} ∪ P -> list_to_set (w :: l) ∪ P = list_to_set l ∪ X)
    by (intros X ->; cbn [list_to_set]; set_solver).
  rewrite (HP _ eq_refl). clear HP.
  unfold_in_term (@sub_view_step) (sub_view_step r (sub, ts) w). cbv beta iota. destruct (rc_views r !! w) as [v|] eqn:Ev.
  2:{ cbn [mbind outcome_bind]. apply IH.
      assert (Hg : rc_view_group r !! w = None).
      { rewrite (rel_vgroup r a R). apply (rel_view_None r a) in Ev; [|done]. by rewrite Ev. }
      destruct I. split; try done.
      - intros u. rewrite si_views0. destruct (decide (u = w)) as [->|Hne].
        + rewrite Ev. by repeat destruct (decide _).
        + by rewrite (decide_ext (u ∈ P) (u ∈ {[w]} ∪ P)) by set_solver.
      - intros n u. rewrite si_names0. destruct (decide (u = w)) as [->|Hne]; [|set_solver].
        split; intros (_ & v & Hv & _); congruence.
      - intros u. rewrite si_vgroup0. destruct (decide (u = w)) as [->|Hne].
        + rewrite Hg. by repeat destruct (decide _).
        + by rewrite (decide_ext (u ∈ P) (u ∈ {[w]} ∪ P)) by set_solver.
      - intros g u. rewrite si_groups0. destruct (decide (u = w)) as [->|Hne]; [|set_solver].
        rewrite Hg. naive_solver.
      - intros t. rewrite si_ts0. split; intros (u & v & Hu & Hv & Ht); exists u, v;
          (split; [|done]); [set_solver|]. apply elem_of_union in Hu as [Hu|]; [|done].
        apply elem_of_singleton in Hu as ->. congruence. }
  destruct (rel_view_Some r a w v R Ev) as (av & Hav & Hok).
  assert (Hg : rc_view_group r !! w = Some (a_group av)) by by rewrite (rel_vgroup r a R), Hav.
  rewrite Hg. cbn [or_die mbind outcome_bind]. apply IH.
  destruct I. split; cbn [rc_views rc_tracks rc_names rc_view_group rc_groups rc_next_view
      rc_next_track rc_next_group rc_next_ptr]; try done.
  - intros u. destruct (decide (u = w)) as [->|Hne].
    + rewrite lookup_insert, Ev. by rewrite decide_True by set_solver.
    + rewrite lookup_insert_ne, si_views0 by done.
      by rewrite (decide_ext (u ∈ P) (u ∈ {[w]} ∪ P)) by set_solver.
  - intros n u. destruct (decide (n = v_name v)) as [->|Hn].
    + rewrite lookup_insert. split.
      * intros [= <-]. split; [set_solver|]. eauto.
      * intros (_ & v' & Hv' & Hn'). f_equal.
        destruct (rel_view_Some r a u v' R Hv') as (av' & Hav' & Hok').
        eapply (wf_names a W); [done..|]. destruct Hok as [<- _], Hok' as [<- _]. done.
    + rewrite lookup_insert_ne, si_names0 by done.
      destruct (decide (u = w)) as [->|Hne]; [|set_solver].
      split; intros (_ & v' & Hv' & Hn'); congruence.
  - intros u. destruct (decide (u = w)) as [->|Hne].
    + rewrite lookup_insert. by rewrite decide_True by set_solver.
    + rewrite lookup_insert_ne, si_vgroup0 by done.
      by rewrite (decide_ext (u ∈ P) (u ∈ {[w]} ∪ P)) by set_solver.
  - intros g u. destruct (decide (g = a_group av)) as [->|Hne].
    + rewrite lookup_total_insert, elem_of_union, si_groups0, elem_of_singleton.
      destruct (decide (u = w)) as [->|]; [|set_solver]. rewrite Hg. set_solver.
    + rewrite lookup_total_insert_ne, si_groups0 by done.
      destruct (decide (u = w)) as [->|]; [|set_solver]. rewrite Hg. naive_solver.
  - intros g X. destruct (decide (g = a_group av)) as [->|Hne].
    + rewrite lookup_insert. intros [= <-]. set_solver.
    + rewrite lookup_insert_ne by done. apply si_groups_ne0.
  - intros t. rewrite elem_of_union, si_ts0, elem_of_dom. split.
    + intros [(u & v' & Hu & ?)|Ht]; [exists u, v'|exists w, v]; set_solver.
    + intros (u & v' & [->%elem_of_singleton|Hu]%elem_of_union & Hv' & Ht);
        [right|left; eauto]. congruence.
Qed.

Lemma sub_track_loop r (S : gset N) l : forall sub,
  NoDup l -> (forall t, t ∈ l -> rc_tracks sub !! t = None) ->
  exists m, foldl (sub_track_step r S) sub l = set_tracks sub m /\
    forall t, m !! t = if decide (t ∈ l)
                       then (fun T => Track (t_est T) (t_data T) (S ∩ t_views T)) <$> rc_tracks r !! t
                       else rc_tracks sub !! t.
Proof.
  induction l as [|w l IH]; intros sub Hnd Hfresh; cbn [foldl].
  { exists (rc_tracks sub). split; [by destruct sub|]. intros t. by rewrite decide_False by set_solver. }
  apply NoDup_cons in Hnd as [Hw Hnd].
  assert (exists m1, sub_track_step r S sub w = set_tracks sub m1 /\
    m1 !! w = (fun T => Track (t_est T) (t_data T) (S ∩ t_views T)) <$> rc_tracks r !! w /\
    forall t, t ≠ w -> m1 !! t = rc_tracks sub !! t) as (m1 & -> & H1 & H2).
  { unfold sub_track_step. destruct (rc_tracks r !! w) as [T|] eqn:E.
    - eexists. split; [done|]. rewrite emplace_None by (apply Hfresh; set_solver). split.
      + by rewrite lookup_insert.
      + intros t Ht. by rewrite lookup_insert_ne.
    - exists (rc_tracks sub). split; [by destruct sub|]. split; [|done]. simpl. apply Hfresh. set_solver. }
  destruct (IH (set_tracks sub m1) Hnd) as (m & Hm & Hlk).
  { intros t Ht. cbn [set_tracks rc_tracks]. rewrite H2 by set_solver. apply Hfresh. set_solver. }
  exists m. split; [by rewrite Hm|]. intros t. rewrite Hlk. cbn [set_tracks rc_tracks].
  destruct (decide (t = w)) as [->|Hne].
  - rewrite decide_False by done. by rewrite decide_True by set_solver.
  - rewrite H2 by done. by rewrite (decide_ext (t ∈ l) (t ∈ w :: l)) by set_solver.
Qed.

Lemma filter_lookup_if {K A} `{Countable K} (m : gmap K A) (Q : K * A -> Prop)
    `{!forall x, Decision (Q x)} k (P : Prop) `{!Decision P} :
  (forall x, m !! k = Some x -> Q (k, x) <-> P) ->
  filter Q m !! k = if decide P then m !! k else None.
Proof.
  intros H'. destruct (m !! k) as [x|] eqn:E.
  - destruct (decide P) as [HP|HP].
    + apply map_filter_lookup_Some. split; [done|]. by apply (H' x).
    + apply map_filter_lookup_None. right. intros y Hy Hq. apply HP. rewrite E in Hy.
      simplify_eq. by apply (H' y).
  - replace (if decide P then None else None) with (@None A) by (by destruct (decide P)).
    apply map_filter_lookup_None. by left.
Qed.

Lemma rc_sub_rel o r a S : rel r a -> wf a ->
  exists sub, rc_sub o r S rc_empty = Ok sub /\ rel sub (spec_sub a S) /\ wf (spec_sub a S).
Proof.
  intros R W. unfold rc_sub.
  set (sub0 := Recon _ _ _ _ _ _ _ _ _).
  destruct (sub_view_loop r a R W (o (elements S)) ∅ sub0 ∅) as (sub1 & ts & -> & I).
  { unfold sub0. split; cbn [rc_views rc_tracks rc_names rc_view_group rc_groups rc_next_view
      rc_next_track rc_next_group rc_next_ptr rc_empty]; intros *; rewrite ?lookup_empty; try done.
    - set_solver.
    - rewrite lookup_total_alt, lookup_empty. simpl. set_solver.
    - set_solver. }
  cbn [mbind outcome_bind].
  assert (HS : list_to_set (o (elements S)) ∪ ∅ = S).
  { apply set_eq. intros u. rewrite elem_of_union, elem_of_list_to_set, (ord_perm o), elem_of_elements.
    set_solver. }
  rewrite HS in I.
  destruct (sub_track_loop r S (o (elements ts)) sub1) as (m & -> & Hm).
  { rewrite (ord_perm o). apply NoDup_elements. }
  { intros t _. by rewrite (si_tracks r S sub1 ts I), lookup_empty. }
  eexists. split; [done|].
  assert (Hv : forall u, a_views (spec_sub a S) !! u = if decide (u ∈ S) then a_views a !! u else None).
  { intros u. cbn [spec_sub a_views]. by apply filter_lookup_if. }
  assert (Ho : forall u t, a_obs (spec_sub a S) !! (u, t) =
    if decide (u ∈ S) then a_obs a !! (u, t) else None).
  { intros u t. cbn [spec_sub a_obs]. by apply filter_lookup_if. }
  assert (Ht : forall t, a_tracks (spec_sub a S) !! t =
    if decide (t ∈ ts) then a_tracks a !! t else None).
  { intros t. cbn [spec_sub a_tracks]. apply filter_lookup_if. intros x _. cbn [fst].
    rewrite (si_ts r S sub1 ts I). split.
    - intros [u Hu]%set_choose_L. apply elem_of_intersection in Hu as [Hob HuS].
      apply elem_of_observers in Hob. destruct (wf_obs a W u t Hob) as [[av Hav] _].
      destruct (rel_view_Some' r a u av R Hav) as (v & Hv' & Hok). exists u, v.
      destruct Hok as (_ & _ & _ & _ & ->). done.
    - intros (u & v & HuS & Hv' & Hf). destruct (rel_view_Some r a u v R Hv') as (av & _ & Hok).
      destruct Hok as (_ & _ & _ & _ & Hf'). rewrite Hf' in Hf.
      assert (u ∈ observers a t) by by apply elem_of_observers. set_solver. }
  split.
  - split; cbn [set_tracks rc_views rc_tracks rc_names rc_view_group rc_groups rc_next_view
      rc_next_track rc_next_group rc_next_ptr].
    + intros u. rewrite (si_views r S sub1 ts I), Hv. destruct (decide (u ∈ S)); [|constructor].
      pose proof (rel_views r a R u) as Hu. inversion Hu as [v av Hok E1 E2|]; [|constructor].
      constructor. destruct Hok as (G1 & G2 & G3 & G4 & G5). repeat split; try done.
      intros t. rewrite Ho. by rewrite decide_True.
    + intros t. rewrite Hm, Ht.
      rewrite (decide_ext (t ∈ o (elements ts)) (t ∈ ts)) by
        (rewrite (ord_perm o); apply elem_of_elements).
      rewrite (si_tracks r S sub1 ts I), lookup_empty.
      destruct (decide (t ∈ ts)) as [Hts|Hts]; [|constructor].
      pose proof (rel_tracks r a R t) as HT. inversion HT as [T aT Hok E1 E2|]; [|constructor].
      constructor. destruct Hok as (G1 & G2 & G3). split; [done|]. split; [done|].
      intros u. cbn [t_views]. rewrite Ho, elem_of_intersection, G3.
      destruct (decide (u ∈ S)); [naive_solver|]. split; [naive_solver|]. by intros [? ?].
    + intros n u. rewrite (si_names r S sub1 ts I), Hv. split.
      * intros (HuS & v & Hv' & Hn). rewrite decide_True by done.
        destruct (rel_view_Some r a u v R Hv') as (av & Hav & Hok). exists av.
        destruct Hok as [<- _]. done.
      * destruct (decide (u ∈ S)); [|naive_solver]. intros (av & Hav & Hn). split; [done|].
        destruct (rel_view_Some' r a u av R Hav) as (v & Hv' & Hok). exists v.
        destruct Hok as [-> _]. done.
    + intros u. rewrite (si_vgroup r S sub1 ts I), Hv. destruct (decide (u ∈ S)); [|done]. apply R.
    + intros g u. rewrite (si_groups r S sub1 ts I), (rel_vgroup r a R), Hv.
      destruct (decide (u ∈ S)); [|naive_solver]. rewrite fmap_Some. naive_solver.
    + apply I.
    + rewrite (si_next_view r S sub1 ts I). apply R.
    + rewrite (si_next_track r S sub1 ts I). apply R.
    + rewrite (si_next_group r S sub1 ts I). apply R.
    + rewrite (si_next_ptr r S sub1 ts I). apply R.
  - assert (Hv' : forall u v, a_views (spec_sub a S) !! u = Some v -> a_views a !! u = Some v).
    { intros u v. rewrite Hv. by destruct (decide (u ∈ S)). }
    split.
    + intros u t. rewrite Ho. destruct (decide (u ∈ S)) as [HuS|]; [|by intros [? ?]].
      intros Hob. destruct (wf_obs a W u t Hob) as [Hu Ht'].
      rewrite Hv, decide_True by done. split; [done|]. rewrite Ht, decide_True; [done|].
      apply (si_ts r S sub1 ts I). destruct Hu as [av Hav].
      destruct (rel_view_Some' r a u av R Hav) as (v & Hv'' & Hok). exists u, v.
      destruct Hok as (_ & _ & _ & _ & ->). done.
    + intros u [v Hu%Hv']. eapply (wf_view a W); eauto.
    + intros t [T HT]. rewrite Ht in HT. destruct (decide (t ∈ ts)); [|done].
      eapply (wf_track a W); eauto.
    + intros u u' v v' Hu%Hv' Hu'%Hv'. by eapply W.
    + intros u v Hu%Hv'. by eapply W.
    + intros u v Hu%Hv'. by eapply (wf_ptr a W).
    + intros u u' v v' Hu%Hv' Hu'%Hv'. by eapply W.
Qed.

(** *** The estimated part *)

Definition wo_views a (P : gset N) : arecon F C D :=
  ARecon (filter (fun kv => kv.1 ∉ P) (a_views a))
    (filter (fun kt => observers a kt.1 = ∅ \/ ~ observers a kt.1 ⊆ P) (a_tracks a))
    (filter (fun kf => kf.1.1 ∉ P) (a_obs a))
    (a_next_view a) (a_next_track a) (a_next_group a) (a_next_ptr a).
Definition wo_tracks a (Q : gset N) : arecon F C D :=
  ARecon (a_views a)
    (filter (fun kt => kt.1 ∉ Q) (a_tracks a))
    (filter (fun kf => kf.1.2 ∉ Q) (a_obs a))
    (a_next_view a) (a_next_track a) (a_next_group a) (a_next_ptr a).

Lemma wo_views_views a P u : a_views (wo_views a P) !! u =
  if decide (u ∉ P) then a_views a !! u else None.
Proof. cbn [wo_views a_views]. by apply filter_lookup_if. Qed.
Lemma wo_views_obs a P u t : a_obs (wo_views a P) !! (u, t) =
  if decide (u ∉ P) then a_obs a !! (u, t) else None.
Proof. cbn [wo_views a_obs]. by apply filter_lookup_if. Qed.
Lemma wo_views_tracks a P t : a_tracks (wo_views a P) !! t =
  if decide (observers a t = ∅ \/ ~ observers a t ⊆ P) then a_tracks a !! t else None.
Proof. cbn [wo_views a_tracks]. by apply filter_lookup_if. Qed.
Lemma wo_views_observers a P t : observers (wo_views a P) t = observers a t ∖ P.
Proof.
  apply set_eq. intros u. rewrite elem_of_difference, !elem_of_observers, wo_views_obs.
  destruct (decide (u ∉ P)); [naive_solver|]. split; [by intros [? ?]|naive_solver].
Qed.

Lemma arecon_eq a b :
  (forall u, a_views a !! u = a_views b !! u) -> (forall t, a_tracks a !! t = a_tracks b !! t) ->
  (forall u t, a_obs a !! (u, t) = a_obs b !! (u, t)) ->
  a_next_view a = a_next_view b -> a_next_track a = a_next_track b ->
  a_next_group a = a_next_group b -> a_next_ptr a = a_next_ptr b -> a = b.
Proof.
  destruct a, b. simpl. intros H1 H2 H3 -> -> -> ->. f_equal; apply map_eq; try done.
  intros [u t]. done.
Qed.

Lemma wo_views_empty a : wo_views a ∅ = a.
Proof.
  apply arecon_eq; try done.
  - intros u. rewrite wo_views_views. rewrite decide_True; [done|set_solver].
  - intros t. rewrite wo_views_tracks. rewrite decide_True; [done|].
    destruct (decide (observers a t = ∅)); [by left|right; set_solver].
  - intros u t. rewrite wo_views_obs. rewrite decide_True; [done|set_solver].
Qed.

Lemma wo_views_step a P u : is_Some (a_views a !! u) -> u ∉ P ->
  spec_remove_view (wo_views a P) u = (wo_views a ({[u]} ∪ P), true).
Proof.
  intros Hu HuP. unfold spec_remove_view. rewrite decide_True.
  2:{ rewrite wo_views_views. by rewrite decide_True. }
  f_equal. apply arecon_eq; try done.
  - intros w. cbn [a_views]. rewrite (wo_views_views a ({[u]} ∪ P)). destruct (decide (w = u)) as [->|Hne].
    + rewrite lookup_delete. rewrite decide_False; [done|]. set_solver.
    + rewrite lookup_delete_ne by done. rewrite wo_views_views.
      by rewrite (decide_ext (w ∉ P) (w ∉ {[u]} ∪ P)) by set_solver.
  - intros t. cbn [a_tracks]. rewrite (wo_views_tracks a ({[u]} ∪ P)).
    transitivity (if decide (observers a t ∖ P ≠ {[u]}) then a_tracks (wo_views a P) !! t else None).
    { apply filter_lookup_if. intros x _. cbn [fst]. by rewrite wo_views_observers. }
    rewrite wo_views_tracks. repeat destruct (decide _); try done; exfalso.
    + destruct o as [Ho|Ho]; [set_solver|]. apply n0. right. intros Hsub. apply n.
      apply set_eq. intros w. split; [set_solver|]. intros ->%elem_of_singleton.
      destruct (decide (u ∈ observers a t)) as [|Hn]; [set_solver|]. exfalso. apply Ho.
      intros x Hx. specialize (Hsub x Hx). set_solver.
    + destruct o as [Ho|Ho]; [set_solver|]. apply n0. right. set_solver.
    + apply n. intros Heq. destruct o as [Ho|Ho]; [set_solver|]. apply Ho. intros x Hx.
      destruct (decide (x ∈ P)); [set_solver|].
      assert (x ∈ observers a t ∖ P) as Hx' by set_solver. rewrite Heq in Hx'. set_solver.
  - intros w t. cbn [a_obs]. rewrite (wo_views_obs a ({[u]} ∪ P)).
    transitivity (if decide (w ≠ u) then a_obs (wo_views a P) !! (w, t) else None).
    { by apply filter_lookup_if. }
    rewrite wo_views_obs. repeat destruct (decide _); try done; exfalso; set_solver.
Qed.

Lemma est_view_loop o a l : forall r (P : gset N),
  rel r (wo_views a P) -> wf (wo_views a P) -> NoDup l -> (forall u, u ∈ l -> u ∉ P) ->
  (forall u, u ∈ l -> is_Some (a_views a !! u)) ->
  exists r', run_steps (est_view_step o) r l = Ok r' /\
    let P' := P ∪ list_to_set (filter (fun u => a_vest <$> a_views a !! u = Some false) l) in
    rel r' (wo_views a P') /\ wf (wo_views a P').
Proof.
  induction l as [|w l IH]; intros r P R W Hnd HP Hex; cbn [run_steps].
  { exists r. split; [done|]. cbn [filter list_filter list_to_set].
    replace (P ∪ ∅) with P by set_solver. done. }
  apply NoDup_cons in Hnd as [Hw Hnd].
  destruct (Hex w) as [av Hav]; [set_solver|].
  assert (HwP : w ∉ P) by (apply HP; set_solver).
  assert (Hav' : a_views (wo_views a P) !! w = Some av) by (by rewrite wo_views_views, decide_True).
  destruct (rel_view_Some' r _ w av R Hav') as (v & Hv & Hok).
  unfold_in_term (@est_view_step) (est_view_step o r w). cbv beta iota. rewrite Hv. destruct Hok as (_ & -> & _).
  destruct (a_vest av) eqn:Eest.
  - cbn [mbind outcome_bind]. destruct (IH r P R W Hnd) as (r' & Hr' & H').
    { intros u Hu. apply HP. set_solver. }
    { intros u Hu. apply Hex. set_solver. }
    exists r'. split; [done|]. rewrite filter_cons_False; [done|]. rewrite Hav. simpl. congruence.
  - destruct (remove_view_refines o r _ w R W) as (r1 & -> & R1 & W1).
    rewrite (wo_views_step a P w (mk_is_Some _ _ Hav) HwP) in R1, W1 |- *.
    cbn [mbind outcome_bind check fst snd] in *.
    destruct (IH r1 ({[w]} ∪ P) R1 W1 Hnd) as (r' & Hr' & H').
    { intros u Hu. assert (u ∉ P) by (apply HP; set_solver). set_solver. }
    { intros u Hu. apply Hex. set_solver. }
    exists r'. split; [done|]. rewrite filter_cons_True by (by rewrite Hav; simpl; rewrite Eest).
    cbn [list_to_set]. replace (P ∪ ({[w]} ∪ _)) with ({[w]} ∪ P ∪
      list_to_set (filter (fun u => a_vest <$> a_views a !! u = Some false) l)) by set_solver.
    done.
Qed.

Lemma wo_tracks_tracks a Q t : a_tracks (wo_tracks a Q) !! t =
  if decide (t ∉ Q) then a_tracks a !! t else None.
Proof. cbn [wo_tracks a_tracks]. by apply filter_lookup_if. Qed.
Lemma wo_tracks_obs a Q u t : a_obs (wo_tracks a Q) !! (u, t) =
  if decide (t ∉ Q) then a_obs a !! (u, t) else None.
Proof. cbn [wo_tracks a_obs]. by apply filter_lookup_if. Qed.

Lemma wo_tracks_empty a : wo_tracks a ∅ = a.
Proof.
  apply arecon_eq; try done.
  - intros t. rewrite wo_tracks_tracks. rewrite decide_True; [done|set_solver].
  - intros u t. rewrite wo_tracks_obs. rewrite decide_True; [done|set_solver].
Qed.

Lemma wo_tracks_step a Q t : is_Some (a_tracks a !! t) -> t ∉ Q ->
  spec_remove_track (wo_tracks a Q) t = (wo_tracks a ({[t]} ∪ Q), true).
Proof.
  intros Hu HuP. unfold spec_remove_track. rewrite decide_True.
  2:{ rewrite wo_tracks_tracks. by rewrite decide_True. }
  f_equal. apply arecon_eq; try done.
  - intros w. cbn [a_tracks]. rewrite (wo_tracks_tracks a ({[t]} ∪ Q)).
    destruct (decide (w = t)) as [->|Hne].
    + rewrite lookup_delete. rewrite decide_False; [done|]. set_solver.
    + rewrite lookup_delete_ne by done. rewrite wo_tracks_tracks.
      by rewrite (decide_ext (w ∉ Q) (w ∉ {[t]} ∪ Q)) by set_solver.
  - intros w t'. cbn [a_obs]. rewrite (wo_tracks_obs a ({[t]} ∪ Q)).
    transitivity (if decide (t' ≠ t) then a_obs (wo_tracks a Q) !! (w, t') else None).
    { by apply filter_lookup_if. }
    rewrite wo_tracks_obs. repeat destruct (decide _); try done; exfalso; set_solver.
Qed.

Definition weak_track a (t : N) : Prop :=
  ~ (a_test <$> a_tracks a !! t = Some true /\ 2 <= size (observers a t))%nat.
Global Instance weak_track_dec a t : Decision (weak_track a t).
Proof. unfold weak_track. apply _. Defined.

Lemma est_track_loop o a l : forall r (Q : gset N),
  rel r (wo_tracks a Q) -> wf (wo_tracks a Q) -> NoDup l -> (forall t, t ∈ l -> t ∉ Q) ->
  (forall t, t ∈ l -> is_Some (a_tracks a !! t)) ->
  exists r', run_steps (est_track_step o) r l = Ok r' /\
    let Q' := Q ∪ list_to_set (filter (weak_track a) l) in
    rel r' (wo_tracks a Q') /\ wf (wo_tracks a Q').
Proof.
  induction l as [|w l IH]; intros r Q R W Hnd HQ Hex; cbn [run_steps].
  { exists r. split; [done|]. cbn [filter list_filter list_to_set].
    replace (Q ∪ ∅) with Q by set_solver. done. }
  apply NoDup_cons in Hnd as [Hw Hnd].
  destruct (Hex w) as [aT HaT]; [set_solver|].
  assert (HwQ : w ∉ Q) by (apply HQ; set_solver).
  assert (HaT' : a_tracks (wo_tracks a Q) !! w = Some aT).
  { rewrite wo_tracks_tracks, decide_True; done. }
  destruct (rel_track_Some' r _ w aT R HaT') as (T & HT & Hok).
  unfold_in_term (@est_track_step) (est_track_step o r w). cbv beta iota. rewrite HT. destruct Hok as (He & _ & HTv).
  assert (Hobs : t_views T = observers a w).
  { apply set_eq. intros u. rewrite HTv, elem_of_observers, wo_tracks_obs. by rewrite decide_True. }
  rewrite (decide_ext _ (weak_track a w)).
  2:{ unfold weak_track. rewrite HaT, Hobs, He. simpl. split.
      - intros [E|E] [E' E'']; [congruence|lia].
      - intros Hn. destruct (a_test aT); [|by left]. right.
        destruct (decide (size (observers a w) < 2)); [done|]. exfalso. apply Hn. split; [done|lia]. }
  destruct (decide (weak_track a w)) as [Hweak|Hweak].
  - destruct (remove_track_refines o r _ w R W) as (r1 & -> & R1 & W1).
    rewrite (wo_tracks_step a Q w (mk_is_Some _ _ HaT) HwQ) in R1, W1 |- *.
    cbn [mbind outcome_bind check fst snd] in *.
    destruct (IH r1 ({[w]} ∪ Q) R1 W1 Hnd) as (r' & Hr' & H').
    { intros u Hu. assert (u ∉ Q) by (apply HQ; set_solver). set_solver. }
    { intros u Hu. apply Hex. set_solver. }
    exists r'. split; [done|]. rewrite filter_cons_True by done.
    cbn [list_to_set]. replace (Q ∪ ({[w]} ∪ _)) with ({[w]} ∪ Q ∪
      list_to_set (filter (weak_track a) l)) by set_solver.
    done.
  - cbn [mbind outcome_bind]. destruct (IH r Q R W Hnd) as (r' & Hr' & H').
    { intros u Hu. apply HQ. set_solver. }
    { intros u Hu. apply Hex. set_solver. }
    exists r'. split; [done|]. rewrite filter_cons_False; done.
Qed.

Lemma dom_views_rel r a : rel r a -> dom (rc_views r) = dom (a_views a).
Proof.
  intros R. apply set_eq. intros u. rewrite !elem_of_dom.
  pose proof (rel_views r a R u) as H. inversion H; subst; split; intros [? ?]; try done; eauto.
Qed.
Lemma dom_tracks_rel r a : rel r a -> dom (rc_tracks r) = dom (a_tracks a).
Proof.
  intros R. apply set_eq. intros u. rewrite !elem_of_dom.
  pose proof (rel_tracks r a R u) as H. inversion H; subst; split; intros [? ?]; try done; eauto.
Qed.

Lemma rc_estimated_rel o r a : rel r a -> wf a ->
  exists e, rc_estimated o r = Ok e /\ rel e (spec_estimated a) /\ wf (spec_estimated a).
Proof.
  intros R W. unfold rc_estimated.
  rewrite <- (wo_views_empty a) in R, W.
  destruct (est_view_loop o a (o (elements (dom (rc_views r)))) r ∅ R W) as (r1 & -> & R1 & W1).
  { rewrite (ord_perm o). apply NoDup_elements. }
  { set_solver. }
  { intros u. rewrite (ord_perm o), elem_of_elements, (dom_views_rel r _ R), wo_views_empty.
    by rewrite elem_of_dom. }
  cbn [mbind outcome_bind].
  set (P := ∅ ∪ _) in R1, W1.
  assert (HP : forall u, u ∈ P <-> exists v, a_views a !! u = Some v /\ a_vest v = false).
  { intros u. unfold P. rewrite elem_of_union, elem_of_list_to_set, elem_of_list_filter, (ord_perm o),
      elem_of_elements, (dom_views_rel r _ R), wo_views_empty, elem_of_dom. rewrite fmap_Some.
    split; [naive_solver set_solver|]. intros (v & Hv & E). right. eauto 10. }
  assert (HE : forall u, u ∈ est_views a <-> is_Some (a_views a !! u) /\ u ∉ P).
  { intros u. unfold est_views. rewrite elem_of_dom, HP. split.
    - intros [v [Hv E]%map_filter_lookup_Some]. simpl in E. split; [eauto|].
      intros (v' & ? & ?). congruence.
    - intros [[v Hv] Hn]. exists v. apply map_filter_lookup_Some. split; [done|]. simpl.
      destruct (a_vest v) eqn:E; [done|]. exfalso. eauto. }
  rewrite <- (wo_tracks_empty (wo_views a P)) in R1, W1.
  destruct (est_track_loop o (wo_views a P) (o (elements (dom (rc_tracks r1)))) r1 ∅ R1 W1)
    as (e & -> & Re & We).
  { rewrite (ord_perm o). apply NoDup_elements. }
  { set_solver. }
  { intros u. rewrite (ord_perm o), elem_of_elements, (dom_tracks_rel r1 _ R1), wo_tracks_empty.
    by rewrite elem_of_dom. }
  exists e. split; [done|]. cbv zeta in Re, We.
  set (Q := ∅ ∪ _) in Re, We.
  assert (HQ : forall t, t ∈ Q <-> is_Some (a_tracks (wo_views a P) !! t) /\ weak_track (wo_views a P) t).
  { intros t. unfold Q. rewrite elem_of_union, elem_of_list_to_set, elem_of_list_filter, (ord_perm o),
      elem_of_elements, (dom_tracks_rel r1 _ R1), wo_tracks_empty, elem_of_dom.
    split; [|tauto]. intros [?|?]; [set_solver|tauto]. }
  rewrite wo_views_empty in W.
  assert (Hobs : forall t, observers (wo_views a P) t = observers a t ∩ est_views a).
  { intros t. rewrite wo_views_observers. apply set_eq. intros u.
    rewrite elem_of_difference, elem_of_intersection, HE, elem_of_observers. split; [|naive_solver].
    intros [Ho Hn]. split; [done|]. split; [|done]. by destruct (wf_obs a W u t Ho). }
  assert (HT : forall t, t ∈ est_tracks a <-> is_Some (a_tracks (wo_views a P) !! t) /\ t ∉ Q).
  { intros t. unfold est_tracks. rewrite elem_of_dom, HQ. split.
    - intros [T [HT [HT1 HT2]]%map_filter_lookup_Some]. simpl in *.
      assert (is_Some (a_tracks (wo_views a P) !! t)) as Hs.
      { rewrite wo_views_tracks. rewrite decide_True; [eauto|]. right. intros Hsub.
        rewrite <- Hobs, wo_views_observers in HT2.
        replace (observers a t ∖ P) with (∅ : gset N) in HT2 by set_solver.
        rewrite size_empty in HT2. lia. }
      split; [done|]. intros [_ Hweak]. apply Hweak. rewrite Hobs. split; [|done].
      rewrite wo_views_tracks in *. destruct (decide _); [|by destruct Hs].
      rewrite HT. simpl. by rewrite HT1.
    - intros [[T HT] Hn]. exists T. apply map_filter_lookup_Some. simpl.
      pose proof HT as HT'. rewrite wo_views_tracks in HT'. destruct (decide _) in HT'; [|done].
      split; [done|]. destruct (decide (weak_track (wo_views a P) t)) as [Hw|Hw].
      { exfalso. apply Hn. eauto. }
      unfold weak_track in Hw. apply dec_stable in Hw as [Hw1 Hw2]. rewrite HT in Hw1. simpl in Hw1.
      split; [congruence|]. by rewrite <- Hobs. }
  assert (wo_tracks (wo_views a P) Q = spec_estimated a) as Heq.
  { apply arecon_eq; try done.
    - intros u. cbn [wo_tracks a_views spec_estimated].
      change (filter (fun kv => kv.1 ∉ P) (a_views a)) with (a_views (wo_views a P)).
      rewrite wo_views_views.
      transitivity (if decide (u ∈ est_views a) then a_views a !! u else None).
      2:{ symmetry. by apply filter_lookup_if. }
      destruct (decide (u ∉ P)) as [Hn|Hn].
      + destruct (a_views a !! u) eqn:E; [|by destruct (decide _)].
        rewrite decide_True; [done|]. apply HE. eauto.
      + rewrite decide_False; [done|]. rewrite HE. tauto.
    - intros t. rewrite wo_tracks_tracks. cbn [spec_estimated a_tracks].
      transitivity (if decide (t ∈ est_tracks a) then a_tracks a !! t else None).
      2:{ symmetry. by apply filter_lookup_if. }
      destruct (decide (t ∈ est_tracks a)) as [Hi|Hi].
      + apply HT in Hi as [[T Ht] Hn]. rewrite decide_True by done. rewrite Ht.
        rewrite wo_views_tracks in Ht. by destruct (decide _).
      + destruct (decide (t ∉ Q)); [|done]. apply eq_None_not_Some. intros Hs. apply Hi, HT. done.
    - intros u t. rewrite wo_tracks_obs, wo_views_obs. cbn [spec_estimated a_obs].
      transitivity (if decide (u ∈ est_views a /\ t ∈ est_tracks a) then a_obs a !! (u, t) else None).
      2:{ symmetry. by apply filter_lookup_if. }
      destruct (a_obs a !! (u, t)) as [f|] eqn:E.
      2:{ by repeat destruct (decide _). }
      destruct (wf_obs a W u t (mk_is_Some _ _ E)) as [Hu Ht].
      destruct (decide (u ∉ P)) as [HuP|HuP].
      + assert (is_Some (a_tracks (wo_views a P) !! t)).
        { rewrite wo_views_tracks, decide_True; [done|]. right. intros Hsub. apply HuP, Hsub.
          apply elem_of_observers. eauto. }
        destruct (decide (t ∉ Q)) as [HtQ|HtQ].
        * rewrite decide_True; [done|]. split; [by apply HE|by apply HT].
        * rewrite decide_False; [done|]. rewrite HT. tauto.
      + destruct (decide (t ∉ Q)); rewrite decide_False; try done; rewrite HE; tauto. }
  rewrite <- Heq. done.
Qed.

End proofs.
