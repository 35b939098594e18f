(** Proofs about the view graph of a reconstruction builder and about its successive estimates. *)
From stdpp Require Import gmap strings.
From Verif Require Import Base Reconstruction_Model Reconstruction_Spec Reconstruction_Proofs ViewGraph_Model ViewGraph_Spec ViewGraph_Proofs
  SfmQueries_Spec ReconstructionBuilder_Model ReconstructionBuilder_Spec ReconstructionBuilder_Proofs.

Section graph.
Context {F C D E : Type}.
Implicit Types (r : recon F C D) (g : view_graph E).

Definition removals (o : order N) g (l : list N) : view_graph E := (vg_run g (VRemoveView o <$> l)).1.
Lemma removals_caller o g l : caller_graph g -> caller_graph (removals o g l).
Proof.
  intros [ops ->]. exists (ops ++ (VRemoveView o <$> l)). unfold removals. generalize (@vg_empty E). induction ops as [|op ops IH]; intros g; cbn [vg_run app]; [done|].
  destruct (vg_step g op) as [g1 b]. specialize (IH g1). destruct (vg_run g1 ops) as [g2 bs], (vg_run g1 (ops ++ _)) as [g3 bs']. exact IH.
Qed.
Lemma removals_vrel o l : forall g ag W, simple_graph ag -> vrel g (ag_removed ag W) -> vrel (removals o g l) (ag_removed ag (list_to_set l ∪ W)).
Proof.
  induction l as [|u l IH]; intros g ag W Hs Hv; unfold removals; cbn [fmap list_fmap vg_run list_to_set].
  { cbn [fst]. by rewrite (left_id_L ∅ (∪)). }
  cbn [vg_step]. pose proof (vrel_removed_step o g ag W u Hs Hv) as K. destruct (vg_remove_view o g u) as [g1 b]. cbn [fst] in K.
  specialize (IH g1 ag ({[u]} ∪ W) Hs K). unfold removals in IH. destruct (vg_run g1 _) as [g2 bs]. cbn [fst] in *.
  replace ({[u]} ∪ list_to_set l ∪ W) with (list_to_set l ∪ ({[u]} ∪ W)) by (apply set_eq; intros x; rewrite !elem_of_union; clear; tauto). done.
Qed.
Lemma removals_without o g l (X : N -> Prop) : caller_graph g -> (forall u, u ∈ l <-> X u) -> graph_without g X (removals o g l).
Proof.
  intros [ops Hg] HX. destruct (vrel_run ops vg_empty ag_empty vrel_empty) as [Hr _]. rewrite <- Hg in Hr. set (ag := (ag_run ag_empty ops).1) in *.
  assert (Hs : simple_graph ag) by apply Hr.
  assert (K : vrel (removals o g l) (ag_removed ag (list_to_set l ∪ ∅))). { apply removals_vrel; [done|]. eapply vrel_ext; [| |exact Hr]; cbn; [by rewrite difference_empty_L|]. intros x y. rewrite decide_False; [done|]. rewrite !elem_of_empty. clear; tauto. }
  rewrite (right_id_L ∅ (∪)) in K. destruct (vrel_answers _ _ Hr) as (A1 & _ & A3 & _), (vrel_answers _ _ K) as (B1 & _ & B3 & _). split.
  - intros u. rewrite B1, A1. cbn [ag_removed ag_views]. rewrite elem_of_difference, elem_of_list_to_set, HX. done.
  - intros u u' i. rewrite B3, A3. cbn [ag_removed ag_label]. rewrite <- !HX. destruct (decide _) as [Hd|Hd]; rewrite !elem_of_list_to_set in Hd.
    + split; [discriminate|]. clear -Hd. tauto.
    + clear -Hd. tauto.
Qed.

Lemma graph_loop (step : recon F C D * view_graph E -> N -> outcome (recon F C D * view_graph E)) (test : view F C -> bool) o
    (Hstep : forall s u v, rc_views s.1 !! u = Some v -> step s u = if test v then '(r, _) ← rc_remove_view o s.1 u; Ok (r, (vg_remove_view o s.2 u).1) else Ok s)
    (Htest : forall v w, v_est v = v_est w -> v_data v = v_data w -> test v = test w) l :
  forall s s', ok s.1 -> NoDup l -> (forall u, u ∈ l -> is_Some (rc_views s.1 !! u)) -> run_steps step s l = Ok s' ->
  exists l', s'.2 = removals o s.2 l' /\ forall u, u ∈ l' <-> u ∈ l /\ exists v, rc_views s.1 !! u = Some v /\ test v = true.
Proof.
  induction l as [|u l IH]; intros s s' Hok Hnd Hl; cbn [run_steps].
  { intros [= <-]. exists []. split; [done|]. intros u. rewrite elem_of_nil. clear; tauto. }
  intros (s1 & H1 & K)%bind_Ok. apply NoDup_cons in Hnd as [Hnu Hnd]. destruct (Hl u ltac:(by left)) as [v Hv]. rewrite (Hstep s u v Hv) in H1. destruct (test v) eqn:Et.
  - destruct Hok as (a & R & W). destruct (remove_view_refines o s.1 a u R W) as (r1 & Hr1 & R1 & W1). rewrite Hr1 in H1. cbn [mbind outcome_bind] in H1. injection H1 as <-.
    assert (Hrest : forall x v', x <> u -> a_views a !! x = Some v' <-> a_views (spec_remove_view a u).1 !! x = Some v').
    { intros x v' Hx. unfold spec_remove_view. destruct (decide (is_Some (a_views a !! u))); [|done]. cbn [fst a_views]. by rewrite lookup_delete_ne. }
    assert (Hkeep : forall x w, x <> u -> rc_views s.1 !! x = Some w -> exists w', rc_views r1 !! x = Some w' /\ test w' = test w).
    { intros x w Hx Hw. destruct (rel_view_Some s.1 a x w R Hw) as (aw & Haw & _ & He & _ & Hd & _). destruct (rel_view_Some' r1 _ x aw R1 (proj1 (Hrest x aw Hx) Haw)) as (w' & Hw' & _ & He' & _ & Hd' & _). exists w'. split; [done|]. apply Htest; congruence. }
    destruct (IH (r1, (vg_remove_view o s.2 u).1) s') as (l' & Hg & Hl'); [by exists (spec_remove_view a u).1|done| |exact K|].
    { intros x Hx. cbn [fst]. destruct (Hl x ltac:(by right)) as [w Hw]. destruct (Hkeep x w) as (w' & Hw' & _); [by intros ->|done|]. eauto. }
    exists (u :: l'). split.
    + rewrite Hg. unfold removals. cbn [fmap list_fmap vg_run vg_step snd]. destruct (vg_remove_view o s.2 u) as [g1 b]. cbn [fst]. by destruct (vg_run g1 _).
    + intros x. rewrite !elem_of_cons, Hl'. cbn [fst]. split.
      * intros [->|[Hx (w' & Hw' & Ht)]]; [eauto|]. split; [by right|]. destruct (Hl x ltac:(by right)) as [w Hw]. destruct (Hkeep x w) as (w'' & Hw'' & Htt); [by intros ->|done|]. exists w. split; [done|congruence].
      * intros [[->|Hx] (w & Hw & Ht)]; [by left|]. right. split; [done|]. destruct (Hkeep x w) as (w' & Hw' & Htt); [by intros ->|done|]. exists w'. split; [done|congruence].
  - injection H1 as <-. destruct (IH s s' Hok Hnd) as (l' & Hg & Hl'); [intros x Hx; apply Hl; by right|exact K|]. exists l'. split; [done|]. intros x. rewrite elem_of_cons, Hl'. split.
    + intros [? ?]. split; [by right|done].
    + intros [[->|?] (w & Hw & Ht)]; [congruence|]. eauto.
Qed.

Lemma views_list (o : order N) r u : u ∈ o (elements (dom (rc_views r))) <-> is_Some (rc_views r !! u).
Proof. by rewrite (ord_perm o), elem_of_elements, elem_of_dom. Qed.
Lemma views_nodup (o : order N) r : NoDup (o (elements (dom (rc_views r)))).
Proof. rewrite (ord_perm o). apply NoDup_elements. Qed.

Lemma remove_estimated_graph o r g r' g' : ok r -> remove_estimated o r g = Ok (r', g') -> caller_graph g -> caller_graph g' /\ graph_without g (est_view r) g'.
Proof.
  intros Hok. unfold remove_estimated. intros ([r1 g1] & H1 & K)%bind_Ok. apply bind_Ok in K as (r2 & _ & K). injection K as _ <-. intros Hg.
  destruct (graph_loop (rest_view o) v_est o) with (l := o (elements (dom (rc_views r)))) (s := (r, g)) (s' := (r1, g1)) as (l' & Hg1 & Hl'); try done.
  - intros s u v Hv. unfold rest_view. by rewrite Hv.
  - apply views_nodup.
  - intros u Hu. by apply views_list in Hu.
  - cbn [fst snd] in *. rewrite Hg1. split; [by apply removals_caller|]. apply removals_without; [done|]. intros u. rewrite Hl', views_list. split; [intros [_ ?]; done|]. intros (v & Hv & He). split; eauto.
Qed.
Lemma remove_uncalibrated_graph focal_set o r g r' g' : ok r -> remove_uncalibrated focal_set o r g = Ok (r', g') -> caller_graph g ->
  caller_graph g' /\ graph_without g (fun u => is_Some (rc_views r !! u) /\ ~ calibrated focal_set r u) g'.
Proof.
  intros Hok. unfold remove_uncalibrated. intros H1 Hg.
  destruct (graph_loop (uncalibrated_view focal_set o) (fun v => negb (focal_set (v_data v))) o) with (l := o (elements (dom (rc_views r)))) (s := (r, g)) (s' := (r', g')) as (l' & Hg1 & Hl'); try done.
  - intros s u v Hv. unfold uncalibrated_view. by rewrite Hv.
  - intros v w _ H. by rewrite H.
  - apply views_nodup.
  - intros u Hu. by apply views_list in Hu.
  - cbn [fst snd] in *. rewrite Hg1. split; [by apply removals_caller|]. apply removals_without; [done|]. intros u. rewrite Hl', views_list. split.
    + intros [Hs (v & Hv & Ht)]. split; [done|]. intros (w & Hw & Hf). assert (w = v) as -> by congruence. by rewrite Hf in Ht.
    + intros [[v Hv] Hc]. split; [eauto|]. exists v. split; [done|]. destruct (focal_set (v_data v)) eqn:Ef; [|done]. destruct Hc. by exists v.
Qed.
End graph.

Section rounds.
Context {F C D E I : Type} (focal_set : C -> bool).
Lemma loop_rounds (est : estimator F C D E I) o largest (Hest : keeps focal_set est) fuel : forall k r g h outs okb outs' r' g' h', ok r ->
  build_loop est o largest fuel k r g h outs = Ok (okb, outs', r', g', h') -> exists new, outs' = outs ++ new /\ rounds est k g r h new g' r' h'.
Proof.
  induction fuel as [|fuel IH]; intros k r g h outs okb outs' r' g' h' Hok Hrun; [discriminate Hrun|]. cbn [build_loop] in Hrun.
  destruct (decide (size (rc_views r) <= 1)%nat) as [Hs|Hs].
  { injection Hrun as _ <- <- <- <-. exists []. split; [by rewrite app_nil_r|constructor]. }
  destruct (est k g r h) as [[[[okr g1] r1] h1]| | |] eqn:Ee; cbn [mbind outcome_bind] in Hrun; try discriminate Hrun.
  destruct okr; cbn [negb] in Hrun; [|injection Hrun as _ <- <- <- <-; exists []; split; [by rewrite app_nil_r|by constructor]].
  pose proof (Hest _ _ _ _ _ _ _ _ Ee) as Hk. pose proof (kept_ok focal_set r h r1 h1 Hok Hk) as Hok1.
  destruct (create_estimated_part (o k) r1 Hok1) as (e & He & Hok_e & Hpe). rewrite He in Hrun. cbn [mbind outcome_bind] in Hrun.
  destruct (remove_estimated_part (o k) r1 g1 Hok1) as (r2 & g2 & Hr & Hok2 & Hp2 & Hn2). rewrite Hr in Hrun. cbn [mbind outcome_bind] in Hrun.
  pose proof (remove_estimated_graph (o k) r1 g1 r2 g2 Hok1 Hr) as Hg.
  assert (Hone : forall w, (outs ++ [e], r2, g2, h1) = w -> w = (outs', r', g', h') -> exists new, outs' = outs ++ new /\ rounds est k g r h new g' r' h').
  { intros w <- Hw. injection Hw as <- <- <- <-. exists [e]. split; [done|]. eapply rounds_next; [exact Ee|exact Hpe|exact Hp2|exact Hg|constructor]. }
  destruct largest; [eapply Hone; [reflexivity|congruence]|]. destruct (decide (size (rc_views r2) < 3)%nat); [eapply Hone; [reflexivity|congruence]|].
  destruct (IH _ _ _ _ _ _ _ _ _ _ Hok2 Hrun) as (new & -> & Hn). exists (e :: new). split; [by rewrite <- app_assoc|]. eapply rounds_next; [exact Ee|exact Hpe|exact Hp2|exact Hg|exact Hn].
Qed.
End rounds.
