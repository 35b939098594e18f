(** Proofs about global reconstruction: what happens to the view graph. *)
From stdpp Require Import gmap.
From Coq Require Import Reals Lra.
From Verif Require Import Base ViewGraph_Model ViewGraph_Spec ViewGraph_Proofs ViewGraph_Props.
From Verif Require Import Reconstruction_Model BundleAdjust_Model Incremental_Model Incremental_Proofs.
From Verif Require Camera_Model TranslationFilter_Props.
From Verif Require Import RotationGraph_Model RotationGraph_Spec RotationGraph_Proofs RotationGraph_Props
  TranslationFilter_Model TranslationFilter_Spec TranslationFilter_Proofs TranslationFilter_More
  GlobalReconstruction_Model GlobalReconstruction_Spec.
Implicit Types (c : view_graph two_view).

Definition reachable c : Prop := exists ops, c = (vg_run vg_empty ops).1.
Lemma reach_step c op : reachable c -> reachable (vg_step c op).1.
Proof.
  intros [ops ->]. exists (ops ++ [op]). rewrite vg_run_app. cbn [vg_run]. by destruct (vg_step _ op).
Qed.
Lemma reach_foldl {A} (f : view_graph two_view -> A -> view_graph two_view) (l : list A) :
  (forall c x, reachable c -> reachable (f c x)) -> forall c, reachable c -> reachable (foldl f c l).
Proof. intros Hf. induction l as [|x l IH]; intros c Hc; [done|]. cbn. by apply IH, Hf. Qed.
Lemma reach_remove_edge c a b : reachable c -> reachable (vg_remove_edge c a b).1.
Proof. intros H. apply (reach_step c (VRemoveEdge a b) H). Qed.
Lemma reach_remove_view o c v : reachable c -> reachable (vg_remove_view o c v).1.
Proof. intros H. apply (reach_step c (VRemoveView o v) H). Qed.
Lemma reach_update c a b f : reachable c -> reachable (vg_update_edge c a b f).
Proof. intros H. apply (reach_step c (VUpdateEdge a b f) H). Qed.
Lemma reach_rel c : reachable c -> exists g, vrel c g.
Proof. intros [ops ->]. destruct (vrel_run ops _ _ vrel_empty) as [H _]. eauto. Qed.

Lemma has_edge_iff c a b : vg_has_edge c a b = true <-> exists i, vg_get_edge c a b = Some i.
Proof.
  unfold vg_has_edge, vg_get_edge. destruct (vg_edges c !! view_id_pair a b) as [i|]; cbn; [split; [by exists i|done]|split; [done|by intros [? ?]]].
Qed.
Lemma has_edge_false c a b : vg_has_edge c a b = false <-> vg_get_edge c a b = None.
Proof. unfold vg_has_edge, vg_get_edge. by destruct (vg_edges c !! view_id_pair a b). Qed.
Lemma edge_sym c a b : reachable c -> vg_get_edge c a b = vg_get_edge c b a.
Proof. intros [g Hg]%reach_rel. by eapply get_edge_sym. Qed.
Lemma edge_views c a b : reachable c -> vg_has_edge c a b = true -> a <> b /\ vg_has_view c a = true /\ vg_has_view c b = true.
Proof.
  intros [g Hg]%reach_rel He. destruct (vrel_answers _ _ Hg) as (Hv & Hh & _). destruct Hg as (_ & _ & _ & (Hsym & Hirr & Hin)).
  apply Hh in He. split; [|split; apply Hv]; [|by eapply Hin|eapply Hin; by rewrite Hsym]. intros ->. rewrite Hirr in He. by destruct He.
Qed.
Lemma edges_lookup c p i : reachable c -> vg_edges c !! p = Some i <-> (p.1 < p.2)%N /\ vg_get_edge c p.1 p.2 = Some i.
Proof.
  intros [g Hg]%reach_rel. destruct (vrel_answers _ _ Hg) as (_ & _ & Hget & _ & _ & _ & He & _). destruct p as [a b]. rewrite He, Hget. done.
Qed.
Lemma end_of_edge c u : reachable c -> end_of (vg_edges c) u <-> exists v, vg_has_edge c u v = true.
Proof.
  intros Hc. split.
  - intros (p & i & Hp & Hu). apply edges_lookup in Hp as [_ Hp]; [|done]. destruct Hu as [->| ->]; [exists p.2|exists p.1]; apply has_edge_iff; exists i; [done|]. by rewrite edge_sym.
  - intros [v Hv]. destruct (edge_views _ _ _ Hc Hv) as [Hne _]. apply has_edge_iff in Hv as [i Hi]. destruct (decide (u < v)%N) as [L|L].
    + exists (u, v), i. split; [by apply edges_lookup|by left].
    + exists (v, u), i. split; [|by right]. apply edges_lookup; [done|]. cbn. split; [lia|]. by rewrite edge_sym.
Qed.
Lemma no_edges_empty c : reachable c -> (forall a b, vg_has_edge c a b = false) <-> vg_edges c = ∅.
Proof.
  intros Hc. split.
  - intros H. apply map_eq. intros [a b]. rewrite lookup_empty. destruct (vg_edges c !! (a, b)) as [i|] eqn:E; [|done]. apply edges_lookup in E as [_ E]; [|done]. cbn in E.
    specialize (H a b). apply has_edge_false in H. congruence.
  - intros H a b. unfold vg_has_edge. by rewrite H, lookup_empty.
Qed.

(** ** RemoveDisconnectedViewPairs *)
Lemma reach_remove_views (o : order N) l : forall st : view_graph two_view * gset N, reachable st.1 -> reachable (remove_views o st l).1.
Proof. unfold remove_views. induction l as [|v l IH]; intros st H; [done|]. cbn [foldl]. apply IH. cbn. by apply reach_remove_view. Qed.
Lemma component_abs c (g : agraph two_view) X : vrel c g -> component c X <-> ag_component g X.
Proof.
  intros Hg. destruct (vrel_answers _ _ Hg) as (_ & Hh & _). unfold component, ag_component.
  assert (K : forall a x, rtc (linked c) a x <-> rtc (ag_adj g) a x).
  { intros a x. split; intros H; induction H as [|x y z H1 H2 IH]; [constructor| |constructor|]; (eapply rtc_l; [|exact IH]); by apply Hh. }
  split; intros (a & b & H1 & H2); exists a, b; (split; [by apply Hh|]); intros x; rewrite H2; [apply K|symmetry; apply K].
Qed.
Lemma largest_abs c (g : agraph two_view) X : vrel c g -> largest_component c X <-> ag_largest_component g X.
Proof.
  intros Hg. unfold largest_component, ag_largest_component. rewrite (component_abs _ _ X Hg). split; intros [H1 H2]; (split; [done|]); intros Y HY; apply H2; by apply (component_abs _ _ Y Hg).
Qed.
Lemma disconnect_ok oe on oc c : reachable c -> has_valid_ids c -> exists c' removed, vg_remove_disconnected oe on oc c = Ok (c', removed) /\
  largest_part c c' /\ (forall v, v ∈ removed <-> vg_has_view c v = true /\ vg_has_view c' v = false) /\ reachable c' /\ has_valid_ids c' /\ connected c'.
Proof.
  intros Hc Hid. destruct (Classical_Prop.classic (exists a b, vg_has_edge c a b = true)) as [He|Hn].
  - pose proof Hc as [ops Eops]. subst c. destruct (remove_disconnected_correct _ ops oe on oc Hid He) as (c' & removed & X & R & HX & A1 & A2 & A3 & A4).
    exists c', removed. split; [done|]. destruct (vrel_run ops _ _ vrel_empty) as [Hr _]. split; [right; exists X; split; [by apply (largest_abs _ _ X Hr)|done]|]. split; [done|]. split; [|split; [|done]].
    + unfold vg_remove_disconnected in R. destruct (vg_components oe on _) as [m| | |]; [|done|done|done]. cbn [mbind outcome_bind] in R. injection R as R.
      assert (K : forall (l : list (N * gset N)) (st : view_graph two_view * gset N), reachable st.1 -> reachable (foldl (fun st kx => if decide (kx.1 = (largest_cc (oc (map_to_list m))).1) then st else remove_views on st (on (elements kx.2))) st l).1).
      { clear. induction l as [|kx l IH]; intros st H; [done|]. cbn [foldl]. apply IH. destruct (decide _); [done|]. by apply reach_remove_views. }
      specialize (K (oc (map_to_list m)) ((vg_run vg_empty ops).1, ∅) Hc). rewrite R in K. exact K.
    + intros v Hv. apply A3 in Hv as [Hv _]. by apply Hid.
  - assert (Hn' : forall a b, vg_has_edge c a b = false). { intros a b. destruct (vg_has_edge c a b) eqn:E; [|done]. exfalso. apply Hn. by exists a, b. }
    exists c, ∅. pose proof Hc as [ops Eops]. subst c. rewrite (remove_disconnected_no_edges _ ops oe on oc Hn'). split; [done|]. split; [by left|]. split.
    { intros v. split; [by intros ?%elem_of_empty|]. intros [? ?]. congruence. }
    split; [done|]. split; [done|]. intros a b [u Hu]. by rewrite Hn' in Hu.
Qed.
Lemma largest_edges c c' a b i : largest_part c c' -> vg_get_edge c' a b = Some i -> vg_get_edge c a b = Some i.
Proof. intros [[_ ->]|(X & _ & H & _)]; [done|]. rewrite H. by destruct (decide _). Qed.
Lemma largest_views c c' v : largest_part c c' -> vg_has_view c' v = true -> vg_has_view c v = true.
Proof. intros [[_ ->]|(X & _ & _ & H)]; [done|]. rewrite H. by intros [? _]. Qed.

(** ** Removing edges *)
Lemma restricted_ids c c' keep : restricted c c' keep -> has_valid_ids c -> has_valid_ids c'.
Proof. intros (_ & H & _) Hid v Hv. rewrite H in Hv. by apply Hid. Qed.
Lemma reach_remove_pairs o c bad : reachable c -> reachable (remove_pairs o c bad).
Proof. unfold remove_pairs. intros H. apply reach_foldl; [|done]. intros c' p Hc. by apply reach_remove_edge. Qed.
Lemma weak_pairs n (l : list ((N * N) * two_view)) : forall (acc : gset (N * N)) p, p ∈ foldl (fun bad pe => if decide (tv_matches pe.2 < n)%Z then {[pe.1]} ∪ bad else bad) acc l <->
  p ∈ acc \/ exists i, (p, i) ∈ l /\ (tv_matches i < n)%Z.
Proof.
  induction l as [|[q j] l IH]; intros acc p; cbn [foldl].
  - split; [by left|]. intros [?|(i & Hi & _)]; [done|by apply elem_of_nil in Hi].
  - rewrite IH. cbn [fst snd]. split.
    + intros [H|(i & Hi & Hn)]; [|right; exists i; split; [by right|done]]. destruct (decide (tv_matches j < n)%Z) as [L|L]; [|by left].
      apply elem_of_union in H as [->%elem_of_singleton|H]; [|by left]. right. exists j. split; [by left|done].
    + intros [H|(i & Hi & Hn)].
      * left. destruct (decide _); [|done]. by apply elem_of_union; right.
      * apply elem_of_cons in Hi as [[= -> ->]|Hi]; [|right; by exists i]. left. rewrite decide_True by done. apply elem_of_union; left; by apply elem_of_singleton.
Qed.
Lemma remove_weak n (oe : order ((N * N) * two_view)) (op : order (N * N)) c : reachable c ->
  restricted c (remove_pairs op c (foldl (fun (bad : gset (N * N)) pe => if decide (tv_matches pe.2 < n)%Z then {[pe.1]} ∪ bad else bad) ∅ (oe (map_to_list (vg_edges c))))) (enough c n).
Proof.
  intros Hc. destruct (reach_rel c Hc) as [g Hg]. set (bad := foldl _ _ _). destruct (remove_pairs_ok op c g bad Hg) as (g' & Hg' & Hv & Hl).
  apply (restricted_of_vrel c g _ g'); [done|done|done|]. intros x y i. rewrite Hl.
  assert (B : forall a b, (a, b) ∈ bad <-> exists j, vg_edges c !! (a, b) = Some j /\ (tv_matches j < n)%Z).
  { intros a b. unfold bad. rewrite weak_pairs. split.
    - intros [H|(j & Hj & Hn)]; [by apply elem_of_empty in H|]. exists j. split; [|done]. rewrite ord_perm in Hj. by apply elem_of_map_to_list in Hj.
    - intros (j & Hj & Hn). right. exists j. split; [|done]. rewrite ord_perm. by apply elem_of_map_to_list. }
  destruct (vrel_answers _ _ Hg) as (_ & _ & Hget & _). pose proof Hg as (_ & _ & _ & (Hsym & Hirr & _)).
  assert (C : forall a b j, vg_edges c !! (a, b) = Some j -> ag_label g a b = Some j). { intros a b j Hj. apply edges_lookup in Hj as [_ Hj]; [|done]. by rewrite <- Hget. }
  split.
  - intros (Hi & H1 & H2). split; [done|]. exists i. rewrite Hget. split; [done|]. destruct (decide (n <= tv_matches i)%Z) as [|L]; [done|exfalso].
    destruct (decide (x < y)%N) as [Lt|Lt].
    + apply H1, B. exists i. split; [|lia]. apply edges_lookup; [done|]. by rewrite Hget.
    + apply H2, B. exists i. split; [|lia]. apply edges_lookup; [done|]. cbn. rewrite Hget, <- Hsym. split; [|done]. destruct (decide (x = y)) as [->|]; [congruence|lia].
  - intros [Hi (j & Hj & Hn)]. rewrite Hget, Hi in Hj. injection Hj as <-. split; [done|]. split; intros (j & Hj & Hn')%B; apply C in Hj; [|rewrite <- Hsym in Hj]; rewrite Hi in Hj; injection Hj as <-; lia.
Qed.
Lemma restricted_edge c c' keep a b i : restricted c c' keep -> vg_get_edge c' a b = Some i -> vg_get_edge c a b = Some i /\ keep a b.
Proof. intros (H & _). apply H. Qed.

Lemma erase_lookup (o : order N) (os : gmap N v3) removed u : erase_orientations o os removed !! u = if decide (u ∈ removed) then None else os !! u.
Proof.
  unfold erase_orientations. assert (K : forall l (m : gmap N v3), foldl (fun os u => delete u os) m l !! u = if decide (u ∈ l) then None else m !! u).
  { clear. induction l as [|x l IH]; intros m; cbn [foldl]; [by rewrite decide_False by apply not_elem_of_nil|]. rewrite IH. destruct (decide (u ∈ l)) as [I|I]; [by rewrite decide_True by (by right)|].
    destruct (decide (u = x)) as [->|Ne]; [by rewrite lookup_delete, decide_True by left|]. rewrite lookup_delete_ne by done. rewrite decide_False; [done|]. rewrite elem_of_cons. tauto. }
  rewrite K. destruct (decide (u ∈ removed)) as [I|I]; [rewrite decide_True|rewrite decide_False]; [done|rewrite ord_perm; by apply elem_of_elements|done|rewrite ord_perm; by rewrite elem_of_elements].
Qed.

(** ** RemoveView *)
Lemma remove_view_one o c v : reachable c -> views_removed c (vg_remove_view o c v).1 {[v]} /\ (vg_has_view c v = true -> (vg_remove_view o c v).2 = true).
Proof.
  intros Hc. destruct (reach_rel c Hc) as [g Hg]. destruct (vrel_remove_view o c g v Hg) as [Hg' E]. destruct (vrel_answers _ _ Hg) as (V & _ & L & _). destruct (vrel_answers _ _ Hg') as (V' & _ & L' & _).
  destruct Hg as (_ & _ & _ & (Hsym & _ & Hin)). cbn [ag_step] in V', L', E. split; [split|].
  - intros u. rewrite V', V. destruct (decide (v ∈ ag_views g)) as [I|I]; cbn [fst ag_views]; rewrite ?elem_of_difference, not_elem_of_singleton; [done|]. split; [|by intros [? _]]. intros H. split; [done|]. by intros ->.
  - intros a b. rewrite L', L. destruct (decide (v ∈ ag_views g)) as [I|I]; cbn [fst ag_label].
    + destruct (decide (a = v \/ b = v)) as [D|D]; [rewrite decide_True by (rewrite !elem_of_singleton; tauto)|rewrite decide_False by (rewrite !elem_of_singleton; tauto)]; done.
    + destruct (decide _) as [D|D]; [|done]. rewrite !elem_of_singleton in D. destruct (ag_label g a b) eqn:Z; [|done]. exfalso. apply I. destruct D as [<-|<-]; [apply (Hin a b)|apply (Hin b a); rewrite Hsym]; by rewrite Z.
  - intros H. apply V in H. rewrite E. by rewrite decide_True.
Qed.
Lemma views_removed_trans c c1 c2 A B : views_removed c c1 A -> views_removed c1 c2 B -> views_removed c c2 (A ∪ B).
Proof.
  intros [V1 E1] [V2 E2]. split.
  - intros v. rewrite V2, V1, not_elem_of_union. tauto.
  - intros a b. rewrite E2, E1. repeat case_decide; rewrite !elem_of_union in *; tauto.
Qed.
Lemma views_removed_refl c : views_removed c c ∅.
Proof. split; [intros v; split; [by intros|by intros [? _]]|]. intros a b. rewrite decide_False; [done|]. by intros [?%elem_of_empty|?%elem_of_empty]. Qed.
Lemma rigid_loop o c0 keep (l : list (N * v3)) : (forall x, x ∈ l -> vg_has_view c0 x.1 = true) -> forall c, reachable c ->
  exists c', run_steps (rigid_step o c0 keep) c l = Ok c' /\ reachable c' /\ views_removed c c' (list_to_set l.*1 ∖ keep).
Proof.
  induction l as [|x l IH]; intros Hl c Hc; cbn [run_steps].
  - exists c. split; [done|]. split; [done|]. replace (list_to_set [].*1 ∖ keep) with (∅ : gset N) by (apply set_eq; intros; set_solver). apply views_removed_refl.
  - unfold rigid_step at 2. unfold check at 1. rewrite (Hl x) by left. cbn [mbind outcome_bind].
    assert (Hl' : forall y, y ∈ l -> vg_has_view c0 y.1 = true) by (intros y Hy; apply Hl; by right).
    destruct (bool_decide (x.1 ∉ keep)) eqn:K; cbn [andb].
    + apply bool_decide_eq_true in K. destruct (remove_view_one o c x.1 Hc) as [R1 R2]. destruct (vg_has_view c x.1) eqn:V.
      * destruct (vg_remove_view o c x.1) as [c1 ok] eqn:Er. cbn [fst snd] in R1, R2. rewrite (R2 eq_refl). cbn [mbind outcome_bind].
        destruct (IH Hl' c1) as (c' & R & Hc' & Hr). { pose proof (reach_remove_view o c x.1 Hc) as Z. by rewrite Er in Z. }
        exists c'. split; [done|]. split; [done|]. pose proof (views_removed_trans _ _ _ _ _ R1 Hr) as Z. replace (list_to_set (x :: l).*1 ∖ keep) with ({[x.1]} ∪ (list_to_set l.*1 ∖ keep) : gset N); [done|].
        apply set_eq. intros u. cbn. clear - K. set_solver.
      * cbn [mbind outcome_bind]. destruct (IH Hl' c Hc) as (c' & R & Hc' & Hr). exists c'. split; [done|]. split; [done|].
        assert (R0 : views_removed c c {[x.1]}).
        { split.
          - intros v. rewrite not_elem_of_singleton. split; [|by intros [? _]]. intros H. split; [done|]. intros ->. congruence.
          - intros a b. destruct (decide _) as [D|D]; [|done]. rewrite !elem_of_singleton in D. destruct (vg_get_edge c a b) eqn:Z; [|done]. exfalso.
            destruct (edge_views c a b Hc) as (_ & Va & Vb); [apply has_edge_iff; by eexists|]. destruct D as [D|D]; rewrite D in *; congruence. }
        pose proof (views_removed_trans _ _ _ _ _ R0 Hr) as Z. replace (list_to_set (x :: l).*1 ∖ keep) with ({[x.1]} ∪ (list_to_set l.*1 ∖ keep) : gset N); [done|].
        apply set_eq. intros u. cbn. clear - K. set_solver.
    + apply bool_decide_eq_false in K. cbn [mbind outcome_bind]. destruct (IH Hl' c Hc) as (c' & R & Hc' & Hr). exists c'. split; [done|]. split; [done|].
      replace (list_to_set (x :: l).*1 ∖ keep) with (list_to_set l.*1 ∖ keep : gset N); [done|]. apply set_eq. intros u. cbn. destruct (decide (x.1 ∈ keep)) as [I|I]; [|done]. clear - I. set_solver.
Qed.

(** ** The steps of the pipeline *)
Lemma refined_list (f : N * N -> two_view -> v3) (l : list ((N * N) * two_view)) : base.NoDup l.*1 -> forall m : gmap (N * N) two_view,
  (forall p i, (p, i) ∈ l -> m !! p = Some i -> foldl (fun m pe => alter (with_position (f pe.1 pe.2)) pe.1 m) m l !! p = Some (with_position (f p i) i)) /\
  (forall p, p ∉ l.*1 -> foldl (fun m pe => alter (with_position (f pe.1 pe.2)) pe.1 m) m l !! p = m !! p).
Proof.
  induction l as [|[q j] l IH]; intros ND m.
  - split; [intros p i H; by apply elem_of_nil in H|done].
  - cbn [fmap list_fmap fst] in ND. apply NoDup_cons in ND as [Nq ND]. cbn [foldl fst snd]. destruct (IH ND (alter (with_position (f q j)) q m)) as [I1 I2]. split.
    + intros p i Hp Hm. apply elem_of_cons in Hp as [[= -> ->]|Hp].
      * rewrite I2 by done. by rewrite lookup_alter, Hm.
      * apply I1; [done|]. rewrite lookup_alter_ne; [done|]. intros ->. apply Nq. apply elem_of_list_fmap. by exists (p, i).
    + intros p Hp. cbn [fmap list_fmap fst] in Hp. apply not_elem_of_cons in Hp as [Hp1 Hp2]. rewrite I2 by done. by rewrite lookup_alter_ne by congruence.
Qed.

Section stages.
Context {F P W : Type} (w : world F P W) (E : nat -> env F P W) (G : nat -> graph_orders) (so : solvers F) (opts : global_options).
Notation recon := (recon F (list R) (list R)).
Notation heap := (gmap N BundleAdjust_Model.intrinsics).

Lemma refine_steps r h os (l : list ((N * N) * two_view)) :
  (forall pe, pe ∈ l -> (pe.1.1 < pe.1.2)%N /\ is_Some (rc_views r !! pe.1.1) /\ is_Some (rc_views r !! pe.1.2) /\ is_Some (os !! pe.1.1) /\ is_Some (os !! pe.1.2)) ->
  forall c, run_steps (refine_step so r h os) c l = Ok (VG (vg_vertices c) (foldl (fun m pe => alter (with_position (so_refine so r h os pe.1 pe.2)) pe.1 m) (vg_edges c) l)).
Proof.
  induction l as [|pe l IH]; intros Hl c; cbn [run_steps foldl]; [by destruct c|].
  destruct (Hl pe) as (L & [v1 V1] & [v2 V2] & [o1 O1] & [o2 O2]); [left|]. unfold refine_step at 2. rewrite V1, V2, O1, O2. cbn [or_ub or_die mbind outcome_bind].
  rewrite IH by (intros x Hx; apply Hl; by right). unfold vg_update_edge, view_id_pair. rewrite decide_True by done. cbn. by destruct pe as [[? ?] ?].
Qed.
Lemma refine_reach r h os (l : list ((N * N) * two_view)) : forall c c', reachable c -> run_steps (refine_step so r h os) c l = Ok c' -> reachable c'.
Proof.
  induction l as [|pe l IH]; intros c c' Hc; cbn [run_steps]; [by intros [= <-]|].
  unfold refine_step at 2. destruct (rc_views r !! pe.1.1), (rc_views r !! pe.1.2), (os !! pe.1.1), (os !! pe.1.2); cbn [or_ub or_die mbind outcome_bind]; try discriminate. intros K. eapply IH; [|exact K]. by apply reach_update.
Qed.
Definition ready (r : recon) (os : gmap N v3) c : Prop := forall a b, vg_has_edge c a b = true -> is_Some (rc_views r !! a) /\ is_Some (os !! a).
Lemma optimize_ok r h os c : reachable c -> has_valid_ids c -> ready r os c ->
  exists c', optimize_translations G so opts r h os c = Ok c' /\ refined so opts r h os c c' /\ reachable c' /\ has_valid_ids c'.
Proof.
  intros Hc Hid Hr. unfold optimize_translations, refined. destruct (go_refine_translations opts); [|by exists c].
  set (l := gr_edges (G 3) (map_to_list (vg_edges c))).
  assert (Hl : forall pe, pe ∈ l <-> vg_edges c !! pe.1 = Some pe.2). { intros [p i]. unfold l. rewrite ord_perm. apply elem_of_map_to_list. }
  assert (ND : base.NoDup l.*1). { unfold l. rewrite ord_perm. apply NoDup_fst_map_to_list. }
  assert (Hp : forall pe, pe ∈ l -> (pe.1.1 < pe.1.2)%N /\ is_Some (rc_views r !! pe.1.1) /\ is_Some (rc_views r !! pe.1.2) /\ is_Some (os !! pe.1.1) /\ is_Some (os !! pe.1.2)).
  { intros pe Hpe. apply Hl, edges_lookup in Hpe as [L He]; [|done]. destruct (Hr pe.1.1 pe.1.2) as [? ?]; [apply has_edge_iff; by eexists|]. destruct (Hr pe.1.2 pe.1.1) as [? ?]; [apply has_edge_iff; rewrite edge_sym by done; by eexists|]. done. }
  pose proof (refine_steps r h os l Hp c) as Er. rewrite Er. eexists. split; [done|]. pose proof (refine_reach r h os l c _ Hc Er) as Hc'.
  destruct (refined_list (fun p i => so_refine so r h os p i) l ND (vg_edges c)) as [R1 R2].
  assert (Hv : forall v, vg_has_view (VG (vg_vertices c) (foldl (fun m pe => alter (with_position (so_refine so r h os pe.1 pe.2)) pe.1 m) (vg_edges c) l)) v = vg_has_view c v) by done.
  split; [|split; [done|]].
  - split; [done|]. split.
    + intros a b Hn. unfold vg_get_edge in *. cbn [vg_edges]. rewrite R2; [done|]. intros Hin. apply elem_of_list_fmap in Hin as ([p i] & Hp1 & Hp2). apply Hl in Hp2. cbn in *. congruence.
    + intros a b i L Hi. unfold vg_get_edge, view_id_pair in *. rewrite decide_True in * by done. cbn [vg_edges]. rewrite (R1 (a, b) i); [done|by apply Hl|done].
  - intros v Hv'. by apply Hid.
Qed.
Lemma refined_back r h os c c' a b i' : reachable c -> reachable c' -> refined so opts r h os c c' -> vg_get_edge c' a b = Some i' ->
  exists i, vg_get_edge c a b = Some i /\ same_but_position i i'.
Proof.
  intros Hc Hc' Hr Hi. unfold refined in Hr. destruct (go_refine_translations opts); [|subst; exists i'; done]. destruct Hr as (_ & H2 & H3).
  destruct (vg_get_edge c a b) as [i|] eqn:Ei; [|rewrite (H2 a b Ei) in Hi; discriminate]. exists i. split; [done|]. destruct (decide (a < b)%N) as [L|L].
  - rewrite (H3 a b i L Ei) in Hi. injection Hi as <-. done.
  - rewrite edge_sym in Ei, Hi by done. destruct (decide (a = b)) as [->|Ne].
    + exfalso. destruct (edge_views c b b Hc) as [Z _]; [apply has_edge_iff; by eexists|done].
    + rewrite (H3 b a i) in Hi; [|lia|done]. injection Hi as <-. done.
Qed.
Lemma refined_views r h os c c' v : refined so opts r h os c c' -> vg_has_view c' v = vg_has_view c v.
Proof. unfold refined. destruct (go_refine_translations opts); [by intros (H & _)|by intros ->]. Qed.

Lemma angle_steps os c (l : list ((N * N) * two_view)) :
  (forall pe, pe ∈ l -> is_Some (os !! pe.1.1) /\ is_Some (os !! pe.1.2) /\ vg_has_view c pe.1.1 = true /\ vg_has_view c pe.1.2 = true) ->
  run_steps (angle_step c os) tt l = Ok tt.
Proof.
  induction l as [|pe l IH]; intros Hl; [done|]. cbn [run_steps]. destruct (Hl pe) as ([o1 O1] & [o2 O2] & V1 & V2); [left|].
  unfold angle_step at 2. rewrite O1, O2, V1, V2. cbn [or_die check mbind outcome_bind]. apply IH. intros x Hx. apply Hl. by right.
Qed.
Lemma rigid_ok os c : reachable c -> has_valid_ids c -> (forall a b, vg_has_edge c a b = true -> is_Some (os !! a)) -> (forall u, is_Some (os !! u) -> vg_has_view c u = true) ->
  exists c', (if go_rigid opts then extract_rigid G so os c else Ok c) = Ok c' /\ rigid_part so opts os c c' /\ reachable c' /\ has_valid_ids c'.
Proof.
  intros Hc Hid Ho Hv. unfold rigid_part. destruct (go_rigid opts); [|by exists c]. unfold extract_rigid.
  rewrite angle_steps.
  2:{ intros pe Hpe. rewrite ord_perm in Hpe. destruct pe as [p i]. apply elem_of_map_to_list, edges_lookup in Hpe as [L He]; [|done]. cbn [fst].
      assert (X : vg_has_edge c p.1 p.2 = true) by (apply has_edge_iff; by eexists). assert (Y : vg_has_edge c p.2 p.1 = true) by (apply has_edge_iff; rewrite edge_sym by done; by eexists).
      destruct (edge_views c _ _ Hc X) as (_ & V1 & V2). split; [by eapply Ho|]. split; [by eapply Ho|done]. }
  cbn [mbind outcome_bind].
  destruct (rigid_loop (gr_views (G 4)) c (so_rigid so os (vg_edges c)) (gr_orientations (G 4) (map_to_list os))) with (c := c) as (c' & Er & Hc' & Hr).
  { intros [u q] Hx. rewrite ord_perm in Hx. apply elem_of_map_to_list in Hx. apply Hv. by eexists. }
  { done. }
  exists c'. split; [done|]. assert (Hr' : views_removed c c' (dom os ∖ so_rigid so os (vg_edges c))).
  { replace (dom os) with (list_to_set (gr_orientations (G 4) (map_to_list os)).*1 : gset N); [done|]. apply set_eq. intros u. rewrite elem_of_list_to_set, elem_of_dom, elem_of_list_fmap. split.
    - intros ([v q] & -> & Hx). rewrite ord_perm in Hx. apply elem_of_map_to_list in Hx. by eexists.
    - intros [q Hq]. exists (u, q). split; [done|]. rewrite ord_perm. by apply elem_of_map_to_list. }
  split; [done|]. split; [done|]. intros v V. apply Hr' in V as [V _]. by apply Hid.
Qed.
Lemma rigid_back os c c' a b i : rigid_part so opts os c c' -> vg_get_edge c' a b = Some i -> vg_get_edge c a b = Some i.
Proof. unfold rigid_part. destruct (go_rigid opts); [|by intros ->]. intros [_ H]. rewrite H. by destruct (decide _). Qed.

Lemma translations_ok os c : reachable c -> has_valid_ids c -> (forall a b, vg_has_edge c a b = true -> is_Some (os !! a)) ->
  exists c', (if go_filter_translations opts
       then filter_translations (gr_edges (G 5)) (gr_pairs (G 5)) (gr_weights (G 5)) (gr_nodes (G 5)) (gr_degrees (G 5)) (gr_schedule (G 5)) (gr_bad (G 5))
              (so_axes so) (go_filter_iterations opts) (go_tolerance opts) os c
       else Ok c) = Ok c' /\ translations_filtered so opts os c c' /\ reachable c' /\ has_valid_ids c'.
Proof.
  intros Hc Hid Ho. unfold translations_filtered. destruct (go_filter_translations opts); [|by exists c]. pose proof Hc as [ops Eops]. subst c.
  destruct (TranslationFilter_Props.translation_filter_exact (gr_weights (G 5)) (gr_nodes (G 5)) (gr_degrees (G 5)) (so_axes so) (go_filter_iterations opts) (go_tolerance opts) os ops) as [H _].
  destruct H as (rank & Hrank & H); [intros a b _ He; by eapply Ho|]. destruct (H (gr_edges (G 5)) (gr_pairs (G 5)) (gr_schedule (G 5)) (gr_bad (G 5))) as (c' & Er & Hres). exists c'. split; [done|]. split; [by exists rank|].
  split; [|by eapply restricted_ids]. revert Er. unfold filter_translations. destruct (rotate_translations _ _ _); [|discriminate..]. cbn [mbind outcome_bind]. destruct (run_steps _ _ _); [|discriminate..]. cbn [mbind outcome_bind]. intros [= <-].
  apply reach_foldl; [|done]. intros. by apply reach_remove_edge.
Qed.
Lemma translations_back os c c' a b i : translations_filtered so opts os c c' -> vg_get_edge c' a b = Some i -> vg_get_edge c a b = Some i.
Proof. unfold translations_filtered. destruct (go_filter_translations opts); [|by intros ->]. intros (rank & _ & H & _) Hi. by apply H in Hi as [? _]. Qed.
Lemma translations_views os c c' v : translations_filtered so opts os c c' -> vg_has_view c' v = vg_has_view c v.
Proof. unfold translations_filtered. destruct (go_filter_translations opts); [|by intros ->]. by intros (rank & _ & _ & H & _). Qed.

Lemma filter_rotations_ok os c : aa_canonical (so_angle_axis so) -> (0 <= go_max_degrees opts)%R -> reachable c -> has_valid_ids c ->
  exists c1 c2 os2, filter_rotations G so opts os c = Ok (c2, os2) /\ restricted c c1 (agrees c os (go_max_degrees opts)) /\ largest_part c1 c2 /\ erased c1 c2 os os2 /\
    reachable c2 /\ has_valid_ids c2 /\ connected c2.
Proof.
  intros Hf Hm Hc Hid. unfold filter_rotations. pose proof Hc as [ops Eops]. subst c.
  destruct (orientation_filter_exact (so_angle_axis so) (gr_edges (G 2)) (gr_pairs (G 2)) ops os (go_max_degrees opts) Hf) as [H _]. destruct (H Hm) as (c1 & E1 & R1). rewrite E1. cbn [mbind outcome_bind].
  assert (Hc1 : reachable c1). { revert E1. unfold filter_from_orientation. destruct (Rlt_dec _ _); [discriminate|]. intros [= <-]. by apply reach_remove_pairs. }
  destruct (disconnect_ok (gr_pairs (G 2)) (gr_views (G 2)) (gr_components (G 2)) c1 Hc1) as (c2 & removed & E2 & L2 & Rm & Hc2 & Hid2 & Hco); [by eapply restricted_ids|].
  rewrite E2. cbn [mbind outcome_bind]. exists c1, c2. eexists. split; [done|]. split; [done|]. split; [done|]. split; [|done].
  intros u. rewrite erase_lookup. destruct (decide (u ∈ removed)) as [I|I]; [rewrite decide_True by (by apply Rm)|rewrite decide_False by (by rewrite <- Rm)]; done.
Qed.
Lemma filter_relative_ok os c : reachable c -> has_valid_ids c -> (forall a b, vg_has_edge c a b = true -> is_Some (os !! a)) -> (forall u, is_Some (os !! u) -> vg_has_view c u = true) ->
  exists c1 c2 c3 os3, filter_relative_translations G so opts os c = Ok (c3, os3) /\ rigid_part so opts os c c1 /\ translations_filtered so opts os c1 c2 /\ largest_part c2 c3 /\ erased c2 c3 os os3 /\
    reachable c1 /\ reachable c2 /\ reachable c3 /\ has_valid_ids c3 /\ connected c3.
Proof.
  intros Hc Hid Ho Hv. unfold filter_relative_translations. destruct (rigid_ok os c Hc Hid Ho Hv) as (c1 & E1 & R1 & Hc1 & Hid1). rewrite E1. cbn [mbind outcome_bind].
  destruct (translations_ok os c1 Hc1 Hid1) as (c2 & E2 & T2 & Hc2 & Hid2). { intros a b [i Hi]%has_edge_iff. apply (rigid_back os c c1) in Hi; [|done]. eapply Ho, has_edge_iff. by eexists. }
  rewrite E2. cbn [mbind outcome_bind]. destruct (disconnect_ok (gr_pairs (G 5)) (gr_views (G 5)) (gr_components (G 5)) c2 Hc2 Hid2) as (c3 & removed & E3 & L3 & Rm & Hc3 & Hid3 & Hco).
  rewrite E3. cbn [mbind outcome_bind]. exists c1, c2, c3. eexists. split; [done|]. split; [done|]. split; [done|]. split; [done|]. split; [|done].
  intros u. rewrite erase_lookup. destruct (decide (u ∈ removed)) as [I|I]; [rewrite decide_True by (by apply Rm)|rewrite decide_False by (by rewrite <- Rm)]; done.
Qed.

Lemma filter_initial_ok c : reachable c -> has_valid_ids c -> exists c1 c2 ok, filter_initial G opts c = Ok (c2, ok) /\ restricted c c1 (enough c (go_min_matches opts)) /\ largest_part c1 c2 /\
  (ok = true <-> exists a b, vg_has_edge c2 a b = true) /\ reachable c2 /\ has_valid_ids c2 /\ connected c2.
Proof.
  intros Hc Hid. unfold filter_initial. set (c1 := remove_pairs _ _ _). assert (R1 : restricted c c1 (enough c (go_min_matches opts))) by (apply remove_weak; done).
  assert (Hc1 : reachable c1) by (by apply reach_remove_pairs). destruct (disconnect_ok (gr_pairs (G 0)) (gr_views (G 0)) (gr_components (G 0)) c1 Hc1) as (c2 & removed & E2 & L2 & Rm & Hc2 & Hid2 & Hco); [by eapply restricted_ids|].
  rewrite E2. cbn [mbind outcome_bind]. exists c1, c2. eexists. split; [done|]. split; [done|]. split; [done|]. split; [|done]. rewrite bool_decide_eq_true. unfold vg_num_edges. split.
  - intros H. destruct (Classical_Prop.classic (exists a b, vg_has_edge c2 a b = true)) as [|N]; [done|exfalso]. assert (Z : vg_edges c2 = ∅); [|rewrite Z, map_size_empty in H; lia].
    apply no_edges_empty; [done|]. intros a b. destruct (vg_has_edge c2 a b) eqn:K; [|done]. exfalso. apply N. by exists a, b.
  - intros (a & b & He). destruct (size (vg_edges c2)) eqn:Z; [|lia]. apply map_size_empty_inv in Z. pose proof (proj2 (no_edges_empty c2 Hc2) Z a b). congruence.
Qed.
Lemma estimate_rotations_ok c : aa_canonical (so_angle_axis so) -> reachable c -> has_valid_ids c -> (exists a b, vg_has_edge c a b = true) ->
  exists init, started opts c init /\ estimate_rotations G so opts c = Ok (so_rotations so (vg_edges c) init).
Proof.
  intros Hf Hc Hid He. unfold estimate_rotations, started. pose proof Hc as [ops Eops]. subst c.
  destruct (orientations_from_mst_exact (so_angle_axis so) (so_heap so) (gr_views (G 1)) (gr_pairs (G 1)) (gr_views (G 1)) (gr_components (G 1)) (gr_components (G 1)) (gr_views (G 1)) (gr_edges (G 1)) (gr_pairs (G 1)) ops ∅ Hf Hid He)
    as (X & T & root & R & E0 & HX & HT & Hroot & H0 & H1 & H2 & H3); [by intros|].
  destruct (vrel_run ops _ _ vrel_empty) as [Hr _].
  assert (K : exists (X : gset N) T root, largest_component (vg_run vg_empty ops).1 X /\ maximum_tree (vg_run vg_empty ops).1 X T /\ root ∈ X /\ R !! root = Some (Camera_Model.V3 0 0 0) /\
     (forall v, is_Some (R !! v) <-> v ∈ X) /\ (forall a b, (a, b) ∈ T -> chained (vg_run vg_empty ops).1 R a b)).
  { exists X, T, root. split; [by apply (largest_abs _ _ X Hr)|]. split; [done|]. split; [done|]. split; [done|]. split; [|done]. intros v. split; [|apply H1]. intros Hs. destruct (decide (v ∈ X)) as [|Nv]; [done|]. rewrite (H2 v Nv), lookup_empty in Hs. by destruct Hs. }
  destruct (go_rotations opts); [| |exists ∅; done]; (exists R; split; [exact K|]; rewrite E0; done).
Qed.
Lemma started_views c init u : reachable c -> started opts c init -> is_Some (init !! u) -> vg_has_view c u = true.
Proof.
  intros Hc Hs Hu. assert (K : forall X, component c X -> u ∈ X -> vg_has_view c u = true).
  { intros X (a & b & Hab & HX) HuX. apply HX in HuX. apply rtc_inv_r in HuX as [<-|(y & _ & Hy)]; [by apply (edge_views c a b Hc Hab)|]. by apply (edge_views c y u Hc Hy). }
  unfold started in Hs. destruct (go_rotations opts); [destruct Hs as (X & T & root & [HX _] & _ & _ & _ & Hdom & _); apply (K X); [done|by apply Hdom]..|]. rewrite Hs, lookup_empty in Hu. by destruct Hu.
Qed.
End stages.
