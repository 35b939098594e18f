(** Proofs about the view graph model. *)
From stdpp Require Import gmap.
From Verif Require Import Base ConnectedComponents_Model ConnectedComponents_Spec
  ConnectedComponents_Proofs ViewGraph_Model ViewGraph_Spec.

Section proofs.
Context {E : Type}.
Implicit Types (c : view_graph E) (g : agraph E).

Definition vrel c g : Prop :=
  dom (vg_vertices c) = ag_views g /\
  (forall v ns, vg_vertices c !! v = Some ns -> forall u, u ∈ ns <-> is_Some (ag_label g v u)) /\
  (forall a b, vg_edges c !! (a, b) = if decide (a < b)%N then ag_label g a b else None) /\
  simple_graph g.

Lemma vrel_empty : vrel vg_empty ag_empty.
Proof.
  split_and!; simpl.
  - by rewrite dom_empty_L.
  - intros v ns H. by rewrite lookup_empty in H.
  - intros a b. rewrite lookup_empty. by case_decide.
  - split_and!; simpl; try done. intros x y [? ?]. done.
Qed.

Lemma pair_lookup c g a b : vrel c g -> vg_edges c !! view_id_pair a b = ag_label g a b.
Proof.
  intros (_ & _ & He & (Hsym & Hirr & _)). unfold view_id_pair. case_decide as H.
  - rewrite He. by rewrite decide_True.
  - rewrite He. case_decide as H2; [by rewrite Hsym|].
    assert (a = b) as -> by lia. by rewrite Hirr.
Qed.

Lemma vertex_insert_dom m v u : dom (vertex_insert m v u) = {[v]} ∪ dom m.
Proof. unfold vertex_insert. by rewrite dom_insert_L. Qed.

Lemma lookup_total_neighbors c g v u :
  vrel c g -> u ∈ (vg_vertices c !!! v) <-> is_Some (ag_label g v u).
Proof.
  intros (Hd & Hn & _ & (_ & _ & Hin)).
  rewrite lookup_total_alt. destruct (vg_vertices c !! v) as [ns|] eqn:Hv; simpl.
  - by apply Hn.
  - split; [set_solver|]. intros H%Hin. rewrite <-Hd in H.
    apply elem_of_dom in H as [? H]. congruence.
Qed.

Lemma vrel_add c g a b e :
  vrel c g -> vrel (vg_add_edge c a b e) (ag_step g (VAddEdge a b e)).1.
Proof.
  intros Hr. unfold vg_add_edge. simpl. case_decide as Hab; [done|].
  pose proof Hr as (Hd & Hn & He & (Hsym & Hirr & Hin)).
  split_and!; simpl.
  - rewrite !vertex_insert_dom, Hd. set_solver.
  - intros v ns Hv u. unfold vertex_insert in Hv.
    assert (Hns : forall x, x ∈ ns <-> (v = a /\ x = b) \/ (v = b /\ x = a) \/ is_Some (ag_label g v x)).
    { intros x. destruct (decide (v = b)) as [->|Hvb].
      - rewrite lookup_insert in Hv. injection Hv as <-.
        rewrite lookup_total_insert_ne by done.
        rewrite elem_of_union, elem_of_singleton, (lookup_total_neighbors _ _ _ _ Hr). naive_solver.
      - rewrite lookup_insert_ne in Hv by done. destruct (decide (v = a)) as [->|Hva].
        + rewrite lookup_insert in Hv. injection Hv as <-.
          rewrite elem_of_union, elem_of_singleton, (lookup_total_neighbors _ _ _ _ Hr). naive_solver.
        + rewrite lookup_insert_ne in Hv by done. rewrite (Hn v ns Hv x). naive_solver. }
    rewrite Hns. case_decide as Hs; unfold same_pair in Hs; [|naive_solver].
    split; [eauto|]. naive_solver.
  - intros x y. unfold view_id_pair.
    case_decide as H1.
    + destruct (decide ((a, b) = (x, y))) as [[= -> ->]|Hne].
      * rewrite lookup_insert, decide_True by done. rewrite decide_True; [done|by left].
      * rewrite lookup_insert_ne by done. rewrite He. case_decide; [|done].
        rewrite decide_False; [done|]. intros [[-> ->]|[-> ->]]; [done|lia].
    + destruct (decide ((b, a) = (x, y))) as [[= -> ->]|Hne].
      * rewrite lookup_insert, decide_True by lia. rewrite decide_True; [done|by right].
      * rewrite lookup_insert_ne by done. rewrite He. case_decide; [|done].
        rewrite decide_False; [done|]. intros [[-> ->]|[-> ->]]; [lia|done].
  - split_and!; simpl.
    + intros x y. repeat case_decide; unfold same_pair in *; naive_solver.
    + intros x. rewrite decide_False; [done|]. unfold same_pair. naive_solver.
    + intros x y. case_decide as Hs; unfold same_pair in Hs.
      * intros _. set_solver.
      * intros H%Hin. set_solver.
Qed.

Lemma vrel_remove_edge c g a b :
  vrel c g ->
  vrel (vg_remove_edge c a b).1 (ag_step g (VRemoveEdge a b)).1 /\
  (vg_remove_edge c a b).2 = (ag_step g (VRemoveEdge a b)).2.
Proof.
  intros Hr. unfold vg_remove_edge. simpl. rewrite (pair_lookup _ _ _ _ Hr).
  destruct (ag_label g a b) as [e|] eqn:Hl; [|done].
  pose proof Hr as (Hd & Hn & He & (Hsym & Hirr & Hin)).
  assert (Hab : a ≠ b) by congruence.
  rewrite bool_decide_true by (apply (lookup_total_neighbors _ _ _ _ Hr); eauto).
  assert (Hb : a ∈ vertex_erase (vg_vertices c) a b !!! b).
  { unfold vertex_erase. rewrite lookup_total_insert_ne by done.
    apply (lookup_total_neighbors _ _ _ _ Hr). rewrite Hsym. eauto. }
  rewrite (bool_decide_true _ Hb). simpl. split; [|done]. split_and!; simpl.
  - unfold vertex_erase. rewrite !dom_insert_L, Hd.
    assert (a ∈ ag_views g) by (eapply Hin; eauto).
    assert (b ∈ ag_views g) by (eapply Hin; rewrite Hsym; eauto). set_solver.
  - intros v ns Hv u. unfold vertex_erase in Hv.
    assert (Hns : forall x, x ∈ ns <-> ~ ((v = a /\ x = b) \/ (v = b /\ x = a)) /\ is_Some (ag_label g v x)).
    { intros x. destruct (decide (v = b)) as [->|Hvb].
      - rewrite lookup_insert in Hv. injection Hv as <-.
        rewrite lookup_total_insert_ne by done.
        rewrite elem_of_difference, elem_of_singleton, (lookup_total_neighbors _ _ _ _ Hr). naive_solver.
      - rewrite lookup_insert_ne in Hv by done. destruct (decide (v = a)) as [->|Hva].
        + rewrite lookup_insert in Hv. injection Hv as <-.
          rewrite elem_of_difference, elem_of_singleton, (lookup_total_neighbors _ _ _ _ Hr). naive_solver.
        + rewrite lookup_insert_ne in Hv by done. rewrite (Hn v ns Hv x). naive_solver. }
    rewrite Hns. case_decide as Hs; unfold same_pair in Hs; [|naive_solver].
    split; [naive_solver|]. intros [? ?]. done.
  - intros x y. unfold view_id_pair.
    case_decide as H1.
    + destruct (decide ((a, b) = (x, y))) as [[= -> ->]|Hne].
      * rewrite lookup_delete, decide_True by done. rewrite decide_True; [done|by left].
      * rewrite lookup_delete_ne by done. rewrite He. case_decide; [|done].
        rewrite decide_False; [done|]. intros [[-> ->]|[-> ->]]; [done|lia].
    + destruct (decide ((b, a) = (x, y))) as [[= -> ->]|Hne].
      * rewrite lookup_delete, decide_True by lia. rewrite decide_True; [done|by right].
      * rewrite lookup_delete_ne by done. rewrite He. case_decide; [|done].
        rewrite decide_False; [done|]. intros [[-> ->]|[-> ->]]; [lia|done].
  - split_and!; simpl.
    + intros x y. repeat case_decide; unfold same_pair in *; naive_solver.
    + intros x. by case_decide.
    + intros x y. case_decide as Hs; [intros [? ?]; done|]. apply Hin.
Qed.

(** The graph after detaching a list of neighbours from [v]. *)
Lemma remove_view_steps c v l :
  let c' := foldl (remove_view_step v) c l in
  (forall n, n ∈ l -> vg_vertices c' !! n = Some ((vg_vertices c !!! n) ∖ {[v]})) /\
  (forall n, n ∉ l -> vg_vertices c' !! n = vg_vertices c !! n) /\
  (forall a b, vg_edges c' !! (a, b) =
     if decide (Exists (fun n => view_id_pair v n = (a, b)) l) then None
     else vg_edges c !! (a, b)).
Proof.
  revert c. induction l as [|n l IH]; intros c; cbn [foldl].
  - split_and!; [intros n Hn; by apply elem_of_nil in Hn|done|].
    intros a b. rewrite decide_False; [done|]. by intros ?%Exists_nil.
  - specialize (IH (remove_view_step v c n)). cbn zeta in IH. destruct IH as (IH1 & IH2 & IH3).
    change (vg_vertices (remove_view_step v c n)) with (vertex_erase (vg_vertices c) n v) in *.
    change (vg_edges (remove_view_step v c n)) with (delete (view_id_pair v n) (vg_edges c)) in *.
    split_and!.
    + intros n' Hn'. destruct (decide (n' ∈ l)) as [Hl|Hl].
      * rewrite (IH1 n' Hl). f_equal. unfold vertex_erase.
        destruct (decide (n = n')) as [->|Hne].
        -- rewrite lookup_total_insert. set_solver.
        -- by rewrite lookup_total_insert_ne.
      * apply elem_of_cons in Hn' as [->|?]; [|done]. rewrite (IH2 n Hl).
        unfold vertex_erase. by rewrite lookup_insert.
    + intros n' Hn'. apply not_elem_of_cons in Hn' as [Hne Hl]. rewrite (IH2 n' Hl).
      unfold vertex_erase. by rewrite lookup_insert_ne.
    + intros a b. rewrite IH3. case_decide as H1.
      * rewrite decide_True; [done|]. by right.
      * destruct (decide (view_id_pair v n = (a, b))) as [Heq|Heq].
        -- rewrite Heq, lookup_delete. rewrite decide_True; [done|]. by left.
        -- rewrite lookup_delete_ne by done. rewrite decide_False; [done|].
           intros [?|?]%Exists_cons; done.
Qed.

Lemma vrel_remove_view o c g v :
  vrel c g ->
  vrel (vg_remove_view o c v).1 (ag_step g (VRemoveView o v)).1 /\
  (vg_remove_view o c v).2 = (ag_step g (VRemoveView o v)).2.
Proof.
  intros Hr. pose proof Hr as (Hd & Hn & He & (Hsym & Hirr & Hin)).
  unfold vg_remove_view. simpl.
  destruct (vg_vertices c !! v) as [ns|] eqn:Hv.
  2:{ rewrite decide_False; [done|]. rewrite <-Hd. by apply not_elem_of_dom. }
  rewrite decide_True by (rewrite <-Hd; by eapply elem_of_dom_2). simpl. split; [|done].
  destruct (remove_view_steps c v (o (elements ns))) as (H1 & H2 & H3).
  set (c' := foldl (remove_view_step v) c (o (elements ns))) in *.
  assert (Hl : forall n, n ∈ o (elements ns) <-> is_Some (ag_label g v n)).
  { intros n. rewrite (ord_perm o), elem_of_elements. by apply Hn. }
  split_and!; simpl.
  - rewrite dom_delete_L. apply set_eq. intros x. rewrite !elem_of_difference, <-Hd, !elem_of_dom.
    destruct (decide (x ∈ o (elements ns))) as [Hx|Hx].
    + rewrite (H1 x Hx). apply Hl in Hx. rewrite Hsym in Hx. apply Hin in Hx. rewrite <-Hd in Hx.
      apply elem_of_dom in Hx. naive_solver.
    + by rewrite (H2 x Hx).
  - intros x xs Hx u. apply lookup_delete_Some in Hx as [Hxv Hx].
    destruct (decide (x ∈ o (elements ns))) as [Hxl|Hxl].
    + rewrite (H1 x Hxl) in Hx. injection Hx as <-.
      rewrite elem_of_difference, elem_of_singleton, (lookup_total_neighbors _ _ _ _ Hr).
      case_decide as Hc; [|naive_solver]. split; [naive_solver|]. by intros [? ?].
    + rewrite (H2 x Hxl) in Hx. rewrite (Hn x xs Hx u).
      case_decide as Hc; [|done]. split; [|by intros [? ?]]. intros Hs.
      destruct Hc as [->| ->]; [done|]. rewrite Hsym in Hs. apply Hl in Hs. done.
  - intros a b. rewrite H3, He.
    case_decide as Hc.
    + apply Exists_exists in Hc as (n & Hnl & Hp). unfold view_id_pair in Hp.
      destruct (decide (v < n)%N); injection Hp as <- <-; case_decide; try done.
      * by rewrite decide_True by naive_solver.
      * by rewrite decide_True by naive_solver.
    + case_decide as Hlt; [|done]. case_decide as Hv2; [|done].
      destruct (ag_label g a b) as [e|] eqn:Hlab; [|done]. exfalso. apply Hc, Exists_exists.
      destruct Hv2 as [->| ->].
      * exists b. split; [apply Hl; eauto|]. unfold view_id_pair. by rewrite decide_True.
      * exists a. split; [apply Hl; rewrite Hsym; eauto|]. unfold view_id_pair.
        by rewrite decide_False by lia.
  - split_and!; simpl.
    + intros x y. repeat case_decide; naive_solver.
    + intros x. by case_decide.
    + intros x y. case_decide as Hc; [by intros [? ?]|]. intros H%Hin. set_solver.
Qed.

Lemma vrel_update c g a b f :
  vrel c g -> vrel (vg_update_edge c a b f) (ag_step g (VUpdateEdge a b f)).1.
Proof.
  intros Hr. pose proof Hr as (Hd & Hn & He & (Hsym & Hirr & Hin)).
  split_and!; simpl.
  - done.
  - intros v ns Hv u. rewrite (Hn v ns Hv u). case_decide; [|done]. by rewrite fmap_is_Some.
  - intros x y. unfold view_id_pair.
    destruct (decide (a < b)%N) as [H1|H1].
    + destruct (decide ((a, b) = (x, y))) as [[= -> ->]|Hne].
      * rewrite lookup_alter, He. repeat rewrite decide_True by (done || by left). done.
      * rewrite lookup_alter_ne by done. rewrite He. case_decide; [|done].
        rewrite decide_False; [done|]. intros [[-> ->]|[-> ->]]; [done|lia].
    + destruct (decide ((b, a) = (x, y))) as [[= -> ->]|Hne].
      * rewrite lookup_alter, He. case_decide; [|done].
        rewrite decide_True; [done|by right].
      * rewrite lookup_alter_ne by done. rewrite He. case_decide; [|done].
        rewrite decide_False; [done|]. intros [[-> ->]|[-> ->]]; [lia|done].
  - split_and!; simpl.
    + intros x y. rewrite (Hsym x y). repeat case_decide; unfold same_pair in *; naive_solver.
    + intros x. rewrite Hirr. by case_decide.
    + intros x y. case_decide; [rewrite fmap_is_Some|]; apply Hin.
Qed.

Lemma vrel_step c g op :
  vrel c g -> vrel (vg_step c op).1 (ag_step g op).1 /\ (vg_step c op).2 = (ag_step g op).2.
Proof.
  destruct op as [a b e|a b|o v|a b f]; intros Hr.
  - split; [by apply vrel_add|]. done.
  - by apply vrel_remove_edge.
  - by apply vrel_remove_view.
  - split; [by apply vrel_update|done].
Qed.

Lemma vrel_run ops : forall c g,
  vrel c g -> vrel (vg_run c ops).1 (ag_run g ops).1 /\ (vg_run c ops).2 = (ag_run g ops).2.
Proof.
  induction ops as [|op ops IH]; intros c g Hr; simpl; [done|].
  destruct (vrel_step c g op Hr) as [H1 H2].
  destruct (vg_step c op) as [c1 r], (ag_step g op) as [g1 r']. simpl in *. subst r'.
  specialize (IH c1 g1 H1). destruct (vg_run c1 ops), (ag_run g1 ops). simpl in *.
  destruct IH as [? ->]. done.
Qed.

Lemma vrel_answers c g : vrel c g -> answers_like c g.
Proof.
  intros Hr. pose proof Hr as (Hd & Hn & He & (Hsym & Hirr & Hin)).
  split_and!.
  - intros v. unfold vg_has_view. rewrite bool_decide_eq_true, <-Hd. by rewrite elem_of_dom.
  - intros a b. unfold vg_has_edge. rewrite (pair_lookup _ _ _ _ Hr).
    destruct (ag_label g a b); split; try done; by intros [? ?].
  - intros a b. by apply pair_lookup.
  - intros v ns. unfold vg_neighbors. split.
    + intros Hv. split; [rewrite <-Hd; by eapply elem_of_dom_2|]. by apply Hn.
    + intros [Hv Hu]. rewrite <-Hd in Hv. apply elem_of_dom in Hv as [ns' Hv]. rewrite Hv. f_equal.
      apply set_eq. intros u. rewrite Hu. by apply Hn.
  - unfold vg_num_views. rewrite <-Hd. by rewrite size_dom.
  - done.
  - intros a b e. rewrite He. case_decide; naive_solver.
  - unfold vg_num_edges. by rewrite size_dom.
Qed.

Lemma view_graph_refines_lemma ops :
  answers_like (vg_run vg_empty ops).1 (ag_run ag_empty ops).1 /\
  (vg_run vg_empty ops).2 = (ag_run (E := E) ag_empty ops).2 /\
  simple_graph (ag_run ag_empty ops).1.
Proof.
  destruct (vrel_run ops _ _ vrel_empty) as [H1 H2]. split_and!.
  - by apply vrel_answers.
  - done.
  - apply H1.
Qed.

(** * ExtractSubgraph *)

(** [g'] is [g0] overwritten by the edges of [g] selected by [A]. *)
Definition merged g0 g (A : N -> N -> Prop) g' : Prop :=
  (forall x y e, ag_label g' x y = Some e <->
     (A x y /\ ag_label g x y = Some e) \/ (~ A x y /\ ag_label g0 x y = Some e)) /\
  (forall x, x ∈ ag_views g' <-> x ∈ ag_views g0 \/ exists y, A x y).

Lemma merged_ext g0 g A B g' :
  (forall x y, A x y <-> B x y) -> merged g0 g A g' -> merged g0 g B g'.
Proof.
  intros HAB [H1 H2]. split.
  - intros x y e. rewrite H1, HAB. done.
  - intros x. rewrite H2. setoid_rewrite HAB. done.
Qed.

Lemma merged_refl g0 g : merged g0 g (fun _ _ => False) g0.
Proof. split; [naive_solver|]. intros x. split; [by left|]. intros [?|[? []]]; done. Qed.

Lemma merged_add g0 g A g' v u e :
  (forall x y, ag_label g x y = ag_label g y x) ->
  ag_label g v u = Some e -> v ≠ u -> merged g0 g A g' ->
  merged g0 g (fun x y => A x y \/ same_pair v u x y) (ag_step g' (VAddEdge v u e)).1.
Proof.
  intros Hsym Hl Hne [H1 H2]. simpl. rewrite decide_False by done. split; simpl.
  - intros x y e'. case_decide as Hp.
    + assert (ag_label g x y = Some e).
      { destruct Hp as [[-> ->]|[-> ->]]; [done|by rewrite Hsym]. }
      naive_solver.
    + rewrite H1. naive_solver.
  - intros x. rewrite !elem_of_union, !elem_of_singleton, H2. unfold same_pair.
    split; [intros [[->| ->]|[?|[y ?]]]; eauto 8|]. intros [?|(y & [?|[[-> ->]|[-> ->]]])]; eauto 8.
Qed.

(** Edges added while visiting vertex [v] with the neighbours [l]. *)
Definition inner_edges (S : gset N) (v : N) (l : list N) (x y : N) : Prop :=
  exists u, u ∈ l /\ u ∈ S /\ (v < u)%N /\ same_pair v u x y.

Lemma extract_inner_ok c g g0 S v l : forall A sub g',
  vrel c g -> vrel sub g' -> merged g0 g A g' ->
  (forall u, u ∈ l -> is_Some (ag_label g v u)) ->
  exists sub' g'', run_steps (extract_subgraph_inner c S v) sub l = Ok sub' /\ vrel sub' g'' /\
    merged g0 g (fun x y => A x y \/ inner_edges S v l x y) g''.
Proof.
  induction l as [|u l IH]; intros A sub g' Hr Hs Hm Hl; cbn [run_steps].
  - exists sub, g'. split_and!; [done|done|]. eapply merged_ext; [|done].
    intros x y. split; [by left|]. intros [?|(u & Hu & _)]; [done|]. by apply elem_of_nil in Hu.
  - unfold extract_subgraph_inner at 2.
    pose proof Hr as (Hd & Hn & He & (Hsym & Hirr & Hin)).
    assert (Hvu : is_Some (ag_label g v u)) by (apply Hl; by left).
    assert (Hne : v ≠ u) by (intros ->; rewrite Hirr in Hvu; by destruct Hvu).
    assert (Hl' : forall u, u ∈ l -> is_Some (ag_label g v u)) by (intros; apply Hl; by right).
    case_decide as Hskip; simpl.
    + destruct (IH A sub g' Hr Hs Hm Hl') as (sub' & g'' & -> & Hr' & Hm').
      exists sub', g''. split_and!; [done|done|]. eapply merged_ext; [|exact Hm'].
      intros x y. unfold inner_edges. setoid_rewrite elem_of_cons. split.
      * intros [?|(u' & ? & ? & ? & ?)]; eauto 10.
      * intros [?|(u' & [->|?] & ? & ? & ?)]; eauto 10. destruct Hskip; [done|lia].
    + assert (HuS : u ∈ S) by (destruct (decide (u ∈ S)); [done|tauto]).
      assert (Hlt : (v < u)%N) by (destruct (decide (u < v)%N); [tauto|lia]).
      destruct Hvu as [e Hvu].
      assert (vg_edges c !! (v, u) = Some e) as -> by (rewrite He, decide_True by done; done).
      simpl. destruct (IH (fun x y => A x y \/ same_pair v u x y) (vg_add_edge sub v u e)
                   (ag_step g' (VAddEdge v u e)).1 Hr)
        as (sub' & g'' & -> & Hr' & Hm').
      { by apply vrel_add. }
      { by apply merged_add. }
      { done. }
      exists sub', g''. split_and!; [done|done|]. eapply merged_ext; [|exact Hm'].
      intros x y. unfold inner_edges. simpl. setoid_rewrite elem_of_cons. split.
      * intros [[?|?]|(u' & ? & ? & ? & ?)]; eauto 10.
      * intros [?|(u' & [->|?] & ? & ? & ?)]; eauto 10.
Qed.

Lemma extract_outer_ok c g g0 o S l : forall A sub g',
  vrel c g -> vrel sub g' -> merged g0 g A g' ->
  (forall v ns, (v, ns) ∈ l -> vg_vertices c !! v = Some ns) ->
  exists sub' g'', run_steps (extract_subgraph_step o c S) sub l = Ok sub' /\ vrel sub' g'' /\
    merged g0 g (fun x y => A x y \/
      exists v ns, (v, ns) ∈ l /\ v ∈ S /\ inner_edges S v (o (elements ns)) x y) g''.
Proof.
  induction l as [|[v ns] l IH]; intros A sub g' Hr Hs Hm Hl; cbn [run_steps].
  - exists sub, g'. split_and!; [done|done|]. eapply merged_ext; [|done].
    intros x y. split; [by left|]. intros [?|(v & ns & Hu & _)]; [done|]. by apply elem_of_nil in Hu.
  - unfold extract_subgraph_step at 2. cbn [fst snd].
    assert (Hl' : forall v ns, (v, ns) ∈ l -> vg_vertices c !! v = Some ns)
      by (intros; apply Hl; by right).
    case_decide as Hv; simpl.
    + destruct (IH A sub g' Hr Hs Hm Hl') as (sub' & g'' & -> & Hr' & Hm').
      exists sub', g''. split_and!; [done|done|]. eapply merged_ext; [|exact Hm'].
      intros x y. setoid_rewrite elem_of_cons. split.
      * intros [?|(v' & ns' & ? & ? & ?)]; eauto 10.
      * intros [?|(v' & ns' & [[= -> ->]|?] & ? & ?)]; eauto 10. done.
    +
      destruct (extract_inner_ok c g g0 S v (o (elements ns)) A sub g' Hr Hs Hm)
        as (sub1 & g1 & -> & Hr1 & Hm1).
      { intros u. rewrite (ord_perm o), elem_of_elements.
        destruct Hr as (_ & Hn & _). apply Hn. apply Hl. by left. }
      simpl. destruct (IH _ sub1 g1 Hr Hr1 Hm1 Hl') as (sub' & g'' & -> & Hr' & Hm').
      exists sub', g''. split_and!; [done|done|]. eapply merged_ext; [|exact Hm'].
      intros x y. simpl. setoid_rewrite elem_of_cons. split.
      * intros [[?|?]|(v' & ns' & ? & ? & ?)]; eauto 10.
      * intros [?|(v' & ns' & [[= -> ->]|?] & ? & ?)]; eauto 10.
Qed.

Lemma extract_subgraph_ok c g ov o S sub g0 :
  vrel c g -> vrel sub g0 ->
  exists sub' g', vg_extract_subgraph ov o c S sub = Ok sub' /\ vrel sub' g' /\
    merged g0 g (fun x y => x ∈ S /\ y ∈ S /\ is_Some (ag_label g x y)) g'.
Proof.
  intros Hr Hs. unfold vg_extract_subgraph.
  destruct (extract_outer_ok c g g0 o S (ov (map_to_list (vg_vertices c))) _ sub g0 Hr Hs
              (merged_refl g0 g)) as (sub' & g' & -> & Hr' & Hm).
  { intros v ns. rewrite (ord_perm ov). by rewrite elem_of_map_to_list. }
  exists sub', g'. split_and!; [done|done|]. eapply merged_ext; [|exact Hm].
  pose proof Hr as (Hd & Hn & He & (Hsym & Hirr & Hin)).
  intros x y. simpl. unfold inner_edges. split.
  - intros [[]|(v & ns & Hv & HvS & u & Hu & HuS & Hlt & Hp)].
    rewrite (ord_perm ov), elem_of_map_to_list in Hv.
    rewrite (ord_perm o), elem_of_elements in Hu. apply (Hn v ns Hv) in Hu.
    destruct Hp as [[-> ->]|[-> ->]]; [done|]. by rewrite Hsym.
  - intros (Hx & Hy & Hxy). right.
    assert (Hgo : forall v u, v ∈ S -> u ∈ S -> is_Some (ag_label g v u) -> (v < u)%N ->
      exists v0 ns, (v0, ns) ∈ ov (map_to_list (vg_vertices c)) /\ v0 ∈ S /\
        exists u0, u0 ∈ o (elements ns) /\ u0 ∈ S /\ (v0 < u0)%N /\ same_pair v0 u0 v u).
    { intros v u Hv Hu Hl Hlt. pose proof (Hin _ _ Hl) as Hvd. rewrite <-Hd in Hvd.
      apply elem_of_dom in Hvd as [ns Hns]. exists v, ns.
      split; [by rewrite (ord_perm ov), elem_of_map_to_list|]. split; [done|]. exists u.
      split; [rewrite (ord_perm o), elem_of_elements; by apply (Hn v ns Hns)|].
      split_and!; [done|done|by left]. }
    destruct (decide (x < y)%N) as [Hlt|Hlt]; [by apply Hgo|].
    assert (y < x)%N.
    { assert (x ≠ y); [|lia]. intros ->. rewrite Hirr in Hxy. by destruct Hxy. }
    destruct (Hgo y x) as (v & ns & ? & ? & u & ? & ? & ? & Hp); [done..|by rewrite Hsym|done|].
    exists v, ns. split_and!; [done..|]. exists u. split_and!; [done..|].
    destruct Hp as [[? ?]|[? ?]]; [by right|by left].
Qed.

Lemma extract_subgraph_lemma ops (S : gset N) (ov : order (N * gset N)) (o : order N) :
  let c := (vg_run (E := E) vg_empty ops).1 in
  let g := (ag_run (E := E) ag_empty ops).1 in
  exists sub, vg_extract_subgraph ov o c S vg_empty = Ok sub /\
    (forall a b, vg_get_edge sub a b =
       if decide (a ∈ S /\ b ∈ S) then vg_get_edge c a b else None) /\
    (forall v, vg_has_view sub v = true <->
       exists u, v ∈ S /\ u ∈ S /\ vg_has_edge c v u = true).
Proof.
  intros c g. destruct (vrel_run ops _ _ vrel_empty) as [Hr _].
  fold c in Hr. fold g in Hr.
  destruct (extract_subgraph_ok c g ov o S _ _ Hr vrel_empty) as (sub & g' & Hok & Hr' & H1 & H2).
  exists sub. split; [done|].
  destruct (vrel_answers _ _ Hr) as (_ & Hhe & Hge & _).
  destruct (vrel_answers _ _ Hr') as (Hhv' & _ & Hge' & _). split.
  - intros a b. rewrite Hge', Hge. apply option_eq. intros e. rewrite H1. simpl.
    case_decide as Hs; [|naive_solver].
    split; [naive_solver|]. intros Hl. left. split_and!; [naive_solver..|eauto|done].
  - intros v. rewrite Hhv', H2. setoid_rewrite Hhe. simpl. set_solver.
Qed.

(** * Largest component *)

Lemma run_adds es : forall s r0, inv (cc_set s) r0 ->
  exists s', run_steps (fun s e => cc_add_edge s e.1 e.2) s es = Ok s' /\ cc_max s' = cc_max s /\
    inv (cc_set s') (foldl (fun q e => c_add (cc_max s) q e.1 e.2) r0 es).
Proof.
  induction es as [|e es IH]; intros s r0 Hi; simpl; [eauto|].
  destruct (add_edge_inv s r0 e.1 e.2 Hi) as (m' & -> & Hi'). simpl.
  destruct (IH (CC (cc_max s) m') _ Hi') as (s' & H1 & H2 & H3). eauto.
Qed.

Lemma inv_dom_eq m r0 : inv m r0 -> dom m = dom r0.
Proof. by intros [d [? _]]. Qed.

(** The components of the edge table: the blocks of the abstract partition. *)
Lemma vg_components_ok oe on c :
  exists m es, vg_components oe on c = Ok m /\ es ≡ₚ (map_to_list (vg_edges c)).*1 /\
    components_of m (spec_adds (2 ^ 32 - 1) es).
Proof.
  unfold vg_components. set (es := oe (map_to_list (vg_edges c)).*1).
  destruct (run_adds es (cc_default (2 ^ 32 - 1)) ∅ inv_empty) as (s & -> & Hcap & Hi).
  cbn [mbind outcome_bind].
  change (cc_max (cc_default (2 ^ 32 - 1))) with (2 ^ 32 - 1)%N in *.
  fold (c_run (2 ^ 32 - 1) es) in Hi.
  assert (Hord : on (elements (dom (cc_set s))) ≡ₚ elements (dom (c_run (2 ^ 32 - 1) es))).
  { rewrite (ord_perm on). by rewrite (inv_dom_eq _ _ Hi). }
  destruct (cc_extract_inv _ _ (on (elements (dom (cc_set s)))) Hi) as (m' & -> & _).
  { intros n. rewrite Hord, elem_of_elements. apply elem_of_dom. }
  cbn [mbind outcome_bind]. eexists _, es. split; [done|]. split; [apply (ord_perm oe)|].
  rewrite c_extract_components by done.
  destruct (c_run_spec (2 ^ 32 - 1) es) as [Hwf HP].
  exact (c_res_good _ _ (CExtract []) Hwf HP).
Qed.

Lemma elem_of_edge_list c g a b :
  vrel c g -> (a, b) ∈ (map_to_list (vg_edges c)).*1 <-> (a < b)%N /\ is_Some (ag_label g a b).
Proof.
  intros (_ & _ & He & _). rewrite elem_of_list_fmap. split.
  - intros ([p e] & Hpe & Hp%elem_of_map_to_list). simpl in *. subst p.
    rewrite He in Hp. case_decide; [|done]. eauto.
  - intros [Hlt [e Hl]]. exists (a, b, e). split; [done|]. apply elem_of_map_to_list.
    by rewrite He, decide_True.
Qed.

Lemma linked_adj c g es a b :
  vrel c g -> es ≡ₚ (map_to_list (vg_edges c)).*1 -> linked es a b <-> ag_adj g a b.
Proof.
  intros Hr Hp. unfold linked, ag_adj. rewrite Hp, !(elem_of_edge_list c g) by done.
  destruct Hr as (_ & _ & _ & (Hsym & Hirr & _)). rewrite (Hsym b a).
  split; [naive_solver|]. intros Hs.
  assert (a ≠ b) by (intros ->; rewrite Hirr in Hs; by destruct Hs).
  destruct (decide (a < b)%N); [by left|]. right. split; [lia|done].
Qed.

Lemma reachable_adj c g es a b :
  vrel c g -> es ≡ₚ (map_to_list (vg_edges c)).*1 -> reachable es a b <-> rtc (ag_adj g) a b.
Proof.
  intros Hr Hp. split; intros H.
  - eapply rtc_subrel; [|exact H]. intros x y. by rewrite (linked_adj c g es).
  - eapply rtc_subrel; [|exact H]. intros x y. by rewrite (linked_adj c g es).
Qed.

Lemma elem_of_mentioned es x : x ∈ mentioned es <-> exists y, linked es x y.
Proof.
  unfold mentioned, linked. rewrite elem_of_list_to_set, elem_of_list_bind. split.
  - intros ([a b] & Hx & He). simpl in Hx. rewrite !elem_of_cons in Hx.
    destruct Hx as [->|[->|Hx]]; [eauto|eauto|by apply elem_of_nil in Hx].
  - intros [y [H|H]].
    + exists (x, y). split; [by left|done].
    + exists (y, x). split; [by right; left|done].
Qed.

Lemma mentioned_views c g es :
  vrel c g -> es ≡ₚ (map_to_list (vg_edges c)).*1 ->
  forall x, x ∈ mentioned es <-> exists y, ag_adj g x y.
Proof.
  intros Hr Hp x. rewrite elem_of_mentioned. by setoid_rewrite (linked_adj c g es _ _ Hr Hp).
Qed.

End proofs.

Lemma size_list_to_set_le (l : list N) : (size (list_to_set l : gset N) <= length l)%nat.
Proof.
  induction l as [|x l IH]; simpl; [done|].
  destruct (decide (x ∈ (list_to_set l : gset N))).
  - rewrite subseteq_union_1_L by set_solver. lia.
  - rewrite size_union by set_solver. rewrite size_singleton. lia.
Qed.

Lemma size_set_map_le {A} `{Countable A} (f : A -> N) (X : gset A) :
  (size (set_map f X : gset N) <= size X)%nat.
Proof.
  unfold set_map. etransitivity; [apply size_list_to_set_le|]. by rewrite fmap_length.
Qed.

(** Sets of small ids are small. *)
Lemma size_bounded_ids (X : gset N) (k : N) :
  (forall x, x ∈ X -> (x < k)%N) -> (N.of_nat (size X) <= k)%N.
Proof.
  intros H.
  assert (size X <= size (set_map N.of_nat (set_seq 0 (N.to_nat k) : gset nat) : gset N))%nat as Hle.
  { apply subseteq_size. intros x Hx. apply elem_of_map. exists (N.to_nat x).
    split; [lia|]. apply elem_of_set_seq. specialize (H x Hx). lia. }
  assert (size (set_map N.of_nat (set_seq 0 (N.to_nat k) : gset nat) : gset N) <= N.to_nat k)%nat as Hle2.
  { etransitivity; [apply size_set_map_le|]. by rewrite size_set_seq. }
  lia.
Qed.


Section largest.
Context {E : Type}.
Implicit Types (c : view_graph E) (g : agraph E).

Lemma largest_foldl (l : list (N * gset N)) : forall best,
  let r := foldl largest_step best l in
  (r = best \/ exists k X, (k, X) ∈ l /\ r = (k, size X)) /\
  (best.2 <= r.2)%nat /\ (forall k X, (k, X) ∈ l -> (size X <= r.2)%nat).
Proof.
  induction l as [|[k X] l IH]; intros best r.
  - split_and!; [by left|done|]. intros k X H. by apply elem_of_nil in H.
  - subst r. cbn [foldl]. specialize (IH (largest_step best (k, X))). cbn zeta in IH.
    destruct IH as (H1 & H2 & H3).
    set (r := foldl largest_step (largest_step best (k, X)) l) in *.
    unfold largest_step in H1, H2. cbn [fst snd] in *.
    case_decide as Hd; cbn [fst snd] in *.
    + split_and!.
      * right. destruct H1 as [->|(k' & X' & ? & ->)].
        -- exists k, X. split; [by left|done].
        -- exists k', X'. split; [by right|done].
      * lia.
      * intros k' X' [[= -> ->]|?]%elem_of_cons; [lia|eauto].
    + split_and!.
      * destruct H1 as [->|(k' & X' & ? & ->)]; [by left|right].
        exists k', X'. split; [by right|done].
      * lia.
      * intros k' X' [[= -> ->]|?]%elem_of_cons; [lia|eauto].
Qed.

Lemma largest_cc_spec (l : list (N * gset N)) k0 X0 :
  (k0, X0) ∈ l -> X0 ≠ ∅ ->
  exists k X, (k, X) ∈ l /\ largest_cc l = (k, size X) /\
    forall k' Y, (k', Y) ∈ l -> (size Y <= size X)%nat.
Proof.
  intros Hin Hne. unfold largest_cc.
  destruct (largest_foldl l (kInvalidViewId, 0%nat)) as ([Hr|(k & X & HkX & Hr)] & _ & Hmax).
  - exfalso. specialize (Hmax k0 X0 Hin). rewrite Hr in Hmax. cbn in Hmax.
    apply Hne. apply leibniz_equiv, size_empty_inv. lia.
  - exists k, X. rewrite Hr in *. split_and!; [done|done|]. intros k' Y. apply Hmax.
Qed.

(** All view ids are valid 32-bit ids. *)
Definition ids_valid g : Prop := forall v, v ∈ ag_views g -> (v < kInvalidViewId)%N.

Lemma vg_components_classes oe on c g :
  vrel c g -> ids_valid g ->
  exists m, vg_components oe on c = Ok m /\
    (forall k X, m !! k = Some X -> ag_component g X /\ k ∈ X) /\
    (forall X, ag_component g X -> exists k, m !! k = Some X) /\
    (forall k1 k2 X, m !! k1 = Some X -> m !! k2 = Some X -> k1 = k2).
Proof.
  intros Hr Hids. destruct (vg_components_ok oe on c) as (m & es & Hm & Hes & H1 & H2 & H3).
  exists m. split; [done|].
  assert (Hcap : (N.of_nat (size (mentioned es)) <= 2 ^ 32 - 1)%N).
  { apply size_bounded_ids. intros x Hx. apply Hids.
    apply (mentioned_views c g es Hr Hes) in Hx as [y Hy].
    destruct Hr as (_ & _ & _ & (_ & _ & Hin)). by eapply Hin. }
  assert (Hiff : forall X, X ∈ spec_adds (2 ^ 32 - 1) es <-> ag_component g X).
  { intros X. rewrite spec_adds_reach_classes by done. unfold ag_component.
    setoid_rewrite (mentioned_views c g es Hr Hes).
    setoid_rewrite (reachable_adj c g es _ _ Hr Hes). naive_solver. }
  split_and!.
  - intros k X Hk. destruct (H1 k X Hk) as [HX ?]. split; [by apply Hiff|done].
  - intros X HX. apply H2. by apply Hiff.
  - done.
Qed.

Lemma ag_component_nonempty g X : ag_component g X -> X ≠ ∅.
Proof.
  intros (a & b & _ & HX). assert (a ∈ X) by (by apply HX). set_solver.
Qed.

(** The component of a vertex with an edge exists as a finite set. *)
Lemma ag_component_exists c g a b :
  vrel c g -> ids_valid g -> ag_adj g a b -> exists X, ag_component g X /\ a ∈ X.
Proof.
  intros Hr Hids Hab.
  set (es := (map_to_list (vg_edges c)).*1).
  assert (Hcap : (N.of_nat (size (mentioned es)) <= 2 ^ 32 - 1)%N).
  { apply size_bounded_ids. intros x Hx. apply Hids.
    apply (mentioned_views c g es Hr) in Hx as [y Hy]; [|done].
    destruct Hr as (_ & _ & _ & (_ & _ & Hin)). by eapply Hin. }
  assert (Ha : a ∈ mentioned es) by (apply (mentioned_views c g es Hr); eauto).
  destruct (spec_adds_partition (2 ^ 32 - 1) es) as [_ Hcov]. rewrite <-Hcov in Ha.
  apply elem_of_covered in Ha as (X & HX & HaX). exists X. split; [|done].
  apply spec_adds_reach_classes in HX as (a' & Ha' & HX); [|done].
  apply (mentioned_views c g es Hr) in Ha' as [b' Hb']; [|done].
  exists a', b'. split; [done|]. intros x. rewrite HX. by apply (reachable_adj c g es).
Qed.

Lemma largest_component_ok oe on oc c g :
  vrel c g -> ids_valid g -> (exists a b, ag_adj g a b) ->
  exists X, vg_largest_component oe on oc c = Ok X /\ ag_largest_component g X.
Proof.
  intros Hr Hids (a & b & Hab). unfold vg_largest_component.
  destruct (vg_components_classes oe on c g Hr Hids) as (m & -> & H1 & H2 & H3).
  cbn [mbind outcome_bind].
  destruct (ag_component_exists c g a b Hr Hids Hab) as (X0 & HX0 & _).
  destruct (H2 X0 HX0) as [k0 Hk0].
  destruct (largest_cc_spec (oc (map_to_list m)) k0 X0) as (k & X & HkX & Hbest & Hmax).
  { rewrite (ord_perm oc). by apply elem_of_map_to_list. }
  { by eapply ag_component_nonempty. }
  rewrite Hbest. cbn [fst]. rewrite (ord_perm oc), elem_of_map_to_list in HkX.
  destruct (H1 k X HkX) as [HX Hk].
  rewrite bool_decide_true.
  2:{ intros ->. destruct HX as (x & y & Hxy & HX). apply HX in Hk.
      assert (kInvalidViewId ∈ ag_views g) as Hin%Hids; [|lia].
      destruct Hr as (_ & _ & _ & (Hsym & _ & Hin)).
      apply rtc_inv_r in Hk as [->|(z & _ & Hz)]; [by eapply Hin|].
      eapply Hin. unfold ag_adj in Hz. rewrite Hsym. exact Hz. }
  cbn [check mbind outcome_bind]. exists X. split.
  - f_equal. by apply lookup_total_correct.
  - split; [done|]. intros Y HY. destruct (H2 Y HY) as [k' Hk'].
    apply (Hmax k'). rewrite (ord_perm oc). by apply elem_of_map_to_list.
Qed.

Lemma largest_component_abort oe on oc c g :
  vrel c g -> (forall a b, ~ ag_adj g a b) ->
  vg_largest_component oe on oc c = CheckFail.
Proof.
  intros Hr Hno. unfold vg_largest_component.
  destruct (vg_components_ok oe on c) as (m & es & -> & Hes & H1 & _).
  assert (Hm : m = ∅).
  { apply map_eq. intros k. rewrite lookup_empty. destruct (m !! k) as [X|] eqn:Hk; [|done].
    destruct (H1 k X Hk) as [HX Hkx].
    destruct (spec_adds_partition (2 ^ 32 - 1) es) as [_ Hcov].
    assert (Hk' : k ∈ mentioned es) by (rewrite <-Hcov; apply elem_of_covered; eauto).
    apply (mentioned_views c g es Hr Hes) in Hk' as [y Hy]. by apply Hno in Hy. }
  subst m. cbn [mbind outcome_bind]. rewrite map_to_list_empty.
  rewrite (Permutation_nil (Permutation_sym (ord_perm oc []))). done.
Qed.

(** * RemoveDisconnectedViewPairs *)

Definition ag_removed g (W : gset N) : agraph E :=
  AG (ag_views g ∖ W) (fun x y => if decide (x ∈ W \/ y ∈ W) then None else ag_label g x y).

Lemma vrel_ext c g g' :
  ag_views g = ag_views g' -> (forall x y, ag_label g x y = ag_label g' x y) ->
  vrel c g -> vrel c g'.
Proof.
  intros Hv Hl (Hd & Hn & He & (Hsym & Hirr & Hin)). split_and!.
  - by rewrite <-Hv.
  - intros v ns H u. rewrite <-Hl. by apply Hn.
  - intros a b. rewrite <-Hl. apply He.
  - split_and!.
    + intros x y. by rewrite <-!Hl.
    + intros x. by rewrite <-Hl.
    + intros x y. rewrite <-Hl, <-Hv. apply Hin.
Qed.

Lemma vrel_removed_step o c g W v :
  simple_graph g -> vrel c (ag_removed g W) ->
  vrel (vg_remove_view o c v).1 (ag_removed g ({[v]} ∪ W)).
Proof.
  intros (Hsym & Hirr & Hin) Hr.
  destruct (vrel_remove_view o c _ v Hr) as [Hr' _].
  eapply vrel_ext; [| |exact Hr']; simpl.
  - case_decide; set_solver.
  - intros x y. case_decide as Hv; simpl.
    + repeat case_decide; set_solver.
    + case_decide as H1; [rewrite decide_True by set_solver; done|].
      case_decide as H2; [|done]. destruct (ag_label g x y) as [e|] eqn:Hl; [|done]. exfalso.
      apply Hv. destruct (decide (x = v)) as [->|].
      * apply elem_of_difference. split; [apply (Hin v y); eauto|tauto].
      * assert (y = v) as -> by set_solver.
        apply elem_of_difference. split; [apply (Hin v x); rewrite Hsym; eauto|tauto].
Qed.

Lemma remove_views_ok o g vs : simple_graph g -> forall c W R,
  vrel c (ag_removed g W) ->
  vrel (remove_views o (c, R) vs).1 (ag_removed g (list_to_set vs ∪ W)) /\
  (remove_views o (c, R) vs).2 = list_to_set vs ∪ R.
Proof.
  intros Hg. induction vs as [|v vs IH]; intros c W R Hr.
  - simpl. rewrite !(left_id_L ∅ (∪)). done.
  - unfold remove_views. cbn [foldl fst snd].
    destruct (IH (vg_remove_view o c v).1 ({[v]} ∪ W) ({[v]} ∪ R)) as [H1 H2].
    { by apply vrel_removed_step. }
    unfold remove_views in H1, H2. split.
    + replace (list_to_set (v :: vs) ∪ W) with (list_to_set vs ∪ ({[v]} ∪ W)) by set_solver.
      exact H1.
    + rewrite H2. set_solver.
Qed.

Lemma remove_comps_ok on (kb : N) g (l : list (N * gset N)) : simple_graph g -> forall c W,
  vrel c (ag_removed g W) ->
  exists c' W',
    foldl (fun st kx => if decide (kx.1 = kb) then st
                        else remove_views on st (on (elements kx.2))) (c, W) l = (c', W') /\
    vrel c' (ag_removed g W') /\
    (forall x, x ∈ W' <-> x ∈ W \/ exists k X, (k, X) ∈ l /\ k ≠ kb /\ x ∈ X).
Proof.
  intros Hg. induction l as [|[k X] l IH]; intros c W Hr; cbn [foldl fst snd].
  - exists c, W. split_and!; [done|done|]. intros x. split; [by left|].
    intros [?|(k & X & H & _)]; [done|]. by apply elem_of_nil in H.
  - case_decide as Hk.
    + destruct (IH c W Hr) as (c' & W' & -> & Hr' & HW). exists c', W'. split_and!; [done|done|].
      intros x. rewrite HW. setoid_rewrite elem_of_cons. split.
      * intros [?|(k' & X' & ? & ? & ?)]; eauto 10.
      * intros [?|(k' & X' & [[= -> ->]|?] & ? & ?)]; eauto 10. done.
    + destruct (remove_views_ok on g (on (elements X)) Hg c W W Hr) as [H1 H2].
      destruct (remove_views on (c, W) (on (elements X))) as [c1 W1]. simpl in H1, H2. subst W1.
      destruct (IH c1 _ H1) as (c' & W' & -> & Hr' & HW). exists c', W'. split_and!; [done|done|].
      intros x. rewrite HW. rewrite elem_of_union, elem_of_list_to_set, (ord_perm on),
        elem_of_elements. setoid_rewrite elem_of_cons. split.
      * intros [[?|?]|(k' & X' & ? & ? & ?)]; eauto 10.
      * intros [?|(k' & X' & [[= -> ->]|?] & ? & ?)]; eauto 10.
Qed.

Lemma vrel_removed_empty c g : vrel c g -> vrel c (ag_removed g ∅).
Proof.
  intros Hr. eapply vrel_ext; [| |exact Hr]; simpl; [set_solver|].
  intros x y. by rewrite decide_False by set_solver.
Qed.

Lemma ag_component_same g X Y x :
  simple_graph g -> ag_component g X -> ag_component g Y -> x ∈ X -> x ∈ Y -> X = Y.
Proof.
  intros (Hsym & _) (a & a' & Ha & HX) (b & b' & Hb & HY) Hx Hy.
  assert (Hs : forall u v, rtc (ag_adj g) u v -> rtc (ag_adj g) v u).
  { intros u v H. induction H as [|u v w Huv Hvw IH]; [reflexivity|].
    eapply rtc_r; [exact IH|]. unfold ag_adj. by rewrite Hsym. }
  apply HX in Hx. apply HY in Hy. apply set_eq. intros z. rewrite HX, HY. split; intros Hz.
  - etransitivity; [exact Hy|]. etransitivity; [apply Hs, Hx|exact Hz].
  - etransitivity; [exact Hx|]. etransitivity; [apply Hs, Hy|exact Hz].
Qed.

Lemma remove_disconnected_ok oe on oc c g :
  vrel c g -> ids_valid g -> (exists a b, ag_adj g a b) ->
  exists c' W X, vg_remove_disconnected oe on oc c = Ok (c', W) /\
    ag_largest_component g X /\
    (forall v, v ∈ W <-> (exists u, ag_adj g v u) /\ v ∉ X) /\
    vrel c' (ag_removed g W).
Proof.
  intros Hr Hids (a & b & Hab). unfold vg_remove_disconnected.
  pose proof Hr as (_ & _ & _ & Hg).
  destruct (vg_components_classes oe on c g Hr Hids) as (m & -> & H1 & H2 & H3).
  cbn [mbind outcome_bind].
  destruct (ag_component_exists c g a b Hr Hids Hab) as (X0 & HX0 & _).
  destruct (H2 X0 HX0) as [k0 Hk0].
  destruct (largest_cc_spec (oc (map_to_list m)) k0 X0) as (k & X & HkX & Hbest & Hmax).
  { rewrite (ord_perm oc). by apply elem_of_map_to_list. }
  { by eapply ag_component_nonempty. }
  rewrite Hbest. cbn [fst].
  destruct (remove_comps_ok on k g (oc (map_to_list m)) Hg c ∅ (vrel_removed_empty c g Hr))
    as (c' & W & -> & Hr' & HW).
  rewrite (ord_perm oc), elem_of_map_to_list in HkX. destruct (H1 k X HkX) as [HX Hk].
  exists c', W, X. split_and!; [done| | |done].
  - split; [done|]. intros Y HY. destruct (H2 Y HY) as [k' Hk'].
    apply (Hmax k'). rewrite (ord_perm oc). by apply elem_of_map_to_list.
  - intros v. rewrite HW. split.
    + intros [?|(k' & Y & HY & Hne & Hv)]; [set_solver|].
      rewrite (ord_perm oc), elem_of_map_to_list in HY. destruct (H1 k' Y HY) as [HcY _]. split.
      * destruct HcY as (x & y & Hxy & HY'). apply HY' in Hv.
        apply rtc_inv_r in Hv as [->|(z & _ & Hz)]; [eauto|].
        exists z. unfold ag_adj in *. destruct Hg as (Hsym & _). by rewrite Hsym.
      * intros HvX. assert (X = Y) as <- by (by eapply ag_component_same).
        apply Hne. by eapply H3.
    + intros [[u Hu] HvX]. right.
      destruct (ag_component_exists c g v u Hr Hids Hu) as (Y & HY & HvY).
      destruct (H2 Y HY) as [k' Hk']. exists k', Y. split_and!; [|by intros ->; congruence|done].
      rewrite (ord_perm oc). by apply elem_of_map_to_list.
Qed.

(** * Property lemmas over histories *)

Lemma has_valid_ids_rel c g : vrel c g -> has_valid_ids c -> ids_valid g.
Proof.
  intros Hr H v Hv. apply H. destruct (vrel_answers _ _ Hr) as (Hh & _). by apply Hh.
Qed.

Lemma largest_component_lemma ops oe on oc :
  let c := (vg_run (E := E) vg_empty ops).1 in
  let g := (ag_run (E := E) ag_empty ops).1 in
  has_valid_ids c ->
  ((exists a b, vg_has_edge c a b = true) ->
     exists X, vg_largest_component oe on oc c = Ok X /\ ag_largest_component g X) /\
  ((forall a b, vg_has_edge c a b = false) -> vg_largest_component oe on oc c = CheckFail).
Proof.
  intros c g Hids. destruct (vrel_run ops _ _ vrel_empty) as [Hr _]. fold c g in Hr.
  destruct (vrel_answers _ _ Hr) as (_ & Hhe & _).
  apply (has_valid_ids_rel c g Hr) in Hids. split.
  - intros (a & b & Hab). apply largest_component_ok; [done|done|]. exists a, b. by apply Hhe.
  - intros Hno. eapply largest_component_abort; [done|]. intros a b Hab. apply Hhe in Hab.
    by rewrite Hno in Hab.
Qed.

Lemma remove_disconnected_no_edges_lemma ops oe on oc :
  let c := (vg_run (E := E) vg_empty ops).1 in
  (forall a b, vg_has_edge c a b = false) -> vg_remove_disconnected oe on oc c = Ok (c, ∅).
Proof.
  intros c Hno. destruct (vrel_run ops _ _ vrel_empty) as [Hr _]. fold c in Hr.
  destruct (vrel_answers _ _ Hr) as (_ & Hhe & _).
  unfold vg_remove_disconnected.
  destruct (vg_components_ok oe on c) as (m & es & -> & Hes & H1 & _).
  assert (Hm : m = ∅).
  { apply map_eq. intros k. rewrite lookup_empty. destruct (m !! k) as [X|] eqn:Hk; [|done].
    destruct (H1 k X Hk) as [HX Hkx].
    destruct (spec_adds_partition (2 ^ 32 - 1) es) as [_ Hcov].
    assert (Hk' : k ∈ mentioned es) by (rewrite <-Hcov; apply elem_of_covered; eauto).
    apply (mentioned_views c _ es Hr Hes) in Hk' as [y Hy]. apply Hhe in Hy.
    by rewrite Hno in Hy. }
  subst m. cbn [mbind outcome_bind]. rewrite map_to_list_empty.
  rewrite (Permutation_nil (Permutation_sym (ord_perm oc []))). done.
Qed.

Lemma remove_disconnected_lemma ops oe on oc :
  let c := (vg_run (E := E) vg_empty ops).1 in
  let g := (ag_run (E := E) ag_empty ops).1 in
  has_valid_ids c -> (exists a b, vg_has_edge c a b = true) ->
  exists c' removed X, vg_remove_disconnected oe on oc c = Ok (c', removed) /\
    ag_largest_component g X /\
    (forall a b, vg_get_edge c' a b =
       if decide (a ∈ X /\ b ∈ X) then vg_get_edge c a b else None) /\
    (forall v, v ∈ removed <-> vg_has_view c v = true /\ vg_has_view c' v = false) /\
    (forall v, vg_has_view c' v = true <->
       vg_has_view c v = true /\ (v ∈ X \/ forall u, vg_has_edge c v u = false)) /\
    (forall a b, (exists u, vg_has_edge c' a u = true) -> (exists u, vg_has_edge c' b u = true) ->
       rtc (fun x y => vg_has_edge c' x y = true) a b).
Proof.
  intros c g Hids (a0 & b0 & Hab). destruct (vrel_run ops _ _ vrel_empty) as [Hr _]. fold c g in Hr.
  destruct (vrel_answers _ _ Hr) as (Hhv & Hhe & Hge & _).
  apply (has_valid_ids_rel c g Hr) in Hids.
  destruct (remove_disconnected_ok oe on oc c g Hr Hids) as (c' & W & X & -> & HX & HW & Hr').
  { exists a0, b0. by apply Hhe. }
  destruct (vrel_answers _ _ Hr') as (Hhv' & Hhe' & Hge' & _).
  pose proof Hr as (_ & _ & _ & (Hsym & Hirr & Hin)).
  assert (HXview : forall v, v ∈ X -> exists u, ag_adj g v u).
  { intros v Hv. destruct HX as [(x & y & Hxy & HX) _]. apply HX in Hv.
    apply rtc_inv_r in Hv as [->|(z & _ & Hz)]; [eauto|].
    exists z. unfold ag_adj in *. by rewrite Hsym. }
  assert (HXclosed : forall x y, x ∈ X -> ag_adj g x y -> y ∈ X).
  { intros x y Hx Hxy. destruct HX as [(p & q & Hpq & HX) _]. apply HX in Hx. apply HX.
    eapply rtc_r; done. }
  assert (Hlab : forall a b, ag_label (ag_removed g W) a b =
                   if decide (a ∈ X /\ b ∈ X) then ag_label g a b else None).
  { intros a b. simpl. case_decide as H1; case_decide as H2; try done.
    - destruct H2. destruct H1 as [H1|H1]; apply HW in H1; tauto.
    - destruct (ag_label g a b) as [e|] eqn:Hl; [|done]. exfalso.
      assert (ag_adj g a b) by (unfold ag_adj; eauto).
      assert (ag_adj g b a) by (unfold ag_adj; rewrite Hsym; eauto).
      destruct (decide (a ∈ X)) as [Ha|Ha].
      + apply H2. split; [done|]. by eapply HXclosed.
      + apply H1. left. apply HW. eauto. }
  exists c', W, X. split_and!; [done|done| | | |].
  - intros a b. rewrite Hge', Hge. apply Hlab.
  - intros v. rewrite Hhv. rewrite <-not_true_iff_false, Hhv'. simpl.
    rewrite elem_of_difference. split.
    + intros Hv. split; [|tauto]. apply HW in Hv as [[u Hu] _]. by eapply Hin.
    + intros [? ?]. destruct (decide (v ∈ W)); [done|tauto].
  - intros v. rewrite Hhv', Hhv. simpl. rewrite elem_of_difference, HW. split.
    + intros [Hv Hn]. split; [done|]. destruct (decide (v ∈ X)); [by left|]. right. intros u.
      destruct (vg_has_edge c v u) eqn:He; [|done]. exfalso. apply Hn. split; [|done].
      exists u. by apply Hhe.
    + intros [Hv [HvX|Hno]]; (split; [done|]); [tauto|]. intros [[u Hu] _].
      apply Hhe in Hu. by rewrite Hno in Hu.
  - assert (Hstep : forall x y, x ∈ X -> rtc (ag_adj g) x y ->
                      rtc (fun x y => vg_has_edge c' x y = true) x y).
    { intros x y Hx H. revert Hx. induction H as [|x y z Hxy Hyz IH]; intros Hx; [reflexivity|].
      assert (Hy : y ∈ X) by (by eapply HXclosed).
      eapply rtc_l; [|by apply IH]. apply Hhe'. rewrite Hlab, decide_True by done. done. }
    intros a b [u Hu] [u' Hu'].
    assert (HaX : a ∈ X).
    { apply Hhe' in Hu. rewrite Hlab in Hu. case_decide; [tauto|]. by destruct Hu. }
    assert (HbX : b ∈ X).
    { apply Hhe' in Hu'. rewrite Hlab in Hu'. case_decide; [tauto|]. by destruct Hu'. }
    apply Hstep; [done|]. destruct HX as [(p & q & Hpq & HX) _].
    apply HX in HaX. apply HX in HbX.
    assert (Hs : forall u v, rtc (ag_adj g) u v -> rtc (ag_adj g) v u).
    { intros s t H. induction H as [|s t w Huv Hvw IH]; [reflexivity|].
      eapply rtc_r; [exact IH|]. unfold ag_adj. by rewrite Hsym. }
    etransitivity; [apply Hs, HaX|exact HbX].
Qed.
End largest.
