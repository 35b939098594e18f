(** Orientations from the maximum spanning tree. *)
From stdpp Require Import gmap sorting.
From Coq Require Import Reals Lra.
From Verif Require Import Base ConnectedComponents_Model ConnectedComponents_Spec ViewGraph_Model ViewGraph_Spec.
From Verif Require Import ViewGraph_Proofs MinSpanningTree_Model MinSpanningTree_Spec MinSpanningTree_Props.
From Verif Require Import Camera_Model Camera_Proofs PriorityQueue_Model RotationGraph_Model RotationGraph_Spec.
From Verif Require Import RotationGraph_Proofs.

Definition sorted_pair (u v : N) : N * N := if decide (u < v)%N then (u, v) else (v, u).

Section chain.
Context (f : mat3 -> vec3) (Hf : aa_canonical f) (H : edge_heap) (o : order N).
Context (t : view_graph two_view) (gt : agraph two_view) (Hr : vrel t gt).
(** All directed edges. *)
Context (D : list (N * N)) (HD : forall u v, is_Some (vg_get_edge t u v) -> (u, v) ∈ D).

Lemma neighbors_get v ns u : vg_neighbors t v = Some ns -> (u ∈ ns <-> is_Some (vg_get_edge t v u)).
Proof.
  intros Hns. destruct (vrel_answers _ _ Hr) as (_ & _ & A3 & A4 & _).
  apply A4 in Hns as [_ Hns]. rewrite A3. apply Hns.
Qed.

Lemma add_edges_list (ors : gmap N vec3) v l : base.NoDup l -> (forall u, u ∈ l -> is_Some (vg_get_edge t v u)) ->
  forall heap, is_heap sort_heap_element heap ->
  exists new heap', run_steps (add_edge_to_heap H t ors v) heap l = Ok heap' /\ heap' ≡ₚ heap ++ new /\
    is_heap sort_heap_element heap' /\ base.NoDup (new.*2) /\
    (forall i u' u, (i, (u', u)) ∈ new -> u' = v /\ u ∈ l /\ ors !! u = None /\ vg_get_edge t v u = Some i) /\
    (forall u, u ∈ l -> ors !! u = None -> (v, u) ∈ new.*2).
Proof.
  induction l as [|u l IH]; intros Hnd Hl heap Hh.
  - exists [], heap. split; [done|]. rewrite app_nil_r. split; [done|]. split; [done|].
    split; [constructor|]. split; [intros ??? Hx; by apply elem_of_nil in Hx|].
    intros u Hu. by apply elem_of_nil in Hu.
  - apply list.NoDup_cons in Hnd as [Hu Hnd].
    destruct (ors !! u) as [w|] eqn:Eu.
    + destruct (IH Hnd ltac:(intros; apply Hl; by right) heap Hh) as (new & heap' & E & Hp & Hh' & Hnn & Hnew & Hall).
      exists new, heap'. split.
      { assert (E1 : add_edge_to_heap H t ors v heap u = Ok heap) by (unfold add_edge_to_heap; by rewrite Eu).
        cbn [run_steps]. rewrite E1. exact E. }
      split; [done|]. split; [done|]. split; [done|]. split.
      { intros i u' u2 Hi. destruct (Hnew _ _ _ Hi) as (? & ? & ? & ?). split; [done|]. split; [by right|done]. }
      intros u' Hu' Hn. apply elem_of_cons in Hu' as [->|Hu']; [congruence|by apply Hall].
    + destruct (Hl u ltac:(left)) as [i Hi].
      destruct (eh_push_ok H heap (i, (v, u)) Hh) as [Hp1 Hh1].
      destruct (IH Hnd ltac:(intros; apply Hl; by right) _ Hh1) as (new & heap' & E & Hp & Hh' & Hnn & Hnew & Hall).
      exists ((i, (v, u)) :: new), heap'.
      split.
      { assert (E1 : add_edge_to_heap H t ors v heap u = Ok (eh_push H (heap ++ [(i, (v, u))]))).
        { unfold add_edge_to_heap. rewrite Eu, Hi. done. }
        cbn [run_steps]. rewrite E1. exact E. }
      split. { rewrite Hp, Hp1, <- app_assoc. done. }
      split; [done|]. split.
      { rewrite fmap_cons. apply list.NoDup_cons. split; [|done].
        cbn [snd]. intros Hin. apply elem_of_list_fmap in Hin as ([j [u1 u2]] & [= <- <-] & Hj).
        by destruct (Hnew _ _ _ Hj) as (_ & ? & _). }
      split.
      { intros j u' u2 Hj. apply elem_of_cons in Hj as [[= -> -> ->]|Hj]; [split; [done|]; split; [left|done]|].
        destruct (Hnew _ _ _ Hj) as (? & ? & ? & ?). split; [done|]. split; [by right|done]. }
      intros u' Hu' Hn. rewrite fmap_cons. apply elem_of_cons in Hu' as [->|Hu']; [by left|right; by apply Hall].
Qed.

Lemma add_edges_ok (ors : gmap N vec3) v heap : v ∈ ag_views gt -> is_heap sort_heap_element heap ->
  exists new heap', add_edges_to_heap H o t ors v heap = Ok heap' /\ heap' ≡ₚ heap ++ new /\
    is_heap sort_heap_element heap' /\ base.NoDup (new.*2) /\
    (forall i u' u, (i, (u', u)) ∈ new -> u' = v /\ ors !! u = None /\ vg_get_edge t v u = Some i) /\
    (forall u, is_Some (vg_get_edge t v u) -> ors !! u = None -> (v, u) ∈ new.*2).
Proof.
  intros Hv Hh. unfold add_edges_to_heap.
  assert (exists ns, vg_neighbors t v = Some ns) as [ns Hns].
  { destruct Hr as (Hd & _). rewrite <- Hd in Hv. by apply elem_of_dom in Hv. }
  rewrite Hns. cbn [or_ub mbind outcome_bind].
  assert (Hl : forall u, u ∈ o (elements ns) <-> is_Some (vg_get_edge t v u)).
  { intros u. rewrite ord_perm, elem_of_elements. by apply neighbors_get. }
  destruct (add_edges_list ors v (o (elements ns))) with (heap := heap)
    as (new & heap' & E & Hp & Hh' & Hnn & Hnew & Hall); [| |done|].
  { rewrite ord_perm. apply NoDup_elements. }
  { intros u Hu. by apply Hl. }
  exists new, heap'. split; [done|]. split; [done|]. split; [done|]. split; [done|]. split.
  - intros i u' u Hi. destruct (Hnew _ _ _ Hi) as (? & _ & ? & ?). done.
  - intros u Hu. apply Hall. by apply Hl.
Qed.

(** The invariant of the loop: [W] are the views of the tree with an orientation, [P] the edges used so far, [popped]
    the edges taken from the heap. *)
Record chain_inv (X : gset N) (init ors : gmap N vec3) (heap : list (two_view * (N * N))) (root : N)
    (W : gset N) (P : gset (N * N)) (popped : list (N * N)) : Prop := {
  ci_sub : W ⊆ X;
  ci_root : root ∈ W /\ ors !! root = Some (V3 0 0 0);
  ci_in : forall v, v ∈ X -> (v ∈ W <-> is_Some (ors !! v));
  ci_out : forall v, v ∉ X -> ors !! v = init !! v;
  ci_heap : forall i u v, (i, (u, v)) ∈ heap -> u ∈ W /\ vg_get_edge t u v = Some i;
  ci_closed : forall u v, u ∈ W -> is_Some (vg_get_edge t u v) -> v ∈ W \/ (u, v) ∈ heap.*2;
  ci_size : S (size P) = size W;
  ci_used : forall a b, (a, b) ∈ P -> (a < b)%N /\ a ∈ W /\ b ∈ W /\ is_Some (vg_get_edge t a b) /\ chained t ors a b;
  ci_is_heap : is_heap sort_heap_element heap;
  ci_nodup : base.NoDup (popped ++ heap.*2);
  ci_popped : forall u v, (u, v) ∈ popped -> u ∈ W /\ (u, v) ∈ D }.

Lemma get_edge_views u v : is_Some (vg_get_edge t u v) -> u ∈ ag_views gt /\ v ∈ ag_views gt /\ u <> v.
Proof.
  destruct (vrel_answers _ _ Hr) as (_ & _ & A3 & _). rewrite A3.
  destruct Hr as (_ & _ & _ & (Hs & Hi & Hin)). intros Hu. split; [by eapply Hin|].
  split; [apply (Hin v u); by rewrite Hs|]. intros ->. rewrite Hi in Hu. by destruct Hu.
Qed.

Lemma chained_insert ors v w a b : a <> v -> b <> v -> chained t ors a b -> chained t (<[v := w]> ors) a b.
Proof.
  intros Ha Hb (M & wa & wb & HM & Ea & Eb & E). exists M, wa, wb. split; [done|].
  rewrite !lookup_insert_ne by done. done.
Qed.

Lemma chained_new ors u v i w : vg_get_edge t u v = Some i -> u <> v -> ors !! u = Some w ->
  let '(a, b) := sorted_pair u v in
  chained t (<[v := compute_orientation f w i u v]> ors) a b.
Proof.
  intros Hi Huv Hw. unfold sorted_pair, compute_orientation.
  assert (Hc : forall M, rotation M -> rot_of_aa (f M) = M) by (intros M HM; by apply Hf).
  destruct (decide (u < v)%N) as [Hlt|Hge].
  - exists (rot_of_aa (tv_rotation i)), w. eexists. split; [exists i; by rewrite decide_True|].
    rewrite lookup_insert_ne, lookup_insert by done. split; [done|]. split; [done|].
    apply Hc. apply rotation_mmul; apply rot_of_aa_rotation.
  - exists (rot_of_aa (tv_rotation i)). eexists. exists w.
    split; [exists i; rewrite decide_True by lia; split; [by rewrite (get_edge_sym t gt)|done]|].
    rewrite lookup_insert, lookup_insert_ne by done. split; [done|]. split; [done|].
    rewrite Hc by (apply rotation_mmul; [apply rotation_trans|]; apply rot_of_aa_rotation).
    rewrite <- mmul_assoc. destruct (rot_of_aa_rotation (tv_rotation i)) as [Ho _].
    rewrite Ho. by rewrite mmul_id_l.
Qed.

Lemma sorted_pair_elem u v x y : sorted_pair u v = (x, y) -> (x = u /\ y = v) \/ (x = v /\ y = u).
Proof. unfold sorted_pair. case_decide; intros [= <- <-]; tauto. Qed.

Local Ltac iu := rewrite elem_of_union, elem_of_singleton; tauto.

Lemma chain_loop_ok X init root fuel : (forall u v, is_Some (vg_get_edge t u v) -> u ∈ X /\ v ∈ X) ->
  forall ors heap W P popped, chain_inv X init ors heap root W P popped ->
  (S (length D) <= fuel + length popped)%nat ->
  exists ors' W' P' popped', chain_loop f H o fuel t ors heap = Ok ors' /\ chain_inv X init ors' [] root W' P' popped'.
Proof.
  intros HX. induction fuel as [|fuel IH]; intros ors heap W P popped Hi Hfuel.
  - exfalso. assert (length popped <= length D)%nat; [|lia].
    apply submseteq_length, NoDup_submseteq.
    + pose proof (ci_nodup _ _ _ _ _ _ _ _ Hi) as Hn. by apply NoDup_app in Hn as [? _].
    + intros [u v] Huv. apply (ci_popped _ _ _ _ _ _ _ _ Hi) in Huv. tauto.
  - destruct heap as [|[i [u v]] heap]; [by exists ors, W, P, popped|].
    destruct Hi as [Hsub Hroot Hin Hout Hheap Hclosed Hsize Hused Hish Hnd Hpop].
    destruct (eh_pop_ok H _ _ Hish) as (rest & Epop & Hrest & Hish').
    destruct (Hheap i u v ltac:(left)) as [Hu Hget].
    assert (Hgs : is_Some (vg_get_edge t u v)) by (by exists i).
    destruct (get_edge_views u v Hgs) as (_ & Hvt & Huv).
    assert (HvX : v ∈ X) by (apply HX in Hgs; tauto).
    assert (Hnd' : base.NoDup ((popped ++ [(u, v)]) ++ rest.*2)).
    { rewrite Hrest. by rewrite <- app_assoc. }
    assert (Hrest_in : forall j a b, (j, (a, b)) ∈ rest -> (j, (a, b)) ∈ heap) by (intros; by rewrite <- Hrest).
    assert (Hfuel' : (S (length D) <= fuel + length (popped ++ [(u, v)]))%nat) by (rewrite app_length; cbn [length]; lia).
    cbn [chain_loop]. rewrite Epop, removelast_last.
    destruct (ors !! v) as [w|] eqn:Ev.
    + apply (IH _ _ W P (popped ++ [(u, v)])); [|done].
      assert (HvW : v ∈ W) by (apply Hin; [done|by exists w]).
      constructor; try done.
      * intros j a b Hj. apply (Hheap j). right. by apply Hrest_in.
      * intros a b Ha Hab. destruct (Hclosed a b Ha Hab) as [?|Hh]; [by left|].
        rewrite fmap_cons in Hh. apply elem_of_cons in Hh as [[= -> ->]|Hh]; [by left|]. right. by rewrite Hrest.
      * intros a b Hab. apply elem_of_app in Hab as [Hab|Hab]; [by apply Hpop|].
        apply elem_of_list_singleton in Hab as [= -> ->]. split; [done|by apply HD].
    + destruct (proj1 (Hin u ltac:(by apply Hsub)) Hu) as [w Hw].
      rewrite Hw. cbn [or_die mbind outcome_bind].
      set (ors1 := <[v := compute_orientation f w i u v]> ors).
      destruct (add_edges_ok ors1 v rest Hvt Hish') as (new & heap1 & E1 & Hp1 & Hh1 & Hnn & Hnew & Hall).
      rewrite E1. cbn [mbind outcome_bind].
      assert (HvW : v ∉ W). { intros HvW. apply Hin in HvW; [|done]. rewrite Ev in HvW. by destruct HvW. }
      apply (IH _ _ ({[v]} ∪ W) ({[sorted_pair u v]} ∪ P) (popped ++ [(u, v)])); [|done].
      constructor.
      * intros x. rewrite elem_of_union, elem_of_singleton. intros [->|Hx]; [done|by apply Hsub].
      * destruct Hroot as [Hr1 Hr2]. split; [iu|]. unfold ors1. rewrite lookup_insert_ne; [done|].
        intros ->. done.
      * intros x Hx. unfold ors1. rewrite elem_of_union, elem_of_singleton. destruct (decide (v = x)) as [->|Hne].
        -- rewrite lookup_insert. split; [by eexists|by left].
        -- rewrite lookup_insert_ne by done. rewrite <- Hin by done. split; [by intros [->|?]|by right].
      * intros x Hx. unfold ors1. rewrite lookup_insert_ne; [by apply Hout|]. intros ->. done.
      * intros j a b Hj. rewrite Hp1 in Hj. apply elem_of_app in Hj as [Hj|Hj].
        -- destruct (Hheap j a b) as [? ?]; [right; by apply Hrest_in|]. split; [iu|done].
        -- destruct (Hnew _ _ _ Hj) as (-> & _ & ?). split; [iu|done].
      * intros a b Ha Hab.
        apply elem_of_union in Ha as [->%elem_of_singleton|Ha].
        -- destruct (decide (b ∈ ({[v]} ∪ W : gset N))) as [|Hb]; [by left|]. right.
           rewrite Hp1, fmap_app. apply elem_of_app. right. apply Hall; [done|].
           destruct (get_edge_views _ _ Hab) as (_ & _ & Hvb).
           unfold ors1. rewrite lookup_insert_ne by done.
           apply eq_None_not_Some. rewrite <- Hin; [intros Hb2; apply Hb; iu|]. apply HX in Hab. tauto.
        -- destruct (Hclosed a b Ha Hab) as [?|Hh]; [left; iu|].
           rewrite fmap_cons in Hh. apply elem_of_cons in Hh as [[= -> ->]|Hh]; [left; iu|]. right.
           rewrite Hp1, fmap_app. apply elem_of_app. left. by rewrite Hrest.
      * rewrite !size_union; [rewrite !size_singleton; lia|intros x; rewrite elem_of_singleton; by intros ->|].
        intros [x y]. rewrite elem_of_singleton. intros E2 HP. symmetry in E2.
        apply Hused in HP as (_ & Hx & Hy & _). apply sorted_pair_elem in E2 as [[-> ->]|[-> ->]]; done.
      * intros a b Hab. apply elem_of_union in Hab as [Hab|Hab].
        -- apply elem_of_singleton in Hab.
           pose proof (chained_new ors u v i w Hget Huv Hw) as Hc. rewrite <- Hab in Hc. fold ors1 in Hc.
           split; [revert Hab; unfold sorted_pair; case_decide; intros [= -> ->]; lia|].
           symmetry in Hab. apply sorted_pair_elem in Hab as [[-> ->]|[-> ->]].
           ++ split; [iu|]. split; [iu|]. done.
           ++ split; [iu|]. split; [iu|]. split; [by rewrite (get_edge_sym t gt)|done].
        -- destruct (Hused a b Hab) as (? & Ha & Hb & ? & Hc).
           split; [done|]. split; [iu|]. split; [iu|]. split; [done|].
           apply chained_insert; [by intros ->|by intros ->|done].
      * done.
      * rewrite Hp1, fmap_app, app_assoc. apply NoDup_app. split; [done|]. split; [|done].
        intros [a b] Hab Hin2.
        apply elem_of_list_fmap in Hin2 as ([j [a' b']] & [= <- <-] & Hj).
        destruct (Hnew _ _ _ Hj) as (-> & _ & _).
        apply elem_of_app in Hab as [Hab|Hab].
        -- apply elem_of_app in Hab as [Hab|Hab]; [by apply Hpop in Hab as [? _]|].
           apply elem_of_list_singleton in Hab as [= Ha Hb]. done.
        -- apply elem_of_list_fmap in Hab as ([j' [a' b']] & [= <- <-] & Hj').
           destruct (Hheap j' v b) as [? _]; [right; by apply Hrest_in|]. done.
      * intros a b Hab. apply elem_of_app in Hab as [Hab|Hab].
        -- apply Hpop in Hab as [? ?]. split; [iu|done].
        -- apply elem_of_list_singleton in Hab as [= -> ->]. split; [iu|by apply HD].
Qed.

(** From the root, with no orientation in [X] before. *)
Lemma chain_from_root (X : gset N) (init : gmap N vec3) (root : N) (fuel : nat) (T : gset (N * N)) :
  (forall u v, is_Some (vg_get_edge t u v) <-> (u, v) ∈ T \/ (v, u) ∈ T) ->
  (forall a b, (a, b) ∈ T -> (a < b)%N /\ a ∈ X /\ b ∈ X) ->
  (forall a b, a ∈ X -> b ∈ X -> rtc (fun x y => (x, y) ∈ T \/ (y, x) ∈ T) a b) ->
  S (size T) = size X -> root ∈ X -> root ∈ ag_views gt ->
  (forall v, v ∈ X -> init !! v = None) -> (S (length D) <= fuel)%nat ->
  exists heap ors', add_edges_to_heap H o t (<[root := V3 0 0 0]> init) root [] = Ok heap /\
    chain_loop f H o fuel t (<[root := V3 0 0 0]> init) heap = Ok ors' /\
    ors' !! root = Some (V3 0 0 0) /\
    (forall v, v ∈ X -> is_Some (ors' !! v)) /\ (forall v, v ∉ X -> ors' !! v = init !! v) /\
    (forall a b, (a, b) ∈ T -> chained t ors' a b).
Proof.
  intros HT HTX Hconn Hsz HrX Hrt Hinit Hfuel.
  set (ors := <[root := V3 0 0 0]> init).
  destruct (add_edges_ok ors root [] Hrt) as (new & heap & E & Hp & Hh & Hnn & Hnew & Hall).
  { intros j x y _ Hx. by rewrite lookup_nil in Hx. }
  cbn [app] in Hp.
  destruct (chain_loop_ok X init root fuel) with (ors := ors) (heap := heap) (W := {[root]} : gset N) (P := ∅ : gset (N * N))
    (popped := [] : list (N * N)) as (ors' & W & P & popped & E' & Hi).
  - intros u v Huv. apply HT in Huv as [Huv|Huv]; apply HTX in Huv; tauto.
  - constructor.
    + set_solver.
    + split; [set_solver|]. unfold ors. by rewrite lookup_insert.
    + intros v Hv. unfold ors. rewrite elem_of_singleton. destruct (decide (root = v)) as [<-|Hne].
      * rewrite lookup_insert. split; [by eexists|done].
      * rewrite lookup_insert_ne, Hinit by done. split; [done|by intros [? ?]].
    + intros v Hv. unfold ors. rewrite lookup_insert_ne; [done|]. by intros ->.
    + intros i u v Hin. rewrite Hp in Hin. destruct (Hnew _ _ _ Hin) as (-> & _ & ?). split; [set_solver|done].
    + intros u v ->%elem_of_singleton Hv. right. rewrite Hp. apply Hall; [done|].
      destruct (get_edge_views _ _ Hv) as (_ & _ & Hne).
      unfold ors. rewrite lookup_insert_ne by done. apply Hinit. apply HT in Hv as [Hv|Hv]; apply HTX in Hv; tauto.
    + by rewrite size_empty, size_singleton.
    + intros a b Hab. by apply elem_of_empty in Hab.
    + done.
    + rewrite Hp. done.
    + intros u v Huv. by apply elem_of_nil in Huv.
  - cbn [length]. lia.
  - exists heap, ors'. split; [done|]. split; [done|].
    destruct Hi as [Hsub [Hroot0 Hroot] Hin Hout _ Hclosed Hsize Hused _ _ _].
    assert (HW : forall v, v ∈ X -> v ∈ W).
    { intros v Hv. specialize (Hconn root v HrX Hv).
      clear - Hconn Hroot0 Hclosed HT. revert Hroot0. induction Hconn as [x|x y z Hxy _ IH]; [done|]. intros Hx.
      apply IH. destruct (Hclosed x y Hx) as [?|Hb]; [by apply HT|done|by apply elem_of_nil in Hb]. }
    split; [done|]. split; [intros v Hv; apply Hin; [done|by apply HW]|]. split; [done|].
    assert (HP : P ⊆ T).
    { intros [a b] Hab. apply Hused in Hab as (Hlt & _ & _ & Hg & _). apply HT in Hg as [?|Hg]; [done|].
      apply HTX in Hg. lia. }
    assert (HPT : P = T).
    { apply set_eq. apply set_subseteq_antisymm; [done|].
      assert (HWX : W = X) by (apply set_eq; intros x; split; [apply Hsub|apply HW]).
      rewrite HWX in Hsize.
      intros x Hx. destruct (decide (x ∈ P)) as [|Hn]; [done|]. exfalso.
      assert (size P < size T)%nat; [|lia]. apply subset_size. split; [done|]. intros Hc. apply Hn. by apply Hc. }
    intros a b Hab. rewrite <- HPT in Hab. apply Hused in Hab. tauto.
Qed.
End chain.

(** * The graph of the tree *)
Lemma tree_steps (sub : view_graph two_view) (gs : agraph two_view) l : vrel sub gs ->
  (forall a b, (a, b) ∈ l -> is_Some (vg_get_edge sub a b)) ->
  forall t gt, vrel t gt -> (forall x y i, ag_label gt x y = Some i -> ag_label gs x y = Some i) ->
  exists t' gt', run_steps (tree_step sub) t l = Ok t' /\ vrel t' gt' /\
    (forall x y i, ag_label gt' x y = Some i <->
       ag_label gt x y = Some i \/ (((x, y) ∈ l \/ (y, x) ∈ l) /\ ag_label gs x y = Some i)).
Proof.
  intros Hs. destruct (vrel_answers _ _ Hs) as (_ & _ & A3 & _).
  pose proof Hs as (_ & _ & _ & (Hsym & Hirr & _)).
  induction l as [|[a b] l IH]; intros Hl t gt Ht Hgt.
  - exists t, gt. split; [done|]. split; [done|]. intros x y i. split; [by left|].
    intros [?|[[Hx|Hx] _]]; [done|by apply elem_of_nil in Hx..].
  - destruct (Hl a b ltac:(left)) as [i Hi].
    assert (Hne : a <> b). { intros ->. rewrite A3, Hirr in Hi. done. }
    assert (E1 : tree_step sub t (a, b) = Ok (vg_add_edge t a b i)).
    { unfold tree_step. cbn [fst snd]. by rewrite Hi. }
    pose proof (vrel_add t gt a b i Ht) as Ht1. cbn [ag_step fst] in Ht1. rewrite decide_False in Ht1 by done.
    rewrite A3 in Hi.
    match type of Ht1 with vrel _ ?G => set (g1 := G) in Ht1 end.
    assert (Hg1 : forall x y j, ag_label g1 x y = Some j <-> ag_label gt x y = Some j \/ (same_pair a b x y /\ ag_label gs x y = Some j)).
    { intros x y j. unfold g1. cbn [ag_label]. case_decide as Hp.
      - assert (E2 : ag_label gs x y = Some i) by (destruct Hp as [[-> ->]|[-> ->]]; [done|by rewrite Hsym]).
        split; [intros [= <-]; right; done|]. intros [Hx|[_ Hx]]; [apply Hgt in Hx|]; congruence.
      - split; [by left|]. by intros [?|[? ?]]. }
    destruct (IH ltac:(intros; apply Hl; by right) _ g1 Ht1) as (t' & gt' & E & Ht' & Hl').
    { intros x y j Hj. apply Hg1 in Hj as [Hj|[_ Hj]]; [by apply Hgt|done]. }
    exists t', gt'. split; [cbn [run_steps]; rewrite E1; exact E|]. split; [done|].
    intros x y j. rewrite Hl', Hg1, !elem_of_cons. unfold same_pair. split.
    + intros [[?|[[[-> ->]|[-> ->]] ?]]|[? ?]]; [by left|right; split; [by left; left|done]|right; split; [by right; left|done]|tauto].
    + intros [?|[[[[= -> ->]|?]|[[= -> ->]|?]] ?]]; tauto.
Qed.

Lemma foldl_mst_edges (l : list ((N * N) * two_view)) acc :
  foldl (fun l pe => mst_add_edge l pe.1.1 pe.1.2 (- tv_matches pe.2)) acc l =
  acc ++ map (fun pe => ((- tv_matches pe.2)%Z, pe.1)) l.
Proof.
  revert acc. induction l as [|[[a b] i] l IH]; intros acc; cbn [foldl map]; [by rewrite app_nil_r|].
  rewrite IH. unfold mst_add_edge. by rewrite <- app_assoc.
Qed.

Section component.
Context (c : view_graph two_view) (g : agraph two_view) (Hr : vrel c g) (X : gset N) (HX : ag_component g X).

Lemma adj_sym x y : ag_adj g x y -> ag_adj g y x.
Proof. destruct Hr as (_ & _ & _ & (Hs & _)). unfold ag_adj. by rewrite Hs. Qed.
Lemma rtc_adj_sym x y : rtc (ag_adj g) x y -> rtc (ag_adj g) y x.
Proof.
  induction 1 as [|x y z Hxy _ IH]; [done|]. eapply rtc_r; [exact IH|by apply adj_sym].
Qed.
Lemma component_closed x y : x ∈ X -> ag_adj g x y -> y ∈ X.
Proof. destruct HX as (a & b & _ & Hx). rewrite !Hx. intros H1 H2. by eapply rtc_r. Qed.
Lemma component_neighbor x : x ∈ X -> exists y, ag_adj g x y.
Proof.
  destruct HX as (a & b & Hab & Hx). rewrite Hx. intros H. apply rtc_inv_r in H as [->|(z & _ & Hz)]; [by exists b|].
  exists z. by apply adj_sym.
Qed.
Lemma component_connected x y : x ∈ X -> y ∈ X -> rtc (ag_adj g) x y.
Proof. destruct HX as (a & b & Hab & Hx). rewrite !Hx. intros H1 H2. etransitivity; [by apply rtc_adj_sym|done]. Qed.

(** The subgraph of the component. *)
Context (sub : view_graph two_view) (gs : agraph two_view) (Hs : vrel sub gs).
Context (Hsub : forall x y i, ag_label gs x y = Some i <-> x ∈ X /\ y ∈ X /\ ag_label g x y = Some i).

Lemma sub_adj x y : ag_adj gs x y <-> x ∈ X /\ ag_adj g x y.
Proof.
  unfold ag_adj. split.
  - intros [i Hi]. apply Hsub in Hi as (? & ? & ?). eauto.
  - intros [Hx [i Hi]]. exists i. apply Hsub. split; [done|]. split; [|done]. apply (component_closed x); [done|by exists i].
Qed.
Lemma sub_connected x y : x ∈ X -> y ∈ X -> rtc (ag_adj gs) x y.
Proof.
  intros Hx Hy. pose proof (component_connected x y Hx Hy) as H. clear Hy. revert Hx. induction H as [x|x y z Hxy _ IH]; intros Hx; [done|].
  eapply rtc_l; [apply sub_adj; done|]. apply IH. by apply (component_closed x).
Qed.

Context (ow : order ((N * N) * two_view)).
Definition wedges : list wedge := map (fun pe => ((- tv_matches pe.2)%Z, pe.1)) (ow (map_to_list (vg_edges sub))).

Lemma wedges_elem w a b : (w, (a, b)) ∈ wedges <->
  (a < b)%N /\ a ∈ X /\ exists i, vg_get_edge c a b = Some i /\ w = (- tv_matches i)%Z.
Proof.
  destruct (vrel_answers _ _ Hs) as (_ & _ & _ & _ & _ & _ & A7 & _).
  destruct (vrel_answers _ _ Hr) as (_ & _ & A3 & _).
  unfold wedges. change (map ?F ?l) with (F <$> l). rewrite elem_of_list_fmap. split.
  - intros ([[a' b'] i] & [= -> <- <-] & Hin). rewrite ord_perm, elem_of_map_to_list in Hin.
    apply A7 in Hin as [Hlt Hin]. apply Hsub in Hin as (Ha & Hb & Hin). split; [done|]. split; [done|].
    exists i. by rewrite A3.
  - intros (Hlt & Ha & i & Hi & ->). exists ((a, b), i). split; [done|]. rewrite ord_perm, elem_of_map_to_list.
    apply A7. split; [done|]. apply Hsub. rewrite A3 in Hi. split; [done|]. split; [|done].
    apply (component_closed a); [done|by exists i].
Qed.
Lemma wedges_pairs : wedges.*2 ≡ₚ (map_to_list (vg_edges sub)).*1.
Proof.
  unfold wedges. change (map ?F ?l) with (F <$> l). rewrite <- list_fmap_compose.
  rewrite (ord_perm ow). done.
Qed.
Lemma wedges_nodes : nodes wedges = X.
Proof.
  apply set_eq. intros x. unfold nodes. rewrite (mentioned_views sub gs _ Hs wedges_pairs). setoid_rewrite sub_adj. split.
  - by intros (y & ? & _).
  - intros Hx. destruct (component_neighbor x Hx) as [y Hy]. by exists y.
Qed.
Lemma wedges_connects : connects wedges (nodes wedges).
Proof.
  intros a b. rewrite wedges_nodes. intros Ha Hb.
  apply (reachable_adj sub gs _ _ _ Hs wedges_pairs). by apply sub_connected.
Qed.
Lemma wedges_no_loops : no_self_loops wedges.
Proof. intros [w [a b]] He. apply wedges_elem in He as (? & _). cbn [fst snd]. lia. Qed.
Lemma wedges_nonempty : wedges <> [].
Proof.
  destruct HX as (a & b & Hab & Hx). intros E.
  assert (Ha : a ∈ nodes wedges) by (rewrite wedges_nodes; by apply Hx). rewrite E in Ha.
  by apply elem_of_empty in Ha.
Qed.

Definition weighted (e : N * N) : wedge := ((- matches c e)%Z, e).
Lemma wedges_weighted w e : (w, e) ∈ wedges -> (w, e) = weighted e.
Proof.
  destruct e as [a b]. rewrite wedges_elem. intros (_ & _ & i & Hi & ->). unfold weighted, matches. cbn [fst snd]. by rewrite Hi.
Qed.
Lemma weight_weighted l : weight (weighted <$> l) = (- foldr Z.add 0 (matches c <$> l))%Z.
Proof.
  unfold weight. induction l as [|e l IH]; [done|]. rewrite !fmap_cons. cbn [foldr weighted fst]. rewrite IH. lia.
Qed.
Lemma weight_perm (l1 l2 : list wedge) : l1 ≡ₚ l2 -> weight l1 = weight l2.
Proof. unfold weight. induction 1; rewrite ?fmap_cons; cbn [foldr] in *; lia. Qed.

Lemma mst_maximum T : minimum_spanning_tree wedges T -> base.NoDup (T.*2) -> maximum_tree c X (list_to_set (T.*2)).
Proof.
  intros [(HT1 & HT2 & HT3) Hmin] Hnd. rewrite wedges_nodes in HT2, HT3.
  destruct (vrel_answers _ _ Hr) as (_ & A2 & A3 & _).
  assert (HTe : forall e, e ∈ T.*2 -> (weighted e) ∈ wedges).
  { intros e He. apply elem_of_list_fmap in He as ([w e'] & -> & Hin). cbn [snd]. apply HT1 in Hin.
    by rewrite <- (wedges_weighted w). }
  assert (Hperm : elements (list_to_set (T.*2) : gset (N * N)) ≡ₚ T.*2) by (by apply elements_list_to_set).
  assert (HTw : T = weighted <$> T.*2).
  { clear - HT1 Hr Hs Hsub HX. induction T as [|[w e] T IH]; [done|]. rewrite !fmap_cons. cbn [snd].
    rewrite <- IH by (intros; apply HT1; by right). by rewrite <- (wedges_weighted w) by (apply HT1; left). }
  split.
  - split; [|split].
    + intros a b Hab. apply elem_of_list_to_set, HTe in Hab. unfold weighted in Hab. apply wedges_elem in Hab as (Hlt & Ha & i & Hi & _).
      split; [done|]. split; [done|]. rewrite A2, <- A3. split; [|by exists i].
      apply (component_closed a); [done|]. unfold ag_adj. rewrite <- A3. by exists i.
    + intros a b Ha Hb. specialize (HT2 a b Ha Hb). eapply rtc_subrel; [|exact HT2].
      intros x y [Hx|Hx]; [left|right]; by apply elem_of_list_to_set.
    + rewrite <- HT3. unfold size, set_size. cbn. rewrite Hperm. by rewrite fmap_length.
  - intros T' (H1 & H2 & H3).
    specialize (Hmin (weighted <$> elements T')).
    rewrite weight_weighted in Hmin.
    assert (Hw : weight T = (- total_matches c (list_to_set (T.*2)))%Z).
    { unfold total_matches. rewrite HTw at 1. rewrite <- weight_weighted. apply weight_perm. by rewrite Hperm. }
    unfold total_matches in *. rewrite Hw in Hmin.
    enough (spanning_tree wedges (weighted <$> elements T')) as Hsp by (specialize (Hmin Hsp); lia).
    assert (H22 : (weighted <$> elements T').*2 = elements T').
    { rewrite <- list_fmap_compose. by apply list_fmap_id. }
    split; [|split].
    + intros e He. apply elem_of_list_fmap in He as ([a b] & -> & He). apply elem_of_elements, H1 in He as (Hlt & Ha & _ & He).
      rewrite A2, <- A3 in He. destruct He as [i Hi]. unfold weighted, matches. cbn [fst snd]. rewrite Hi. apply wedges_elem.
      split; [done|]. split; [done|]. by exists i.
    + rewrite wedges_nodes. intros a b Ha Hb. unfold reachable. rewrite H22. eapply rtc_subrel; [|exact (H2 a b Ha Hb)].
      intros x y [Hx|Hx]; [left|right]; by apply elem_of_elements.
    + rewrite fmap_length, wedges_nodes. exact H3.
Qed.
End component.

(** * The whole function *)
Lemma orientations_from_mst_ok f H o oe on oc ov oi ow om c (g : agraph two_view) init :
  aa_canonical f -> vrel c g -> ids_valid g -> (exists a b, ag_adj g a b) ->
  (forall X, ag_largest_component g X -> forall v, v ∈ X -> init !! v = None) ->
  exists X T root R, orientations_from_mst f H o oe on oc ov oi ow om c init = Ok (true, R) /\
    ag_largest_component g X /\ maximum_tree c X T /\ root ∈ X /\ R !! root = Some (V3 0 0 0) /\
    (forall v, v ∈ X -> is_Some (R !! v)) /\ (forall v, v ∉ X -> R !! v = init !! v) /\
    (forall a b, (a, b) ∈ T -> chained c R a b).
Proof.
  intros Hf Hr Hids Hadj Hinit. unfold orientations_from_mst.
  destruct (largest_component_ok oe on oc c g Hr Hids Hadj) as (X & -> & HX). cbn [mbind outcome_bind].
  pose proof HX as [Hcomp _].
  destruct (extract_subgraph_ok c g ov oi X _ _ Hr vrel_empty) as (sub & gs & -> & Hs & Hm & _). cbn [mbind outcome_bind].
  assert (Hsub : forall x y i, ag_label gs x y = Some i <-> x ∈ X /\ y ∈ X /\ ag_label g x y = Some i).
  { intros x y i. rewrite Hm. cbn [ag_empty ag_label]. split.
    - intros [[(? & ? & _) ?]|[_ [=]]]. done.
    - intros (? & ? & ?). left. split; [|done]. split; [done|]. split; [done|]. by exists i. }
  clear Hm. rewrite foldl_mst_edges. cbn [app].
  change (map _ (ow (map_to_list (vg_edges sub)))) with (wedges sub ow).
  destruct (minimum_spanning_tree_optimal (2 ^ 32 - 1) (wedges sub ow)) as (ok & sorted & mst & Emst & Hok & Hmst & _).
  { by apply (wedges_no_loops c g Hr X Hcomp sub gs Hs Hsub ow). }
  { rewrite (wedges_nodes c g Hr X Hcomp sub gs Hs Hsub ow). apply size_bounded_ids. intros x Hx. apply Hids.
    destruct (component_neighbor c g Hr X Hcomp x Hx) as [y Hy].
    destruct Hr as (_ & _ & _ & (_ & _ & Hin)). by eapply Hin. }
  rewrite Emst. cbn [mbind outcome_bind].
  assert (ok = true) as ->.
  { apply Hok. split; [by apply (wedges_nonempty c g Hr X Hcomp sub gs Hs Hsub ow)|].
    apply (wedges_connects c g Hr X Hcomp sub gs Hs Hsub ow). }
  cbn [negb]. destruct (Hmst eq_refl) as (T & HT & Hnd & ->). clear Hok Hmst Emst.
  pose proof (mst_maximum c g Hr X Hcomp sub gs Hs Hsub ow T HT Hnd) as Hmax.
  set (M := list_to_set (T.*2) : gset (N * N)) in *. clearbody M. clear HT Hnd T.
  pose proof Hmax as [(HT1 & HT2 & HT3) _].
  destruct (vrel_answers _ _ Hr) as (_ & A2 & A3 & _).
  destruct (vrel_answers _ _ Hs) as (_ & _ & B3 & _).
  destruct (tree_steps sub gs (om (elements M)) Hs) with (t := vg_empty (E := two_view)) (gt := ag_empty (E := two_view))
    as (t & gt & -> & Ht & Hlab).
  { intros a b Hab. rewrite ord_perm, elem_of_elements in Hab. apply HT1 in Hab as (_ & Ha & Hb & He).
    apply A2 in He as [i Hi]. exists i. rewrite B3. by apply Hsub. }
  { apply vrel_empty. }
  { intros x y i [=]. }
  cbn [mbind outcome_bind].
  assert (HM : forall e, e ∈ om (elements M) <-> e ∈ M) by (intros e; by rewrite ord_perm, elem_of_elements).
  destruct (vrel_answers _ _ Ht) as (_ & _ & C3 & _).
  assert (Hget : forall u v i, vg_get_edge t u v = Some i <-> ((u, v) ∈ M \/ (v, u) ∈ M) /\ vg_get_edge c u v = Some i).
  { intros u v i. rewrite C3, A3, Hlab. cbn [ag_empty ag_label]. rewrite !HM, Hsub. split.
    - intros [[=]|(? & _ & _ & ?)]. done.
    - intros [Huv Hi]. right. split; [done|]. destruct Huv as [Huv|Huv]; apply HT1 in Huv; tauto. }
  assert (Hsome : forall u v, is_Some (vg_get_edge t u v) <-> (u, v) ∈ M \/ (v, u) ∈ M).
  { intros u v. split; [intros [i Hi]; by apply Hget in Hi as [? _]|].
    intros Huv. assert (exists i, vg_get_edge c u v = Some i) as [i Hi]; [|exists i; by apply Hget].
    destruct Huv as [Huv|Huv]; apply HT1 in Huv as (_ & _ & _ & He); apply A2 in He; [by rewrite A3|].
    rewrite (get_edge_sym c g) by done. by rewrite A3. }
  destruct (om (elements M)) as [|[root b] l] eqn:El.
  { (* there is an edge *)
    exfalso. destruct Hcomp as (a & b & Hab & Hx).
    assert (Ha : a ∈ X) by (by apply Hx). assert (Hb : b ∈ X) by (apply Hx; by apply rtc_once).
    specialize (HT2 a b Ha Hb). apply rtc_inv in HT2 as [->|(z & [Hz|Hz] & _)].
    - destruct Hr as (_ & _ & _ & (_ & Hirr & _)). unfold ag_adj in Hab. rewrite Hirr in Hab. by destruct Hab.
    - apply HM in Hz. by apply elem_of_nil in Hz.
    - apply HM in Hz. by apply elem_of_nil in Hz. }
  cbn [head fmap option_fmap option_map or_ub fst mbind outcome_bind].
  assert (Hrb : (root, b) ∈ M) by (apply HM; left).
  assert (HrX : root ∈ X) by (by apply HT1 in Hrb as (_ & ? & _)).
  set (D := elements M ++ ((fun p : N * N => (p.2, p.1)) <$> elements M)).
  assert (HD : forall u v, is_Some (vg_get_edge t u v) -> (u, v) ∈ D).
  { intros u v Huv. apply Hsome in Huv as [Huv|Huv]; unfold D; apply elem_of_app; [left; by apply elem_of_elements|right].
    apply elem_of_list_fmap. exists (v, u). split; [done|]. by apply elem_of_elements. }
  destruct (chain_from_root f Hf H o t gt Ht D HD X init root (S (2 * size M)) M) as (heap & R & E1 & E2 & HR1 & HR2 & HR3 & HR4).
  - done.
  - intros a b' Hab. apply HT1 in Hab. tauto.
  - done.
  - done.
  - done.
  - apply (get_edge_views t gt Ht root b). apply Hsome. by left.
  - by apply Hinit.
  - unfold D. rewrite app_length, fmap_length. unfold size, set_size. cbn. lia.
  - rewrite E1. cbn [mbind outcome_bind]. rewrite E2. cbn [mbind outcome_bind].
    exists X, M, root, R. split; [done|]. split; [done|]. split; [done|]. split; [done|]. split; [done|]. split; [done|].
    split; [done|]. intros a b' Hab.
    destruct (HR4 a b' Hab) as (N1 & wa & wb & (i & Hi & HN) & Hc). exists N1, wa, wb. split; [|done].
    exists i. split; [|done]. by apply Hget in Hi as [_ ?].
Qed.

Lemma orientations_from_mst_abort f H o oe on oc ov oi ow om c (g : agraph two_view) init :
  vrel c g -> (forall a b, ~ ag_adj g a b) ->
  orientations_from_mst f H o oe on oc ov oi ow om c init = CheckFail.
Proof.
  intros Hr Hno. unfold orientations_from_mst.
  by rewrite (largest_component_abort oe on oc c g Hr Hno).
Qed.

(** * With exact relative rotations *)
Lemma chained_exact c (g : agraph two_view) X T root R (Q : N -> mat3) :
  vrel c g -> tree_on c X T -> root ∈ X -> R !! root = Some (V3 0 0 0) ->
  (forall a b, (a, b) ∈ T -> chained c R a b) ->
  (forall v, v ∈ X -> rotation (Q v)) ->
  (forall a b M, a ∈ X -> b ∈ X -> (a < b)%N -> relative c a b M -> M = mmul (Q b) (mtrans (Q a))) ->
  forall v, v ∈ X -> exists w, R !! v = Some w /\ rot_of_aa w = mmul (Q v) (mtrans (Q root)).
Proof.
  intros Hr (HT1 & HT2 & _) HrX HR0 HR HQ Hrel v Hv.
  pose proof (HT2 root v HrX Hv) as Hpath. revert v Hpath Hv.
  refine (rtc_ind_r (fun v => v ∈ X -> exists w, R !! v = Some w /\ rot_of_aa w = mmul (Q v) (mtrans (Q root))) root _ _);
    [intros Hv|intros x y Hx Hxy IH Hv].
  - exists (V3 0 0 0). split; [done|]. rewrite rot_of_aa_zero. symmetry. apply HQ. done.
  - assert (Hxy' : x ∈ X) by (destruct Hxy as [Hxy|Hxy]; apply HT1 in Hxy; tauto).
    destruct (IH Hxy') as (w & Hw & Ew).
    destruct Hxy as [Hxy|Hxy]; destruct (HR _ _ Hxy) as (M & wa & wb & HM & Ea & Eb & E);
      destruct (HT1 _ _ Hxy) as (Hlt & Ha & Hb & _).
    + assert (wa = w) as -> by congruence. exists wb. split; [done|].
      rewrite E, Ew. rewrite (Hrel x y M) by done.
      rewrite mmul_assoc, <- (mmul_assoc (mtrans (Q x))), rotation_trans_l by (by apply HQ). by rewrite mmul_id_l.
    + assert (wb = w) as -> by congruence. exists wa. split; [done|].
      pose proof (Hrel y x M Ha Hb Hlt HM) as HMe.
      assert (E2 : mmul (mtrans M) (mmul M (rot_of_aa wa)) = mmul (mtrans M) (mmul (Q x) (mtrans (Q root)))) by (by rewrite <- E, Ew).
      rewrite <- !mmul_assoc in E2. rewrite rotation_trans_l, mmul_id_l in E2.
      * rewrite E2, HMe, mtrans_mmul, mtrans_mtrans.
        rewrite (mmul_assoc (Q y)), rotation_trans_l by (by apply HQ). by rewrite mmul_id_r.
      * rewrite HMe. apply rotation_mmul; [by apply HQ|]. apply rotation_trans. by apply HQ.
Qed.
