(** Proofs about the union-find model. *)
From stdpp Require Import gmap sorting functions.
From Verif Require Import Base ConnectedComponents_Model ConnectedComponents_Spec.

(** * Layer 1: the canonical map [node -> representative]. *)

Definition cls (c : gmap N N) (r : N) : gset N := dom (filter (fun kv => kv.2 = r) c).

Lemma elem_of_cls c r n : n ∈ cls c r <-> c !! n = Some r.
Proof.
  unfold cls. rewrite elem_of_dom. split.
  - intros [x Hx]. apply map_filter_lookup_Some in Hx as [? ?]. simpl in *. by subst.
  - intros H. exists r. apply map_filter_lookup_Some. done.
Qed.

Definition inv_d (m : gmap N root) (c : gmap N N) (d : N -> nat) : Prop :=
  dom m = dom c /\
  (forall n p, m !! n = Some p ->
     exists r, c !! n = Some r /\ c !! r_id p = Some r /\
       (r_id p ≠ n -> d (r_id p) < d n)%nat /\
       (r_id p = n -> r = n /\ d n = 0 /\ r_size p = N.of_nat (size (cls c n)))%nat /\
       (d n < size (cls c r))%nat).

Definition inv (m : gmap N root) (c : gmap N N) : Prop := exists d, inv_d m c d.

Lemma inv_dom m c d n r : inv_d m c d -> c !! n = Some r -> exists p, m !! n = Some p.
Proof.
  intros [Hdom _] H. apply elem_of_dom_2 in H. rewrite <-Hdom in H.
  by apply elem_of_dom in H.
Qed.

Lemma inv_root m c d n r :
  inv_d m c d -> c !! n = Some r ->
  exists p, m !! r = Some p /\ r_id p = r /\ c !! r = Some r /\
    r_size p = N.of_nat (size (cls c r)) /\ d r = 0%nat.
Proof.
  intros Hinv. remember (d n) as k eqn:Hk. revert n Hk.
  induction k as [k IH] using lt_wf_ind. intros n -> Hn.
  destruct (inv_dom _ _ _ _ _ Hinv Hn) as [p Hp].
  destruct (proj2 Hinv n p Hp) as (r' & Hr' & Hid & Hlt & Hroot & _).
  rewrite Hn in Hr'. injection Hr' as <-.
  destruct (decide (r_id p = n)) as [E|E].
  - destruct (Hroot E) as (-> & Hd0 & Hs). exists p. done.
  - eapply (IH (d (r_id p))); eauto.
Qed.

Lemma find_root_ok m c d n r fuel :
  inv_d m c d -> c !! n = Some r -> (d n < fuel)%nat ->
  exists m', find_root fuel m n = Ok (m', r) /\ inv_d m' c d.
Proof.
  intros Hinv. revert n. induction fuel as [|fuel IH]; intros n Hn Hd; [lia|].
  destruct (inv_dom _ _ _ _ _ Hinv Hn) as [p Hp].
  destruct (proj2 Hinv n p Hp) as (r' & Hr' & Hid & Hlt & Hroot & Hbound).
  rewrite Hn in Hr'. injection Hr' as <-.
  simpl. rewrite Hp. simpl. case_decide as E.
  - destruct (Hroot (eq_sym E)) as (-> & _). by exists m.
  - destruct (IH (r_id p)) as (m' & Hf & Hinv'); [done| |].
    { specialize (Hlt (not_eq_sym E)). lia. }
    rewrite Hf. simpl.
    destruct (inv_root _ _ _ _ _ Hinv' Hn) as (pr & Hpr & Hidr & Hcr & Hsz & Hd0).
    rewrite Hpr. simpl. exists (<[n:=pr]> m'). split; [done|].
    destruct Hinv' as [Hdom' Hinv']. split.
    { rewrite dom_insert_L, Hdom'. apply elem_of_dom_2 in Hn. set_solver. }
    intros n2 p2 H2. destruct (decide (n2 = n)) as [->|Hne].
    + rewrite lookup_insert in H2. injection H2 as <-.
      exists r. rewrite Hidr. split_and!; auto.
      * intros Hrn. rewrite Hd0. specialize (Hlt (not_eq_sym E)). lia.
      * intros ->. done.
    + rewrite lookup_insert_ne in H2 by done. by apply Hinv'.
Qed.

Lemma d_lt_fuel m c d n r : inv_d m c d -> c !! n = Some r -> (d n < cc_fuel m)%nat.
Proof.
  intros Hinv Hn. destruct (inv_dom _ _ _ _ _ Hinv Hn) as [p Hp].
  destruct (proj2 Hinv n p Hp) as (r' & Hr' & _ & _ & _ & Hb).
  unfold cc_fuel. assert (size (cls c r') <= size m)%nat; [|lia].
  replace (size m) with (size (dom m)) by apply size_dom.
  apply subseteq_size. intros x Hx%elem_of_cls.
  rewrite (proj1 Hinv). by eapply elem_of_dom_2.
Qed.

Local Opaque cc_fuel.

Lemma find_root_inv m c n r :
  inv m c -> c !! n = Some r ->
  exists m', find_root (cc_fuel m) m n = Ok (m', r) /\ inv m' c.
Proof.
  intros [d Hinv] Hn.
  destruct (find_root_ok m c d n r (cc_fuel m) Hinv Hn) as (m' & ? & ?).
  - by eapply d_lt_fuel.
  - exists m'. split; [done|]. by exists d.
Qed.

Lemma inv_root' m c n r :
  inv m c -> c !! n = Some r ->
  m !! r = Some (Root r (N.of_nat (size (cls c r)))) /\ c !! r = Some r.
Proof.
  intros [d Hinv] Hn. destruct (inv_root _ _ _ _ _ Hinv Hn) as ([i s] & Hp & Hi & Hc & Hs & _).
  simpl in *. subst. done.
Qed.

(** The canonical map extended with a node. *)
Definition c_ensure (c : gmap N N) (a : N) : gmap N N :=
  match c !! a with Some _ => c | None => <[a := a]> c end.

(** Merge class [k1] into class [k2]. *)
Definition c_merge (c : gmap N N) (k1 k2 : N) : gmap N N :=
  (fun r => if decide (r = k1) then k2 else r) <$> c.

Definition c_add (cap : N) (c : gmap N N) (a b : N) : gmap N N :=
  let c2 := c_ensure (c_ensure c a) b in
  match c2 !! a, c2 !! b with
  | Some k1, Some k2 =>
      let s1 := N.of_nat (size (cls c2 k1)) in
      let s2 := N.of_nat (size (cls c2 k2)) in
      if decide (k1 = k2 \/ (cap < s1 + s2)%N) then c2
      else if decide (s1 < s2)%N then c_merge c2 k1 k2 else c_merge c2 k2 k1
  | _, _ => c2
  end.

Definition c_wf (c : gmap N N) : Prop := forall n r, c !! n = Some r -> c !! r = Some r.

Lemma inv_wf m c : inv m c -> c_wf c.
Proof. intros Hinv n r Hn. by eapply inv_root'. Qed.

Lemma cls_insert_fresh c a r :
  c_wf c -> c !! a = None -> r ≠ a -> cls (<[a:=a]> c) r = cls c r.
Proof.
  intros Hwf Ha Hr. apply set_eq. intros x. rewrite !elem_of_cls.
  destruct (decide (x = a)) as [->|].
  - rewrite lookup_insert, Ha. naive_solver.
  - by rewrite lookup_insert_ne.
Qed.

Lemma cls_insert_fresh_self c a :
  c_wf c -> c !! a = None -> cls (<[a:=a]> c) a = {[a]}.
Proof.
  intros Hwf Ha. apply set_eq. intros x. rewrite elem_of_cls, elem_of_singleton.
  destruct (decide (x = a)) as [->|].
  - by rewrite lookup_insert.
  - rewrite lookup_insert_ne by done. split; [|done]. intros Hx. apply Hwf in Hx. congruence.
Qed.

Lemma find_or_insert_inv m c a :
  inv m c ->
  exists m' r, find_or_insert m a = Ok (m', r) /\ inv m' (c_ensure c a) /\
             c_ensure c a !! a = Some r.
Proof.
  intros Hinv. pose proof (inv_wf _ _ Hinv) as Hwf. destruct Hinv as [d Hinv].
  unfold find_or_insert, c_ensure.
  destruct (m !! a) as [p|] eqn:Ha.
  - destruct (proj2 Hinv _ _ Ha) as (r & Hr & _). rewrite Hr.
    destruct (find_root_inv m c a r) as (m' & Hf & Hi); [by exists d|done|].
    exists m', r. done.
  - assert (Hca : c !! a = None).
    { apply not_elem_of_dom. rewrite <-(proj1 Hinv). by apply not_elem_of_dom. }
    rewrite Hca. exists (<[a:=Root a 1]> m), a. split; [done|].
    split; [|by rewrite lookup_insert].
    exists (<[a:=0%nat]> d). split.
    { rewrite !dom_insert_L. by rewrite (proj1 Hinv). }
    intros n p Hn. destruct (decide (n = a)) as [->|Hne].
    + rewrite lookup_insert in Hn. injection Hn as <-. simpl.
      exists a. rewrite !lookup_insert, fn_lookup_insert.
      rewrite cls_insert_fresh_self by done. rewrite size_singleton.
      split_and!; auto; lia || done.
    + rewrite lookup_insert_ne in Hn by done.
      destruct (proj2 Hinv _ _ Hn) as (r & Hr & Hid & Hlt & Hroot & Hb).
      assert (Hra : r ≠ a) by (intros ->; apply Hwf in Hr; congruence).
      assert (Hida : r_id p ≠ a) by congruence.
      exists r. rewrite !lookup_insert_ne by done.
      rewrite !fn_lookup_insert_ne by done.
      rewrite !cls_insert_fresh by done.
      split_and!; auto.
Qed.

Lemma cls_merge_same c k1 k2 :
  k1 ≠ k2 -> cls (c_merge c k1 k2) k2 = cls c k1 ∪ cls c k2.
Proof.
  intros Hne. apply set_eq. intros x. rewrite elem_of_union, !elem_of_cls.
  unfold c_merge. rewrite lookup_fmap. destruct (c !! x) as [r|]; simpl; [|naive_solver].
  case_decide; naive_solver.
Qed.

Lemma cls_merge_other c k1 k2 r :
  r ≠ k1 -> r ≠ k2 -> cls (c_merge c k1 k2) r = cls c r.
Proof.
  intros H1 H2. apply set_eq. intros x. rewrite !elem_of_cls.
  unfold c_merge. rewrite lookup_fmap. destruct (c !! x) as [r'|]; simpl; [|naive_solver].
  case_decide; naive_solver.
Qed.

Lemma cls_merge_gone c k1 k2 :
  k1 ≠ k2 -> cls (c_merge c k1 k2) k1 = ∅.
Proof.
  intros H1. apply set_eq. intros x. rewrite elem_of_cls.
  unfold c_merge. rewrite lookup_fmap. destruct (c !! x) as [r'|]; simpl.
  - case_decide; set_solver.
  - set_solver.
Qed.

Lemma cls_disjoint c k1 k2 : k1 ≠ k2 -> cls c k1 ## cls c k2.
Proof. intros Hne x. rewrite !elem_of_cls. congruence. Qed.

(** Attaching root [k1] below root [k2]. *)
Lemma merge_inv m c k1 k2 :
  inv m c -> c !! k1 = Some k1 -> c !! k2 = Some k2 -> k1 ≠ k2 ->
  let R := Root k2 (N.of_nat (size (cls c k2)) + N.of_nat (size (cls c k1))) in
  inv (<[k1 := R]> (<[k2 := R]> m)) (c_merge c k1 k2).
Proof.
  intros Hinv0 H1 H2 Hne R. pose proof (inv_wf _ _ Hinv0) as Hwf.
  destruct Hinv0 as [d Hinv].
  set (d' := fun n => if decide (c !! n = Some k1) then S (d n) else d n).
  assert (Hd1 : d k1 = 0%nat) by (destruct (inv_root _ _ _ _ _ Hinv H1) as (? & ? & ? & ? & ? & ?); done).
  assert (Hd2 : d k2 = 0%nat) by (destruct (inv_root _ _ _ _ _ Hinv H2) as (? & ? & ? & ? & ? & ?); done).
  assert (Hm2 : c_merge c k1 k2 !! k2 = Some k2).
  { unfold c_merge. rewrite lookup_fmap, H2. simpl. rewrite decide_False by congruence. done. }
  assert (Hm1 : c_merge c k1 k2 !! k1 = Some k2).
  { unfold c_merge. rewrite lookup_fmap, H1. simpl. rewrite decide_True by congruence. done. }
  assert (Hs : size (cls (c_merge c k1 k2) k2) = (size (cls c k1) + size (cls c k2))%nat).
  { rewrite cls_merge_same by done. apply size_union, cls_disjoint; done. }
  assert (Hp1 : (0 < size (cls c k1))%nat).
  { apply Nat.neq_0_lt_0. intros E%size_empty_inv. specialize (E k1).
    rewrite elem_of_cls in E. set_solver. }
  assert (Hp2 : (0 < size (cls c k2))%nat).
  { apply Nat.neq_0_lt_0. intros E%size_empty_inv. specialize (E k2).
    rewrite elem_of_cls in E. set_solver. }
  exists d'. split.
  { rewrite !dom_insert_L. unfold c_merge. rewrite dom_fmap_L, (proj1 Hinv).
    apply elem_of_dom_2 in H1. apply elem_of_dom_2 in H2. set_solver. }
  intros n p Hn. destruct (decide (n = k1)) as [->|Hn1].
  { rewrite lookup_insert in Hn. injection Hn as <-. simpl.
    exists k2. split_and!; auto; try congruence.
    - intros _. unfold d'. rewrite (decide_True (P := c !! k1 = Some k1)) by done.
      rewrite decide_False by congruence. rewrite Hd2. lia.
    - unfold d'. rewrite decide_True by done. rewrite Hd1, Hs. lia. }
  rewrite lookup_insert_ne in Hn by done.
  destruct (decide (n = k2)) as [->|Hn2].
  { rewrite lookup_insert in Hn. injection Hn as <-. simpl.
    exists k2. split_and!; auto; try congruence.
    - intros _. split_and!; auto.
      + unfold d'. by rewrite decide_False by congruence.
      + rewrite Hs. lia.
    - unfold d'. rewrite decide_False by congruence. rewrite Hd2, Hs. lia. }
  rewrite lookup_insert_ne in Hn by done.
  destruct (proj2 Hinv _ _ Hn) as (r & Hr & Hid & Hlt & Hroot & Hb).
  exists (if decide (r = k1) then k2 else r).
  assert (Hmn : c_merge c k1 k2 !! n = Some (if decide (r = k1) then k2 else r)).
  { unfold c_merge. by rewrite lookup_fmap, Hr. }
  assert (Hmi : c_merge c k1 k2 !! r_id p = Some (if decide (r = k1) then k2 else r)).
  { unfold c_merge. by rewrite lookup_fmap, Hid. }
  split_and!; auto.
  - intros E. specialize (Hlt E). unfold d'. rewrite Hid, Hr.
    destruct (decide (Some r = Some k1)); lia.
  - intros E. destruct (Hroot E) as (-> & Hd0 & Hsz).
    rewrite decide_False by done. split_and!; auto.
    + unfold d'. rewrite Hr. rewrite decide_False by congruence. done.
    + rewrite cls_merge_other by done. done.
  - unfold d'. rewrite Hr. destruct (decide (r = k1)) as [->|Hrk].
    + rewrite decide_True by done. rewrite Hs. lia.
    + rewrite decide_False by congruence.
      destruct (decide (r = k2)) as [->|]; [rewrite Hs; lia|].
      by rewrite cls_merge_other.
Qed.

Lemma c_ensure_lookup c a b r : c !! a = Some r -> c_ensure c b !! a = Some r.
Proof.
  intros H. unfold c_ensure. destruct (c !! b) eqn:Hb; [done|].
  rewrite lookup_insert_ne; [done|congruence].
Qed.

Lemma insert_swap_same (m : gmap N root) k1 k2 R :
  <[k1:=R]> (<[k2:=R]> m) = <[k2:=R]> (<[k1:=R]> m).
Proof.
  destruct (decide (k1 = k2)) as [->|]; [done|]. by rewrite insert_commute.
Qed.

Lemma add_edge_inv s c a b :
  inv (cc_set s) c ->
  exists m', cc_add_edge s a b = Ok (CC (cc_max s) m') /\ inv m' (c_add (cc_max s) c a b).
Proof.
  intros Hinv. unfold cc_add_edge.
  destruct (find_or_insert_inv _ _ a Hinv) as (m1 & k1 & -> & Hinv1 & Hk1). simpl.
  destruct (find_or_insert_inv _ _ b Hinv1) as (m2 & k2 & -> & Hinv2 & Hk2). simpl.
  apply (c_ensure_lookup _ _ b) in Hk1.
  unfold c_add. rewrite Hk1, Hk2.
  set (c2 := c_ensure (c_ensure c a) b) in *.
  destruct (inv_root' _ _ _ _ Hinv2 Hk1) as [-> Hc1].
  destruct (inv_root' _ _ _ _ Hinv2 Hk2) as [-> Hc2]. simpl.
  case_decide as E1; [by eauto|].
  assert (Hne : k1 ≠ k2) by tauto.
  case_decide as E2.
  - eexists. split; [done|]. by apply merge_inv.
  - eexists. split; [done|]. by apply merge_inv.
Qed.

Lemma same_inv s c a b :
  inv (cc_set s) c ->
  exists m', inv m' c /\
    cc_same s a b = Ok (CC (cc_max s) m',
      match c !! a, c !! b with Some r1, Some r2 => bool_decide (r1 = r2) | _, _ => false end).
Proof.
  intros Hinv. unfold cc_same. destruct s as [cap m]; simpl in *.
  assert (Hd : dom m = dom c) by (destruct Hinv as [d Hd]; apply Hd).
  assert (Hnone : forall x, m !! x = None -> c !! x = None).
  { intros x. rewrite <-!not_elem_of_dom. rewrite Hd. done. }
  assert (Hsome : forall x p, m !! x = Some p -> exists r, c !! x = Some r).
  { intros x p Hx%elem_of_dom_2. rewrite Hd in Hx. by apply elem_of_dom in Hx. }
  destruct (m !! a) as [pa|] eqn:Ha; [|rewrite (Hnone a) by done; eauto].
  destruct (Hsome _ _ Ha) as [ra Hra]. rewrite Hra.
  destruct (m !! b) as [pb|] eqn:Hb; [|rewrite (Hnone b) by done; eauto].
  destruct (Hsome _ _ Hb) as [rb Hrb]. rewrite Hrb.
  destruct (find_root_inv _ _ _ _ Hinv Hra) as (m1 & -> & Hinv1). simpl.
  destruct (find_root_inv _ _ _ _ Hinv1 Hrb) as (m2 & -> & Hinv2). simpl.
  destruct (inv_root' _ _ _ _ Hinv2 Hra) as [-> _].
  destruct (inv_root' _ _ _ _ Hinv2 Hrb) as [-> _]. simpl. eauto.
Qed.

(** The extraction result computed from the canonical map. *)
Definition c_extract (c : gmap N N) (out : gmap N (gset N)) (order : list N) : gmap N (gset N) :=
  foldl (fun o n => match c !! n with
                    | Some r => <[r := {[n]} ∪ (o !!! r)]> o
                    | None => o end) out order.

Lemma extract_inv m c out order :
  inv m c -> (forall n, n ∈ order -> is_Some (c !! n)) ->
  exists m', run_steps cc_extract_step (m, out) order = Ok (m', c_extract c out order) /\ inv m' c.
Proof.
  revert m out. induction order as [|n order IH]; intros m out Hinv Hall; simpl; [eauto|].
  destruct (Hall n) as [r Hr]; [by left|].
  destruct (find_root_inv _ _ _ _ Hinv Hr) as (m1 & -> & Hinv1). simpl.
  destruct (inv_root' _ _ _ _ Hinv1 Hr) as [-> _]. simpl. rewrite Hr.
  apply IH; [done|]. intros; apply Hall. by right.
Qed.

Lemma cc_extract_inv s c order :
  inv (cc_set s) c -> (forall n, n ∈ order -> is_Some (c !! n)) ->
  exists m', cc_extract s order = Ok (CC (cc_max s) m', c_extract c ∅ order) /\ inv m' c.
Proof.
  intros Hinv Hall. unfold cc_extract.
  destruct (extract_inv _ _ ∅ _ Hinv Hall) as (m' & -> & ?). simpl. eauto.
Qed.

Lemma inv_empty : inv ∅ ∅.
Proof.
  exists (fun _ => 0%nat). split; [set_solver|]. intros n p H. by rewrite lookup_empty in H.
Qed.

(** Values of the extraction map. *)
Lemma c_extract_lookup c order :
  forall out r,
  c_extract c out order !!! r =
  list_to_set (filter (fun n => c !! n = Some r) order) ∪ (out !!! r : gset N).
Proof.
  induction order as [|n order IH]; intros out r; simpl; [set_solver|].
  rewrite IH. destruct (c !! n) as [r'|] eqn:Hn.
  - destruct (decide (r' = r)) as [->|Hne].
    + rewrite lookup_total_insert, filter_cons_True by done. simpl. set_solver.
    + rewrite lookup_total_insert_ne by done. rewrite filter_cons_False by congruence. done.
  - rewrite filter_cons_False by congruence. done.
Qed.

Lemma c_extract_is_Some c order :
  forall out r,
  is_Some (c_extract c out order !! r) <->
  is_Some (out !! r) \/ exists n, n ∈ order /\ c !! n = Some r.
Proof.
  induction order as [|n order IH]; intros out r; simpl.
  - split; [by left|]. intros [?|(n & Hn & _)]; [done|]. by apply elem_of_nil in Hn.
  - rewrite IH. destruct (c !! n) as [r'|] eqn:Hn.
    + destruct (decide (r' = r)) as [->|Hne].
      * rewrite lookup_insert. split; intros _; [right|by left; eauto].
        exists n. split; [by left|done].
      * rewrite lookup_insert_ne by done. split.
        -- intros [?|(n' & ? & ?)]; [by left|right; exists n'; split; [by right|done]].
        -- intros [?|(n' & [->|?]%elem_of_cons & ?)]; [by left| |right; eauto].
           congruence.
    + split.
      * intros [?|(n' & ? & ?)]; [by left|right; exists n'; split; [by right|done]].
      * intros [?|(n' & [->|?]%elem_of_cons & ?)]; [by left| |right; eauto]. congruence.
Qed.

(** The map that Extract must return, stated without the loop. *)
Definition c_image (c : gmap N N) : gset N := list_to_set (map_to_list c).*2.

Lemma elem_of_c_image c r : r ∈ c_image c <-> exists n, c !! n = Some r.
Proof.
  unfold c_image. rewrite elem_of_list_to_set, elem_of_list_fmap. split.
  - intros ([n r'] & -> & H%elem_of_map_to_list). eauto.
  - intros [n H]. exists (n, r). split; [done|]. by apply elem_of_map_to_list.
Qed.

Definition c_components (c : gmap N N) : gmap N (gset N) :=
  set_to_map (fun r => (r, cls c r)) (c_image c).

Lemma lookup_c_components c r X :
  c_components c !! r = Some X <-> (exists n, c !! n = Some r) /\ X = cls c r.
Proof.
  unfold c_components. rewrite lookup_set_to_map; [|naive_solver].
  split.
  - intros (y & Hy%elem_of_c_image & [= -> ->]). done.
  - intros [H ->]. exists r. split; [by apply elem_of_c_image|done].
Qed.

Lemma c_extract_components c order :
  order ≡ₚ elements (dom c) -> c_extract c ∅ order = c_components c.
Proof.
  intros Hord. assert (Hin : forall n, n ∈ order <-> is_Some (c !! n)).
  { intros n. rewrite Hord, elem_of_elements. apply elem_of_dom. }
  apply map_eq. intros r.
  destruct (c_components c !! r) as [X|] eqn:E.
  - apply lookup_c_components in E as [(n & Hn) ->].
    assert (Hs : is_Some (c_extract c ∅ order !! r)).
    { apply c_extract_is_Some. right. exists n. split; [|done]. apply Hin. eauto. }
    destruct Hs as [X HX]. rewrite HX. f_equal.
    assert (Ht : c_extract c ∅ order !!! r = X) by (by apply lookup_total_correct).
    rewrite <-Ht, c_extract_lookup.
    rewrite lookup_total_alt, lookup_empty. simpl. apply set_eq. intros x.
    rewrite elem_of_union, elem_of_list_to_set, elem_of_list_filter, elem_of_cls, Hin.
    split; [|naive_solver]. intros [[? ?]|Hx]; [done|]. by apply elem_of_empty in Hx.
  - destruct (c_extract c ∅ order !! r) as [X|] eqn:E2; [|done]. exfalso.
    assert (Hs : is_Some (c_extract c ∅ order !! r)) by eauto.
    apply c_extract_is_Some in Hs as [[? Hs]|(n & _ & Hn)]; [by rewrite lookup_empty in Hs|].
    assert (c_components c !! r = Some (cls c r)) by (apply lookup_c_components; eauto).
    congruence.
Qed.

(** * Layer 2: from the canonical map to partitions. *)

(** [P] is the partition of the nodes of [c] by representative. *)
Definition reps (c : gmap N N) (P : partition) : Prop :=
  c_wf c /\ forall X, X ∈ P <-> exists r, c !! r = Some r /\ X = cls c r.

Definition c_partition (c : gmap N N) : partition :=
  set_map (cls c) (filter (fun r => c !! r = Some r) (dom c)).

Lemma elem_of_c_partition c X :
  X ∈ c_partition c <-> exists r, c !! r = Some r /\ X = cls c r.
Proof.
  unfold c_partition. rewrite elem_of_map. split.
  - intros (r & -> & Hr). apply elem_of_filter in Hr as [? _]. eauto.
  - intros (r & Hr & ->). exists r. split; [done|]. apply elem_of_filter.
    split; [done|]. by eapply elem_of_dom_2.
Qed.

Lemma c_partition_is_partition c : c_wf c -> is_partition (c_partition c).
Proof.
  intros Hwf. split.
  - intros X (r & Hr & ->)%elem_of_c_partition E.
    assert (r ∈ cls c r) by (by apply elem_of_cls). set_solver.
  - intros X Y x (r & Hr & ->)%elem_of_c_partition (r' & Hr' & ->)%elem_of_c_partition.
    rewrite !elem_of_cls. congruence.
Qed.

Lemma elem_of_covered P x : x ∈ covered P <-> exists X, X ∈ P /\ x ∈ X.
Proof.
  unfold covered. rewrite elem_of_union_list. split; intros (X & HX & Hx); exists X;
  (split; [|done]); by apply elem_of_elements.
Qed.

Lemma covered_c_partition c : c_wf c -> covered (c_partition c) = dom c.
Proof.
  intros Hwf. apply set_eq. intros x. rewrite elem_of_covered, elem_of_dom. split.
  - intros (X & (r & Hr & ->)%elem_of_c_partition & Hx%elem_of_cls). eauto.
  - intros [r Hx]. exists (cls c r). split; [|by apply elem_of_cls].
    apply elem_of_c_partition. eauto.
Qed.

Lemma block_is P a X : is_partition P -> X ∈ P -> a ∈ X -> block P a = X.
Proof.
  intros [_ Hd] HX Ha. apply set_eq. intros x. unfold block. rewrite elem_of_union_list. split.
  - intros (Y & HY & Hx). apply elem_of_list_filter in HY as [HaY HY%elem_of_elements].
    by rewrite (Hd X Y a).
  - intros Hx. exists X. split; [|done]. apply elem_of_list_filter.
    split; [done|]. by apply elem_of_elements.
Qed.

Lemma block_c_partition c a r :
  c_wf c -> c !! a = Some r -> block (c_partition c) a = cls c r.
Proof.
  intros Hwf Ha. apply block_is; [by apply c_partition_is_partition| |by apply elem_of_cls].
  apply elem_of_c_partition. eauto.
Qed.

Lemma ensure_c_partition c a :
  c_wf c -> c_wf (c_ensure c a) /\ ensure (c_partition c) a = c_partition (c_ensure c a).
Proof.
  intros Hwf. unfold ensure, c_ensure. rewrite covered_c_partition by done.
  destruct (c !! a) as [r|] eqn:Ha.
  - split; [done|]. rewrite decide_True; [done|]. by eapply elem_of_dom_2.
  - split.
    + intros n r Hn. destruct (decide (n = a)) as [->|Hna].
      * rewrite lookup_insert in Hn. injection Hn as <-. by rewrite lookup_insert.
      * rewrite lookup_insert_ne in Hn by done. apply Hwf in Hn.
        rewrite lookup_insert_ne; [done|congruence].
    + rewrite decide_False by (by apply not_elem_of_dom). apply set_eq. intros X.
      rewrite elem_of_union, elem_of_singleton, !elem_of_c_partition. split.
      * intros [->|(r & Hr & ->)].
        -- exists a. rewrite lookup_insert. by rewrite cls_insert_fresh_self.
        -- assert (r ≠ a) by congruence. exists r. rewrite lookup_insert_ne by done.
           by rewrite cls_insert_fresh.
      * intros (r & Hr & ->). destruct (decide (r = a)) as [->|Hra].
        -- left. by rewrite cls_insert_fresh_self.
        -- right. rewrite lookup_insert_ne in Hr by done. exists r.
           by rewrite cls_insert_fresh.
Qed.

Lemma c_merge_wf c k1 k2 :
  c_wf c -> c !! k2 = Some k2 -> k1 ≠ k2 -> c_wf (c_merge c k1 k2).
Proof.
  intros Hwf H2 Hne n r. unfold c_merge. rewrite lookup_fmap.
  destruct (c !! n) as [r0|] eqn:Hn; simpl; [|done]. intros [= Hr].
  destruct (decide (r0 = k1)) as [->|Hr0].
  - subst r. rewrite lookup_fmap, H2. simpl. by rewrite decide_False by done.
  - subst r. rewrite lookup_fmap, (Hwf _ _ Hn). simpl. by rewrite decide_False by done.
Qed.

Lemma c_merge_partition c k1 k2 :
  c_wf c -> c !! k1 = Some k1 -> c !! k2 = Some k2 -> k1 ≠ k2 ->
  c_partition (c_merge c k1 k2) =
  {[ cls c k1 ∪ cls c k2 ]} ∪ (c_partition c ∖ {[ cls c k1; cls c k2 ]}).
Proof.
  intros Hwf H1 H2 Hne. apply set_eq. intros X.
  rewrite elem_of_union, elem_of_singleton, elem_of_difference, elem_of_union,
    !elem_of_singleton, !elem_of_c_partition.
  assert (Hinj : forall r r', c !! r = Some r -> cls c r = cls c r' -> r = r').
  { intros r r' Hr E. assert (Hx : r ∈ cls c r) by (by apply elem_of_cls).
    rewrite E in Hx. apply elem_of_cls in Hx. congruence. }
  split.
  - intros (r & Hr & ->).
    destruct (decide (r = k2)) as [->|Hr2]; [left; by apply cls_merge_same|].
    unfold c_merge in Hr. rewrite lookup_fmap in Hr.
    destruct (c !! r) as [r0|] eqn:Hcr; simpl in Hr; [|done].
    injection Hr as Hr. destruct (decide (r0 = k1)) as [->|Hr0]; [congruence|]. subst r0.
    right. rewrite cls_merge_other by done. split; [eauto|].
    intros [E|E]; apply Hinj in E; done.
  - intros [->|((r & Hr & ->) & Hn)].
    + exists k2. split; [|by rewrite cls_merge_same].
      unfold c_merge. rewrite lookup_fmap, H2. simpl. by rewrite decide_False by done.
    + assert (r ≠ k1) by (intros ->; tauto). assert (r ≠ k2) by (intros ->; tauto).
      exists r. rewrite cls_merge_other by done. split; [|done].
      unfold c_merge. rewrite lookup_fmap, Hr. simpl. by rewrite decide_False by done.
Qed.

Lemma c_add_partition cap c a b :
  c_wf c -> c_wf (c_add cap c a b) /\
  c_partition (c_add cap c a b) = spec_add cap (c_partition c) a b.
Proof.
  intros Hwf. unfold spec_add, c_add.
  destruct (ensure_c_partition c a Hwf) as [Hwf1 ->].
  destruct (ensure_c_partition _ b Hwf1) as [Hwf2 ->].
  assert (Ha : exists k1, c_ensure (c_ensure c a) b !! a = Some k1).
  { assert (exists k, c_ensure c a !! a = Some k) as [k Hk].
    { unfold c_ensure. destruct (c !! a) eqn:E; [by eauto|]. rewrite lookup_insert. eauto. }
    exists k. by apply c_ensure_lookup. }
  assert (Hb : exists k2, c_ensure (c_ensure c a) b !! b = Some k2).
  { unfold c_ensure at 1. destruct (c_ensure c a !! b) eqn:E; [by eauto|].
    rewrite lookup_insert. eauto. }
  set (c2 := c_ensure (c_ensure c a) b) in *.
  destruct Ha as [k1 Ha], Hb as [k2 Hb]. rewrite Ha, Hb.
  rewrite (block_c_partition _ _ _ Hwf2 Ha), (block_c_partition _ _ _ Hwf2 Hb).
  assert (H1 : c2 !! k1 = Some k1) by eauto. assert (H2 : c2 !! k2 = Some k2) by eauto.
  case_decide as E1.
  - split; [done|]. rewrite decide_False; [done|].
    destruct E1 as [->|E1]; [naive_solver|lia].
  - assert (Hne : k1 ≠ k2) by tauto.
    rewrite (decide_True (P := cls c2 k1 ≠ cls c2 k2 /\ _)).
    2:{ split; [|lia]. intros E. assert (Hx : k1 ∈ cls c2 k1) by (by apply elem_of_cls).
        rewrite E in Hx. apply elem_of_cls in Hx. congruence. }
    case_decide.
    + split; [by apply c_merge_wf|by apply c_merge_partition].
    + split; [by apply c_merge_wf|]. rewrite c_merge_partition by done.
      rewrite (union_comm_L (cls c2 k2) (cls c2 k1)).
      by rewrite (union_comm_L {[cls c2 k2]} {[cls c2 k1]}).
Qed.

(** * Layer 3: histories. *)

Definition c_step (cap : N) (c : gmap N N) (o : cc_op) : gmap N N :=
  match o with CAddEdge a b => c_add cap c a b | _ => c end.

Definition c_res (c : gmap N N) (o : cc_op) : cc_res :=
  match o with
  | CAddEdge _ _ => RUnit
  | CSame a b => RBool (match c !! a, c !! b with Some r1, Some r2 => bool_decide (r1 = r2) | _, _ => false end)
  | CExtract _ => RComponents (c_components c)
  end.

Definition c_run (cap : N) (es : list (N * N)) : gmap N N :=
  foldl (fun c e => c_add cap c e.1 e.2) ∅ es.

Lemma c_run_snoc cap es e : c_run cap (es ++ [e]) = c_add cap (c_run cap es) e.1 e.2.
Proof. unfold c_run. by rewrite foldl_app. Qed.

Lemma dom_c_ensure c a : dom (c_ensure c a) = {[a]} ∪ dom c.
Proof.
  unfold c_ensure. destruct (c !! a) eqn:E.
  - apply elem_of_dom_2 in E. set_solver.
  - by rewrite dom_insert_L.
Qed.

Lemma dom_c_add cap c a b : dom (c_add cap c a b) = {[a; b]} ∪ dom c.
Proof.
  unfold c_add.
  assert (Hd : dom (c_ensure (c_ensure c a) b) = {[a; b]} ∪ dom c).
  { rewrite !dom_c_ensure. set_solver. }
  set (c2 := c_ensure (c_ensure c a) b) in *.
  destruct (c2 !! a); [|done]. destruct (c2 !! b); [|done].
  case_decide; [done|]. case_decide; unfold c_merge; by rewrite dom_fmap_L.
Qed.

Lemma mentioned_snoc es e : mentioned (es ++ [e]) = {[e.1; e.2]} ∪ mentioned es.
Proof.
  unfold mentioned. rewrite bind_app, list_to_set_app_L. simpl. set_solver.
Qed.

Lemma dom_c_run cap es : dom (c_run cap es) = mentioned es.
Proof.
  induction es as [|e es IH] using rev_ind; [unfold c_run; simpl; apply dom_empty_L|].
  by rewrite c_run_snoc, dom_c_add, IH, mentioned_snoc.
Qed.

Lemma c_run_spec cap es :
  c_wf (c_run cap es) /\ c_partition (c_run cap es) = spec_adds cap es.
Proof.
  induction es as [|e es [IHwf IH]] using rev_ind.
  - change (c_run cap []) with (∅ : gmap N N).
    split; [intros ? ? H; by rewrite lookup_empty in H|].
    apply set_eq. intros X. rewrite elem_of_c_partition. split; [|set_solver].
    intros (r & Hr & _). by rewrite lookup_empty in Hr.
  - rewrite c_run_snoc. unfold spec_adds. rewrite foldl_app. simpl. fold (spec_adds cap es).
    rewrite <-IH. by apply c_add_partition.
Qed.

Lemma cc_step_inv s cap es o :
  cc_max s = cap -> inv (cc_set s) (c_run cap es) ->
  (match o with CExtract order => order ≡ₚ elements (mentioned es) | _ => True end) ->
  exists s', cc_step s o = Ok (s', c_res (c_run cap es) o) /\ cc_max s' = cap /\
    inv (cc_set s') (c_run cap (es ++ op_edges o)).
Proof.
  intros <- Hinv Hord. destruct o as [a b|a b|order]; simpl.
  - destruct (add_edge_inv _ _ a b Hinv) as (m' & -> & Hinv'). simpl.
    eexists. split; [done|]. split; [done|]. simpl. by rewrite c_run_snoc.
  - destruct (same_inv _ _ a b Hinv) as (m' & Hinv' & ->). simpl.
    eexists. split; [done|]. split; [done|]. simpl. by rewrite app_nil_r.
  - rewrite <-(dom_c_run (cc_max s)) in Hord.
    destruct (cc_extract_inv _ _ order Hinv) as (m' & -> & Hinv').
    { intros n. rewrite Hord, elem_of_elements. apply elem_of_dom. }
    simpl. rewrite c_extract_components by done.
    eexists. split; [done|]. split; [done|]. simpl. by rewrite app_nil_r.
Qed.

(** Results of a whole history, computed from the canonical maps. *)
Fixpoint c_results (cap : N) (es : list (N * N)) (ops : list cc_op) : list cc_res :=
  match ops with
  | [] => []
  | o :: ops' => c_res (c_run cap es) o :: c_results cap (es ++ op_edges o) ops'
  end.

Lemma cc_run_inv cap ops : forall s es,
  cc_max s = cap -> inv (cc_set s) (c_run cap es) -> orders_ok es ops ->
  exists s', run_obs cc_step s ops = Ok (s', c_results cap es ops) /\ cc_max s' = cap /\
    inv (cc_set s') (c_run cap (es ++ edges_of ops)).
Proof.
  induction ops as [|o ops IH]; intros s es Hcap Hinv Hord; simpl.
  - exists s. rewrite app_nil_r. done.
  - destruct Hord as [Ho Hord].
    destruct (cc_step_inv s cap es o Hcap Hinv Ho) as (s1 & -> & Hcap1 & Hinv1). simpl.
    destruct (IH s1 _ Hcap1 Hinv1 Hord) as (s2 & -> & Hcap2 & Hinv2). simpl.
    exists s2. split; [done|]. split; [done|].
    unfold edges_of in *. simpl. by rewrite app_assoc.
Qed.

(** ** Abstract answers *)

Lemma c_res_good c P o : c_wf c -> c_partition c = P -> good_res P o (c_res c o).
Proof.
  intros Hwf <-. destruct o as [a b|a b|order]; simpl; [done| |].
  - unfold spec_same. split.
    + destruct (c !! a) as [r|] eqn:Ha; [|done]. destruct (c !! b) as [r'|] eqn:Hb; [|done].
      intros ->%bool_decide_eq_true. exists (cls c r').
      rewrite !elem_of_cls, elem_of_c_partition. naive_solver.
    + intros (X & (r & Hr & ->)%elem_of_c_partition & Ha%elem_of_cls & Hb%elem_of_cls).
      rewrite Ha, Hb. by apply bool_decide_eq_true.
  - split_and!.
    + intros k X [(n & Hn) ->]%lookup_c_components. split.
      * apply elem_of_c_partition. eauto.
      * apply elem_of_cls. eauto.
    + intros X (r & Hr & ->)%elem_of_c_partition. exists r. apply lookup_c_components. eauto.
    + intros k1 k2 X [(n1 & H1) ->]%lookup_c_components [(n2 & H2) E]%lookup_c_components.
      assert (Hk : k1 ∈ cls c k2) by (rewrite <-E; apply elem_of_cls; eauto).
      apply elem_of_cls in Hk. apply Hwf in H1. congruence.
Qed.

Lemma spec_adds_partition cap es :
  is_partition (spec_adds cap es) /\ covered (spec_adds cap es) = mentioned es.
Proof.
  destruct (c_run_spec cap es) as [Hwf <-]. split; [by apply c_partition_is_partition|].
  rewrite covered_c_partition by done. apply dom_c_run.
Qed.

(** ** Consequences of the partition specification *)

Lemma reachable_sym es : forall x y, reachable es x y -> reachable es y x.
Proof.
  intros x y H. induction H as [x|x y z Hxy Hyz IH]; [reflexivity|].
  eapply rtc_r; [exact IH|]. destruct Hxy; [by right|by left].
Qed.

Lemma linked_mono es es' x y : linked es x y -> linked (es ++ es') x y.
Proof. unfold linked. rewrite !elem_of_app. tauto. Qed.

Lemma reachable_mono es es' x y : reachable es x y -> reachable (es ++ es') x y.
Proof. intros H. eapply rtc_subrel; [|exact H]. intros; by apply linked_mono. Qed.

Lemma c_ensure_inv_lookup c a x r :
  c_ensure c a !! x = Some r -> c !! x = Some r \/ (x = a /\ r = a).
Proof.
  unfold c_ensure. destruct (c !! a) eqn:E; [by left|].
  destruct (decide (x = a)) as [->|].
  - rewrite lookup_insert. intros [= <-]. by right.
  - rewrite lookup_insert_ne by done. by left.
Qed.

Definition conn (es : list (N * N)) (c : gmap N N) : Prop :=
  forall x r, c !! x = Some r -> reachable es x r.

Lemma conn_ensure es c a : conn es c -> conn es (c_ensure c a).
Proof.
  intros H x r [Hx|[-> ->]]%c_ensure_inv_lookup; [by apply H|reflexivity].
Qed.

Lemma conn_merge es c k1 k2 :
  conn es c -> reachable es k1 k2 -> conn es (c_merge c k1 k2).
Proof.
  intros H Hk x r. unfold c_merge. rewrite lookup_fmap.
  destruct (c !! x) as [r0|] eqn:Hx; simpl; [|done]. intros [= <-].
  case_decide as E; [subst|by apply H]. etransitivity; [by apply H|done].
Qed.

Lemma conn_c_run cap es : conn es (c_run cap es).
Proof.
  induction es as [|e es IH] using rev_ind.
  - change (c_run cap []) with (∅ : gmap N N). intros x r H. by rewrite lookup_empty in H.
  - rewrite c_run_snoc. unfold c_add.
    assert (H0 : conn (es ++ [e]) (c_run cap es)).
    { intros x r Hx. apply reachable_mono. by apply IH. }
    assert (H2 : conn (es ++ [e]) (c_ensure (c_ensure (c_run cap es) e.1) e.2)).
    { by apply conn_ensure, conn_ensure. }
    set (c2 := c_ensure (c_ensure (c_run cap es) e.1) e.2) in *.
    destruct (c2 !! e.1) as [k1|] eqn:Ha; [|done].
    destruct (c2 !! e.2) as [k2|] eqn:Hb; [|done].
    assert (Hr : reachable (es ++ [e]) k1 k2).
    { etransitivity; [apply reachable_sym, H2, Ha|].
      etransitivity; [|apply H2, Hb]. apply rtc_once. left.
      apply elem_of_app. right. destruct e. simpl. by left. }
    case_decide; [done|]. case_decide; apply conn_merge; auto. by apply reachable_sym.
Qed.

(** Every block is connected through the added edges. *)
Lemma spec_adds_connected cap es X x y :
  X ∈ spec_adds cap es -> x ∈ X -> y ∈ X -> reachable es x y.
Proof.
  destruct (c_run_spec cap es) as [Hwf <-].
  intros (r & Hr & ->)%elem_of_c_partition Hx%elem_of_cls Hy%elem_of_cls.
  pose proof (conn_c_run cap es) as Hc.
  etransitivity; [apply Hc, Hx|]. apply reachable_sym, Hc, Hy.
Qed.

(** Block sizes respect the cap. *)
Lemma spec_add_size cap P a b :
  (0 < cap)%N -> is_partition P ->
  (forall X, X ∈ P -> N.of_nat (size X) <= cap)%N ->
  (forall X, X ∈ spec_add cap P a b -> N.of_nat (size X) <= cap)%N.
Proof.
  intros Hcap Hp Hs X. unfold spec_add.
  assert (He : forall P' a', (forall X, X ∈ P' -> N.of_nat (size X) <= cap)%N ->
             (forall X, X ∈ ensure P' a' -> N.of_nat (size X) <= cap)%N).
  { intros P' a' HP' Y. unfold ensure. case_decide; [apply HP'|].
    rewrite elem_of_union, elem_of_singleton. intros [->|HY]; [|by apply HP'].
    rewrite size_singleton. lia. }
  pose proof (He _ b (He _ a Hs)) as Hs2.
  set (Q := ensure (ensure P a) b) in *.
  case_decide as E; [|apply Hs2].
  rewrite elem_of_union, elem_of_singleton, elem_of_difference.
  intros [->|[HX _]]; [|by apply Hs2].
  assert (size (block Q a ∪ block Q b) <= size (block Q a) + size (block Q b))%nat.
  { rewrite size_union_alt.
    assert (size (block Q b ∖ block Q a) <= size (block Q b))%nat; [|lia].
    apply subseteq_size. set_solver. }
  lia.
Qed.

Lemma spec_adds_size cap es X :
  (0 < cap)%N -> X ∈ spec_adds cap es -> (N.of_nat (size X) <= cap)%N.
Proof.
  intros Hcap. revert X. induction es as [|e es IH] using rev_ind; [set_solver|].
  unfold spec_adds. rewrite foldl_app. simpl. fold (spec_adds cap es).
  apply spec_add_size; [done| |done]. apply spec_adds_partition.
Qed.

(** Without an effective cap, the two ends of every edge share a block. *)
Lemma size_cls_pair c k1 k2 :
  k1 ≠ k2 -> (size (cls c k1) + size (cls c k2) <= size (dom c))%nat.
Proof.
  intros Hne. rewrite <-size_union by (by apply cls_disjoint).
  apply subseteq_size. intros x. rewrite elem_of_union, !elem_of_cls, elem_of_dom. naive_solver.
Qed.

Lemma same_rep_ensure c a x y r :
  c !! x = Some r -> c !! y = Some r ->
  c_ensure c a !! x = Some r /\ c_ensure c a !! y = Some r.
Proof. intros. split; by apply c_ensure_lookup. Qed.

Lemma c_merge_same_rep c k1 k2 x y r :
  c !! x = Some r -> c !! y = Some r ->
  exists r', c_merge c k1 k2 !! x = Some r' /\ c_merge c k1 k2 !! y = Some r'.
Proof.
  intros Hx Hy. unfold c_merge. rewrite !lookup_fmap, Hx, Hy. simpl. eauto.
Qed.

Lemma c_add_mono cap c a b x y r :
  c !! x = Some r -> c !! y = Some r ->
  exists r', c_add cap c a b !! x = Some r' /\ c_add cap c a b !! y = Some r'.
Proof.
  intros Hx Hy. unfold c_add.
  apply (c_ensure_lookup _ _ a), (c_ensure_lookup _ _ b) in Hx.
  apply (c_ensure_lookup _ _ a), (c_ensure_lookup _ _ b) in Hy.
  set (c2 := c_ensure (c_ensure c a) b) in *.
  destruct (c2 !! a); [|eauto]. destruct (c2 !! b); [|eauto].
  case_decide; [eauto|]. case_decide; by eapply c_merge_same_rep.
Qed.

Lemma c_add_joins cap c a b :
  (N.of_nat (size ({[a; b]} ∪ dom c)) <= cap)%N ->
  exists r, c_add cap c a b !! a = Some r /\ c_add cap c a b !! b = Some r.
Proof.
  intros Hcap. unfold c_add.
  assert (Hd : dom (c_ensure (c_ensure c a) b) = {[a; b]} ∪ dom c).
  { rewrite !dom_c_ensure. set_solver. }
  assert (Ha : exists k1, c_ensure (c_ensure c a) b !! a = Some k1).
  { apply elem_of_dom. set_solver. }
  assert (Hb : exists k1, c_ensure (c_ensure c a) b !! b = Some k1).
  { apply elem_of_dom. set_solver. }
  set (c2 := c_ensure (c_ensure c a) b) in *.
  destruct Ha as [k1 Ha], Hb as [k2 Hb]. rewrite Ha, Hb.
  case_decide as E.
  - destruct E as [->|E]; [eauto|]. destruct (decide (k1 = k2)) as [->|Hne]; [eauto|].
    pose proof (size_cls_pair c2 k1 k2 Hne). rewrite Hd in *. lia.
  - case_decide; unfold c_merge; rewrite !lookup_fmap, Ha, Hb; simpl;
      repeat case_decide; eauto; try congruence; naive_solver.
Qed.

Lemma mentioned_app es es' : mentioned (es ++ es') = mentioned es ∪ mentioned es'.
Proof. unfold mentioned. by rewrite bind_app, list_to_set_app_L. Qed.

Lemma c_run_edges cap es :
  (N.of_nat (size (mentioned es)) <= cap)%N ->
  forall a b, (a, b) ∈ es ->
  exists r, c_run cap es !! a = Some r /\ c_run cap es !! b = Some r.
Proof.
  induction es as [|e es IH] using rev_ind; intros Hcap a b Hin.
  { by apply elem_of_nil in Hin. }
  rewrite c_run_snoc. apply elem_of_app in Hin as [Hin|Hin].
  - destruct (IH) with (a := a) (b := b) as (r & Ha & Hb); [|done|].
    + assert (size (mentioned es) <= size (mentioned (es ++ [e])))%nat; [|lia].
      apply subseteq_size. rewrite mentioned_app. set_solver.
    + by eapply c_add_mono.
  - apply elem_of_list_singleton in Hin. subst e. apply c_add_joins. simpl.
    rewrite dom_c_run. rewrite mentioned_snoc in Hcap. done.
Qed.

Lemma c_run_reachable cap es :
  (N.of_nat (size (mentioned es)) <= cap)%N ->
  forall a b, reachable es a b -> a ∈ mentioned es ->
  exists r, c_run cap es !! a = Some r /\ c_run cap es !! b = Some r.
Proof.
  intros Hcap a b Hr Ha. induction Hr as [x|x y z Hxy Hyz IH].
  - rewrite <-(dom_c_run cap) in Ha. apply elem_of_dom in Ha as [r Hr]. eauto.
  - assert (exists r, c_run cap es !! x = Some r /\ c_run cap es !! y = Some r) as (r & Hx & Hy).
    { destruct Hxy as [Hxy|Hxy].
      - by apply (c_run_edges cap es Hcap).
      - destruct (c_run_edges cap es Hcap _ _ Hxy) as (r & ? & ?). eauto. }
    destruct IH as (r' & Hy' & Hz).
    { rewrite <-(dom_c_run cap). by eapply elem_of_dom_2. }
    rewrite Hy in Hy'. injection Hy' as <-. eauto.
Qed.

Lemma spec_same_reachable cap es a b :
  (N.of_nat (size (mentioned es)) <= cap)%N ->
  spec_same (spec_adds cap es) a b <->
  a ∈ mentioned es /\ b ∈ mentioned es /\ reachable es a b.
Proof.
  intros Hcap. split.
  - intros (X & HX & Ha & Hb). destruct (spec_adds_partition cap es) as [_ <-].
    rewrite !elem_of_covered. split_and!; eauto. by eapply spec_adds_connected.
  - intros (Ha & Hb & Hr).
    destruct (c_run_reachable cap es Hcap a b Hr Ha) as (r & Ha' & Hb').
    destruct (c_run_spec cap es) as [Hwf <-].
    exists (cls (c_run cap es) r). rewrite !elem_of_cls, elem_of_c_partition.
    split_and!; eauto.
Qed.

Lemma run_obs_app {S O R} (step : S -> O -> outcome (S * R)) s l1 l2 :
  run_obs step s (l1 ++ l2) =
  ('(s1, r1) ← run_obs step s l1; '(s2, r2) ← run_obs step s1 l2; Ok (s2, r1 ++ r2)).
Proof.
  revert s. induction l1 as [|o l1 IH]; intros s; simpl.
  - destruct (run_obs step s l2) as [[]| | |]; done.
  - destruct (step s o) as [[s1 r]| | |]; simpl; [|done..].
    rewrite IH. destruct (run_obs step s1 l1) as [[s2 rs]| | |]; simpl; [|done..].
    destruct (run_obs step s2 l2) as [[]| | |]; done.
Qed.

Lemma c_results_app cap es ops1 ops2 :
  c_results cap es (ops1 ++ ops2) =
  c_results cap es ops1 ++ c_results cap (es ++ edges_of ops1) ops2.
Proof.
  revert es. induction ops1 as [|o ops1 IH]; intros es; simpl.
  - by rewrite app_nil_r.
  - rewrite IH. unfold edges_of. simpl. by rewrite app_assoc.
Qed.

Lemma orders_ok_app es ops1 ops2 :
  orders_ok es (ops1 ++ ops2) <->
  orders_ok es ops1 /\ orders_ok (es ++ edges_of ops1) ops2.
Proof.
  revert es. induction ops1 as [|o ops1 IH]; intros es; simpl.
  - rewrite app_nil_r. tauto.
  - rewrite IH. unfold edges_of. simpl. rewrite app_assoc. tauto.
Qed.

Lemma edges_of_app ops1 ops2 : edges_of (ops1 ++ ops2) = edges_of ops1 ++ edges_of ops2.
Proof. apply bind_app. Qed.

Lemma query_transparent cap h1 q h2 :
  is_query q -> orders_ok [] (h1 ++ [q] ++ h2) ->
  exists s1 s2 r1 rq r2,
    run_obs cc_step (cc_default cap) (h1 ++ [q] ++ h2) = Ok (s1, r1 ++ [rq] ++ r2) /\
    run_obs cc_step (cc_default cap) (h1 ++ h2) = Ok (s2, r1 ++ r2) /\
    length r1 = length h1.
Proof.
  intros Hq Hord. assert (Hq' : edges_of [q] = []) by (unfold edges_of; simpl; by rewrite Hq).
  destruct (cc_run_inv cap (h1 ++ [q] ++ h2) (cc_default cap) [] eq_refl inv_empty Hord)
    as (s1 & H1 & _).
  assert (Hord2 : orders_ok [] (h1 ++ h2)).
  { rewrite !orders_ok_app in Hord. rewrite orders_ok_app.
    destruct Hord as (Ha & _ & Hb). split; [done|].
    rewrite Hq', !app_nil_r in Hb. done. }
  destruct (cc_run_inv cap (h1 ++ h2) (cc_default cap) [] eq_refl inv_empty Hord2)
    as (s2 & H2 & _).
  rewrite !c_results_app in H1. rewrite c_results_app in H2.
  rewrite Hq', !app_nil_r in H1.
  eexists s1, s2, _, _, _. split_and!; [exact H1|exact H2|].
  clear. generalize (@nil (N * N)) as es. induction h1 as [|o h1 IH]; intros es; simpl; auto.
Qed.

Definition cc_after (cap : N) (h : list cc_op) (s : cc) : Prop :=
  cc_max s = cap /\ inv (cc_set s) (c_run cap (edges_of h)).

Lemma cc_after_run cap h :
  orders_ok [] h ->
  exists s rs, run_obs cc_step (cc_default cap) h = Ok (s, rs) /\ cc_after cap h s.
Proof.
  intros Hord.
  destruct (cc_run_inv cap h (cc_default cap) [] eq_refl inv_empty Hord) as (s & H & Hc & Hi).
  exists s. eexists. split; [exact H|]. done.
Qed.

Lemma cc_after_same cap h s a b :
  cc_after cap h s ->
  exists s' t, cc_same s a b = Ok (s', t) /\
    (t = true <-> spec_same (spec_adds cap (edges_of h)) a b).
Proof.
  intros [<- Hinv].
  destruct (same_inv _ _ a b Hinv) as (m' & _ & E).
  eexists _, _. split; [exact E|].
  destruct (c_run_spec (cc_max s) (edges_of h)) as [Hwf HP].
  exact (c_res_good _ _ (CSame a b) Hwf HP).
Qed.

Lemma cc_after_extract cap h s order :
  cc_after cap h s -> order ≡ₚ elements (mentioned (edges_of h)) ->
  exists s' m, cc_extract s order = Ok (s', m) /\
    components_of m (spec_adds cap (edges_of h)).
Proof.
  intros [<- Hinv] Hord.
  destruct (cc_step_inv s _ _ (CExtract order) eq_refl Hinv Hord) as (s' & Hstep & _).
  simpl in Hstep. apply bind_Ok in Hstep as ([s2 m] & Hs & [= -> ->]).
  exists s'. eexists. split; [exact Hs|].
  destruct (c_run_spec (cc_max s) (edges_of h)) as [Hwf HP].
  exact (c_res_good _ _ (CExtract order) Hwf HP).
Qed.

Lemma spec_adds_reach_classes cap es X :
  (N.of_nat (size (mentioned es)) <= cap)%N ->
  X ∈ spec_adds cap es <->
  exists a, a ∈ mentioned es /\ forall x, x ∈ X <-> reachable es a x.
Proof.
  intros Hcap. destruct (spec_adds_partition cap es) as [[Hne Hdis] Hcov].
  assert (Hreach : forall a x, a ∈ mentioned es -> reachable es a x -> x ∈ mentioned es).
  { intros a x Ha Hr. destruct (c_run_reachable cap es Hcap a x Hr Ha) as (r & _ & Hx).
    rewrite <-(dom_c_run cap). by eapply elem_of_dom_2. }
  split.
  - intros HX. destruct (set_choose_L X (Hne X HX)) as [a Ha].
    exists a. assert (Hm : a ∈ mentioned es) by (rewrite <-Hcov; apply elem_of_covered; eauto).
    split; [done|]. intros x. split.
    + intros Hx. by eapply spec_adds_connected.
    + intros Hr. destruct (proj2 (spec_same_reachable cap es a x Hcap)) as (Y & HY & Ha' & Hx).
      { split_and!; eauto. }
      by rewrite (Hdis X Y a).
  - intros (a & Ha & HX). rewrite <-Hcov in Ha. apply elem_of_covered in Ha as (Y & HY & HaY).
    assert (X = Y); [|by subst]. apply set_eq. intros x. rewrite HX. split.
    + intros Hr. destruct (proj2 (spec_same_reachable cap es a x Hcap)) as (Z & HZ & Ha' & Hx).
      { assert (a ∈ mentioned es) by (rewrite <-Hcov; apply elem_of_covered; eauto).
        split_and!; eauto. }
      by rewrite (Hdis Y Z a).
    + intros Hx. by eapply spec_adds_connected.
Qed.

(** * The property lemmas *)

Lemma cc_reachability_lemma limit h :
  orders_ok [] h -> (N.of_nat (size (mentioned (edges_of h))) <= limit)%N ->
  exists s rs, run_obs cc_step (cc_default limit) h = Ok (s, rs) /\
    (forall a b, exists s' t, cc_same s a b = Ok (s', t) /\
       (t = true <-> a ∈ mentioned (edges_of h) /\ b ∈ mentioned (edges_of h) /\
                    reachable (edges_of h) a b)) /\
    (forall order, order ≡ₚ elements (mentioned (edges_of h)) ->
       exists s' m, cc_extract s order = Ok (s', m) /\
         (forall X, (exists k, m !! k = Some X) <->
              exists a, a ∈ mentioned (edges_of h) /\
                        forall x, x ∈ X <-> reachable (edges_of h) a x) /\
         (forall k X, m !! k = Some X -> k ∈ X) /\
         (forall k1 k2 X, m !! k1 = Some X -> m !! k2 = Some X -> k1 = k2)).
Proof.
  intros Hord Hcap. destruct (cc_after_run limit h Hord) as (s & rs & Hrun & Hs).
  exists s, rs. split; [done|]. split.
  - intros a b. destruct (cc_after_same _ _ _ a b Hs) as (s' & t & Ht & Hiff).
    exists s', t. split; [done|]. rewrite Hiff. by apply spec_same_reachable.
  - intros order Ho. destruct (cc_after_extract _ _ _ order Hs Ho) as (s' & m & Hm & H1 & H2 & H3).
    exists s', m. split; [done|]. split_and!.
    + intros X. rewrite <-(spec_adds_reach_classes limit) by done. split; [|by apply H2].
      intros [k Hk]. by apply (H1 k).
    + intros k X Hk. by apply H1.
    + done.
Qed.

Lemma cc_new_ok max_size s :
  cc_new max_size = Ok s -> s = cc_default (Z.to_N (max_size mod 2 ^ 64)) /\ (0 < cc_max s)%N.
Proof.
  unfold cc_new. case_bool_decide; simpl; intros [= <-]. done.
Qed.

Lemma cc_new_pos max_size :
  (0 < max_size < 2 ^ 31)%Z -> cc_new max_size = Ok (cc_default (Z.to_N max_size)).
Proof.
  intros H. unfold cc_new. rewrite Z.mod_small by lia.
  rewrite bool_decide_true by lia. done.
Qed.

Lemma cc_capped_lemma max_size h :
  (0 < max_size < 2 ^ 31)%Z -> orders_ok [] h ->
  let P := spec_adds (Z.to_N max_size) (edges_of h) in
  exists s0 s rs, cc_new max_size = Ok s0 /\ run_obs cc_step s0 h = Ok (s, rs) /\
    (forall a b, exists s' t, cc_same s a b = Ok (s', t) /\ (t = true <-> spec_same P a b)) /\
    (forall order, order ≡ₚ elements (mentioned (edges_of h)) ->
       exists s' m, cc_extract s order = Ok (s', m) /\ components_of m P) /\
    is_partition P /\
    covered P = mentioned (edges_of h) /\
    (forall X x y, X ∈ P -> x ∈ X -> y ∈ X -> reachable (edges_of h) x y) /\
    (forall X, X ∈ P -> (Z.of_nat (size X) <= max_size)%Z).
Proof.
  intros Hm Hord P. destruct (cc_after_run (Z.to_N max_size) h Hord) as (s & rs & Hrun & Hs).
  exists (cc_default (Z.to_N max_size)), s, rs. split; [by apply cc_new_pos|].
  split; [done|]. split_and!.
  - intros a b. by eapply cc_after_same.
  - intros order Ho. by eapply cc_after_extract.
  - apply spec_adds_partition.
  - apply spec_adds_partition.
  - intros X x y. apply spec_adds_connected.
  - intros X HX. apply spec_adds_size in HX; lia.
Qed.
