(** Proofs about Kruskal's algorithm. *)
From stdpp Require Import gmap sorting.
From Verif Require Import Base ConnectedComponents_Model ConnectedComponents_Spec ConnectedComponents_Proofs
  ConnectedComponents_Props MinSpanningTree_Model MinSpanningTree_Spec.

(** ** A representative for every node, and counting components *)

Fixpoint rep (es : list (N * N)) (x : N) : N :=
  match es with
  | [] => x
  | (a, b) :: es' => if decide (rep es' x = rep es' a) then rep es' b else rep es' x
  end.

Lemma reach_sym es a b : reachable es a b -> reachable es b a.
Proof.
  induction 1 as [x|x y z Hxy _ IH]; [apply rtc_refl|]. eapply rtc_transitive; [exact IH|].
  apply rtc_once. destruct Hxy; [by right|by left].
Qed.
Lemma reach_trans es a b c : reachable es a b -> reachable es b c -> reachable es a c.
Proof. apply rtc_transitive. Qed.
Lemma reach_refl es a : reachable es a a.
Proof. apply rtc_refl. Qed.
Lemma reach_sub es es' a b : (forall e, e ∈ es -> reachable es' e.1 e.2) -> reachable es a b -> reachable es' a b.
Proof.
  intros Hs. induction 1 as [x|x y z [Hxy|Hxy] _ IH]; [apply reach_refl| |]; eapply reach_trans; try exact IH.
  - apply (Hs _ Hxy).
  - apply reach_sym, (Hs _ Hxy).
Qed.
Lemma reach_edge es e : e ∈ es -> reachable es e.1 e.2.
Proof. intros He. apply rtc_once. left. by destruct e. Qed.
Lemma reach_incl es es' a b : (forall e, e ∈ es -> e ∈ es') -> reachable es a b -> reachable es' a b.
Proof. intros Hs. apply reach_sub. intros e He. by apply reach_edge, Hs. Qed.

Lemma rep_reach es x : reachable es x (rep es x).
Proof.
  induction es as [|[a b] es IH] in x |- *; simpl; [apply reach_refl|].
  assert (Hw : forall u v, reachable es u v -> reachable ((a, b) :: es) u v).
  { intros u v. apply reach_incl. intros e He. by right. }
  destruct (decide _) as [E|E]; [|apply Hw, IH].
  eapply reach_trans; [apply Hw, IH|]. rewrite E. eapply reach_trans; [apply Hw, reach_sym, IH|].
  eapply reach_trans; [|apply Hw, IH]. apply rtc_once. left. by left.
Qed.

Lemma rep_edge es a b : (a, b) ∈ es -> rep es a = rep es b.
Proof.
  induction es as [|[c d] es IH]; simpl; [by intros ?%elem_of_nil|].
  intros [[= -> ->]|Hin]%elem_of_cons.
  - rewrite decide_True by done. by destruct (decide _).
  - by rewrite (IH Hin).
Qed.

Lemma rep_iff es x y : reachable es x y <-> rep es x = rep es y.
Proof.
  split.
  - induction 1 as [x|x y z [Hxy|Hxy] _ IH]; [done| |]; apply rep_edge in Hxy; congruence.
  - intros E. eapply reach_trans; [apply rep_reach|]. rewrite E. apply reach_sym, rep_reach.
Qed.

Lemma rep_rep es x : rep es (rep es x) = rep es x.
Proof. symmetry. apply rep_iff, rep_reach. Qed.

Definition comps (V : gset N) (es : list (N * N)) : nat := size (set_map (D := gset N) (rep es) V).

Lemma comps_nil V : comps V [] = size V.
Proof.
  unfold comps. f_equal. apply set_eq. intros x. rewrite elem_of_map. simpl. naive_solver.
Qed.

Lemma set_map_size (f : N -> N) (X : gset N) : size (set_map (D := gset N) f X) <= size X.
Proof.
  induction X as [|x X Hx IH] using set_ind_L; [done|].
  rewrite set_map_union_L, set_map_singleton_L. rewrite (size_union {[x]} X) by set_solver.
  rewrite size_singleton. etransitivity; [|apply le_n_S, IH].
  transitivity (size ({[f x]} ∪ (set_map (D := gset N) f X ∖ {[f x]}) : gset N)).
  - apply subseteq_size. intros y. rewrite !elem_of_union, elem_of_difference, elem_of_singleton.
    destruct (decide (y = f x)); tauto.
  - rewrite size_union by set_solver. rewrite size_singleton. simpl. apply le_n_S, subseteq_size. set_solver.
Qed.

(** Fewer connections, more components. *)
Lemma comps_mono V es es' : (forall e, e ∈ es -> reachable es' e.1 e.2) -> comps V es' <= comps V es.
Proof.
  intros Hs. unfold comps.
  assert (set_map (D := gset N) (rep es') V = set_map (D := gset N) (rep es') (set_map (D := gset N) (rep es) V)) as ->.
  { apply set_eq. intros y. rewrite !elem_of_map.
    assert (E : forall x, rep es' (rep es x) = rep es' x).
    { intros x. symmetry. apply rep_iff. eapply reach_sub; [exact Hs|]. apply rep_reach. }
    split.
    - intros (x & -> & Hx). exists (rep es x). split; [by rewrite E|]. apply elem_of_map. eauto.
    - intros (z & -> & (x & -> & Hx)%elem_of_map). exists x. by rewrite E. }
  apply set_map_size.
Qed.

(** One more edge removes at most one component, and exactly one if it joins two. *)
Lemma comps_cons V es e : comps V es <= S (comps V (e :: es)).
Proof.
  destruct e as [a b]. unfold comps.
  transitivity (size ({[rep es a]} ∪ set_map (D := gset N) (rep ((a, b) :: es)) V : gset N)).
  - apply subseteq_size. intros y (x & -> & Hx)%elem_of_map. rewrite elem_of_union, elem_of_singleton.
    destruct (decide (rep es x = rep es a)) as [E|E]; [by left|right]. apply elem_of_map. exists x.
    simpl. by rewrite decide_False.
  - pose proof (size_union_alt {[rep es a]} (set_map (D := gset N) (rep ((a, b) :: es)) V)) as ->.
    rewrite size_singleton. simpl. apply le_n_S, subseteq_size. set_solver.
Qed.

Lemma comps_join V es a b : a ∈ V -> b ∈ V -> ~ reachable es a b -> comps V es = S (comps V ((a, b) :: es)).
Proof.
  intros Ha Hb Hn. apply Nat.le_antisymm; [apply comps_cons|].
  unfold comps.
  assert (Hnot : rep es a ∉ set_map (D := gset N) (rep ((a, b) :: es)) V).
  { rewrite elem_of_map. intros (x & E & _). simpl in E. destruct (decide _) as [E'|E'].
    - apply Hn. by apply rep_iff.
    - done. }
  transitivity (size ({[rep es a]} ∪ set_map (D := gset N) (rep ((a, b) :: es)) V : gset N)).
  - rewrite size_union by set_solver. by rewrite size_singleton.
  - apply subseteq_size. intros y [->%elem_of_singleton|Hy]%elem_of_union; [apply elem_of_map; eauto|].
    apply elem_of_map in Hy as (x & -> & Hx). simpl. destruct (decide _); apply elem_of_map; eauto.
Qed.

Lemma comps_app V es es' : comps V es' <= length es + comps V (es ++ es').
Proof. induction es as [|e es IH]; simpl; [done|]. pose proof (comps_cons V (es ++ es') e). lia. Qed.

Lemma comps_lower V es : size V <= length es + comps V es.
Proof. pose proof (comps_app V es []) as H. rewrite comps_nil, app_nil_r in H. done. Qed.

Lemma comps_connected V es : V ≠ ∅ -> (forall a b, a ∈ V -> b ∈ V -> reachable es a b) <-> comps V es = 1.
Proof.
  intros Hne. apply set_choose_L in Hne as [v Hv]. unfold comps. split.
  - intros Hall. assert (set_map (D := gset N) (rep es) V = {[rep es v]}) as ->; [|apply size_singleton].
    apply set_eq. intros y. rewrite elem_of_map, elem_of_singleton. split.
    + intros (x & -> & Hx). by apply rep_iff, Hall.
    + intros ->. eauto.
  - intros Hs a b Ha Hb. apply rep_iff. apply size_1_elem_of in Hs as [y Hy].
    assert (rep es a ∈ set_map (D := gset N) (rep es) V) as H1 by (apply elem_of_map; eauto).
    assert (rep es b ∈ set_map (D := gset N) (rep es) V) as H2 by (apply elem_of_map; eauto).
    rewrite Hy in H1, H2. apply elem_of_singleton in H1, H2. congruence.
Qed.

(** Permuting edges changes nothing. *)
Lemma comps_perm V es es' : es ≡ₚ es' -> comps V es = comps V es'.
Proof.
  intros Hp. apply Nat.le_antisymm; apply comps_mono; intros e He; apply reach_edge; [by rewrite Hp|by rewrite <-Hp].
Qed.

(** ** The order of std::sort *)

Global Instance edge_le_total : Total edge_le.
Proof. intros e f. unfold edge_le. lia. Qed.
Global Instance edge_le_trans : Transitive edge_le.
Proof. intros e f g. unfold edge_le. lia. Qed.

(** ** Optimality *)

(** [F] was chosen greedily: every lighter edge is connected by the part chosen before (reverse order:
    latest first). *)
Fixpoint greedy (edges F : list wedge) : Prop :=
  match F with
  | [] => True
  | f :: F' => greedy edges F' /\ forall e, e ∈ edges -> (e.1 < f.1)%Z -> reachable (F'.*2) e.2.1 e.2.2
  end.

Definition desc_w (F : list wedge) : Prop := StronglySorted (fun e f => (f.1 <= e.1)%Z) F.

(** Weights compare position by position. *)
Lemma greedy_pointwise edges F S :
  greedy edges F -> desc_w S -> (forall e, e ∈ S -> e ∈ edges) ->
  length F = length S ->
  comps (nodes edges) (S.*2) + length S <= size (nodes edges) ->
  Forall2 (fun f s => (f.1 <= s.1)%Z) F S.
Proof.
  intros Hg. revert S. induction F as [|f F IH]; intros S Hs Hin Hlen Hc; destruct S as [|s S]; try done.
  simpl in Hlen. injection Hlen as Hlen. destruct Hg as [Hg Hf].
  apply StronglySorted_inv in Hs as [Hs Hall].
  constructor.
  - destruct (decide (f.1 <= s.1)%Z) as [|Hlt]; [done|exfalso].
    (* all of s :: S is lighter than f, hence connected by F *)
    assert (Hm : comps (nodes edges) (F.*2) <= comps (nodes edges) ((s :: S).*2)).
    { apply comps_mono. intros e (e' & -> & He')%elem_of_list_fmap. apply Hf; [by apply Hin|].
      apply elem_of_cons in He' as [->|He']; [lia|]. rewrite Forall_forall in Hall. specialize (Hall _ He'). lia. }
    pose proof (comps_lower (nodes edges) (F.*2)) as Hl. rewrite fmap_length in Hl. cbn [length] in Hc. lia.
  - apply IH; [done|done| |done|].
    + intros e He. apply Hin. by right.
    + pose proof (comps_cons (nodes edges) (S.*2) s.2) as Hc'. rewrite fmap_cons in Hc. cbn [length] in Hc. lia.
Qed.

Lemma weight_pointwise F S : Forall2 (fun f s : wedge => (f.1 <= s.1)%Z) F S -> (weight F <= weight S)%Z.
Proof. unfold weight. induction 1; csimpl; lia. Qed.

Lemma weight_perm F S : F ≡ₚ S -> weight F = weight S.
Proof. unfold weight. induction 1; csimpl; lia. Qed.

Definition w_ge (e f : wedge) : Prop := (f.1 <= e.1)%Z.
Global Instance w_ge_dec : RelDecision w_ge.
Proof. intros e f. unfold w_ge. apply _. Defined.
Global Instance w_ge_total : Total w_ge.
Proof. intros e f. unfold w_ge. lia. Qed.
Global Instance w_ge_trans : Transitive w_ge.
Proof. intros e f g. unfold w_ge. lia. Qed.

Lemma nodes_nonempty (edges : list wedge) : edges ≠ [] -> nodes edges ≠ ∅.
Proof.
  destruct edges as [|[w [a b]] l]; [done|]. intros _ E.
  assert (a ∈ nodes ((w, (a, b)) :: l)); [|set_solver]. unfold nodes, mentioned. simpl. set_solver.
Qed.

Lemma greedy_optimal edges F : edges ≠ [] -> greedy edges F -> length F + 1 = size (nodes edges) ->
  forall S, spanning_tree edges S -> (weight F <= weight S)%Z.
Proof.
  intros Hne Hg Hlen S (Hin & Hcon & HlenS).
  rewrite <-(weight_perm (merge_sort w_ge S) S) by apply merge_sort_Permutation.
  apply weight_pointwise, (greedy_pointwise edges).
  - done.
  - apply (StronglySorted_merge_sort w_ge).
  - intros e. rewrite merge_sort_Permutation. apply Hin.
  - rewrite merge_sort_Permutation. lia.
  - assert (length (merge_sort w_ge S) = length S) as -> by (by rewrite merge_sort_Permutation).
    rewrite (comps_perm _ _ (S.*2)) by (by rewrite merge_sort_Permutation).
    assert (comps (nodes edges) (S.*2) = 1) as -> by (by apply comps_connected; [apply nodes_nonempty|]).
    lia.
Qed.

(** ** The loop *)

Lemma count_nodes_size edges : count_nodes edges = size (nodes edges).
Proof.
  unfold count_nodes, nodes, mentioned.
  rewrite <-(size_list_to_set (C := gset N)) by apply NoDup_remove_dups.
  f_equal. apply set_eq. intros x. rewrite !elem_of_list_to_set, elem_of_remove_dups, !elem_of_list_bind.
  setoid_rewrite elem_of_list_fmap. split.
  - intros (e & Hx & He). exists e.2. split; [done|]. eauto.
  - intros (p & Hx & e & -> & He). eauto.
Qed.

Lemma run_obs_snoc {S O R} (step : S -> O -> outcome (S * R)) s0 h s rs o s' r :
  run_obs step s0 h = Ok (s, rs) -> step s o = Ok (s', r) -> run_obs step s0 (h ++ [o]) = Ok (s', rs ++ [r]).
Proof.
  revert s0 rs. induction h as [|o' h IH]; intros s0 rs; simpl.
  - intros [= -> <-] E. by rewrite E.
  - destruct (step s0 o') as [[s1 r1]| | |]; simpl; try done.
    destruct (run_obs step s1 h) as [[s2 rs2]| | |] eqn:E2; simpl; try done.
    intros [= -> <-] E. by rewrite (IH _ _ E2 E).
Qed.

Lemma orders_ok_noextract h : (forall o, o ∈ h -> match o with CExtract _ => False | _ => True end) ->
  forall pre, orders_ok pre h.
Proof.
  induction h as [|o h IH]; intros Hh pre; simpl; [done|]. split.
  - specialize (Hh o ltac:(by left)). by destruct o.
  - apply IH. intros. apply Hh. by right.
Qed.

Definition plain (h : list cc_op) : Prop :=
  forall o, o ∈ h -> match o with CExtract _ => False | _ => True end.

Definition cc_after (limit : N) (F : list (N * N)) (s : cc) : Prop :=
  exists h rs, plain h /\ run_obs cc_step (cc_default limit) h = Ok (s, rs) /\
    (forall e, e ∈ edges_of h <-> e ∈ F).

Lemma mentioned_ext es F : (forall e, e ∈ es <-> e ∈ F) -> mentioned es = mentioned F.
Proof.
  intros He. unfold mentioned. apply set_eq. intros x. rewrite !elem_of_list_to_set, !elem_of_list_bind.
  split; intros (e & Hx & Hin); exists e; split; try done; by apply He.
Qed.

Lemma reach_ext es F a b : (forall e, e ∈ es <-> e ∈ F) -> reachable es a b <-> reachable F a b.
Proof. intros He. split; apply reach_incl; intros e; apply He. Qed.

Lemma reach_mentioned es a b : reachable es a b -> a ≠ b -> a ∈ mentioned es /\ b ∈ mentioned es.
Proof.
  assert (Hl : forall a b, reachable es a b -> a ≠ b -> a ∈ mentioned es).
  { intros x y Hr Hne. destruct Hr as [x|x z y [Hxz|Hxz] _]; [done| |];
      unfold mentioned; apply elem_of_list_to_set, elem_of_list_bind.
    - exists (x, z). split; [by left|done].
    - exists (z, x). split; [right; by left|done]. }
  intros Hr Hne. split; [by eapply Hl|]. eapply Hl; [by apply reach_sym|done].
Qed.

Lemma cc_after_same limit F s a b : cc_after limit F s -> (N.of_nat (size (mentioned F)) <= limit)%N -> a ≠ b ->
  exists s' t, cc_same s a b = Ok (s', t) /\ cc_after limit F s' /\ (t = true <-> reachable F a b).
Proof.
  intros (h & rs & Hp & Hrun & He) Hl Hne.
  destruct (cc_reachability limit h) as (s1 & rs1 & Hrun1 & Hsame & _).
  { by apply orders_ok_noextract. }
  { by rewrite (mentioned_ext _ _ He). }
  rewrite Hrun in Hrun1. injection Hrun1 as <- <-.
  destruct (Hsame a b) as (s' & t & E & Ht). exists s', t. split; [done|]. split.
  - exists (h ++ [CSame a b]), (rs ++ [RBool t]). split_and!.
    + intros o [Ho| ->%elem_of_list_singleton]%elem_of_app; [by apply Hp|done].
    + eapply run_obs_snoc; [exact Hrun|]. simpl. by rewrite E.
    + intros e. unfold edges_of. rewrite bind_app. simpl. rewrite app_nil_r. apply He.
  - rewrite Ht, (mentioned_ext _ _ He), (reach_ext _ _ a b He). split; [tauto|].
    intros Hr. destruct (reach_mentioned F a b Hr Hne). done.
Qed.

Lemma cc_after_add limit F s a b : cc_after limit F s ->
  (N.of_nat (size (mentioned ((a, b) :: F))) <= limit)%N ->
  exists s', cc_add_edge s a b = Ok s' /\ cc_after limit ((a, b) :: F) s'.
Proof.
  intros (h & rs & Hp & Hrun & He) Hl.
  assert (Hp' : plain (h ++ [CAddEdge a b])).
  { intros o [Ho| ->%elem_of_list_singleton]%elem_of_app; [by apply Hp|done]. }
  assert (He' : forall e, e ∈ edges_of (h ++ [CAddEdge a b]) <-> e ∈ (a, b) :: F).
  { intros e. unfold edges_of. rewrite bind_app. simpl. rewrite elem_of_app, He, elem_of_list_singleton, elem_of_cons.
    tauto. }
  destruct (cc_reachability limit (h ++ [CAddEdge a b])) as (s1 & rs1 & Hrun1 & _).
  { by apply orders_ok_noextract. }
  { by rewrite (mentioned_ext _ _ He'). }
  destruct (cc_add_edge s a b) as [s'| | |] eqn:E.
  - exists s'. split; [done|]. exists (h ++ [CAddEdge a b]), (rs ++ [RUnit]). split_and!; try done.
    eapply run_obs_snoc; [exact Hrun|]. simpl. by rewrite E.
  - exfalso. rewrite run_obs_app, Hrun in Hrun1. simpl in Hrun1. by rewrite E in Hrun1.
  - exfalso. rewrite run_obs_app, Hrun in Hrun1. simpl in Hrun1. by rewrite E in Hrun1.
  - exfalso. rewrite run_obs_app, Hrun in Hrun1. simpl in Hrun1. by rewrite E in Hrun1.
Qed.

Lemma nodes_incl edges F : (forall e, e ∈ F -> e ∈ edges) -> mentioned (F.*2) ⊆ nodes edges.
Proof.
  intros Hin x. unfold nodes, mentioned. rewrite !elem_of_list_to_set, !elem_of_list_bind.
  intros (p & Hx & (e & -> & He)%elem_of_list_fmap). exists e.2. split; [done|].
  apply elem_of_list_fmap. eauto.
Qed.

Lemma edge_nodes (edges : list wedge) e : e ∈ edges -> e.2.1 ∈ nodes edges /\ e.2.2 ∈ nodes edges.
Proof.
  intros He. unfold nodes, mentioned. rewrite !elem_of_list_to_set, !elem_of_list_bind.
  split; exists e.2; (split; [|by apply elem_of_list_fmap_1]).
  - by left.
  - right. by left.
Qed.

(** The state of the loop after the edges [done]. *)
Record kinv (limit : N) (edges : list wedge) (dn : list wedge) (F : list wedge) (s : cc) (out : gset (N * N)) : Prop := {
  k_cc : cc_after limit (F.*2) s;
  k_sub : forall e, e ∈ F -> e ∈ dn;
  k_out : out = list_to_set (F.*2);
  k_nodup : NoDup (F.*2);
  k_size : size out = length F;
  k_comps : comps (nodes edges) (F.*2) + length F = size (nodes edges);
  k_done : forall e, e ∈ dn -> reachable (F.*2) e.2.1 e.2.2;
  k_greedy : greedy edges F }.

Lemma loop_ok limit edges num rest : forall dn F s out,
  (N.of_nat (size (nodes edges)) <= limit)%N -> no_self_loops edges ->
  dn ++ rest = merge_sort edge_le edges ->
  kinv limit edges dn F s out ->
  exists out' F' dn' s', mst_loop num s out rest = Ok out' /\ kinv limit edges dn' F' s' out' /\
    (forall e, e ∈ dn' -> e ∈ edges) /\
    (size out' < num -> dn' = merge_sort edge_le edges).
Proof.
  induction rest as [|e rest IH]; intros dn F s out Hlim Hloop Hsplit I; cbn [mst_loop].
  { exists out, F, dn, s. split; [done|]. split; [done|]. rewrite app_nil_r in Hsplit. subst dn. split; [|done].
    intros e. by rewrite merge_sort_Permutation. }
  assert (Hsub : forall f, f ∈ dn ++ e :: rest -> f ∈ edges).
  { intros f. rewrite Hsplit, merge_sort_Permutation. done. }
  destruct (decide (size out < num)) as [Hlt|Hge].
  2:{ exists out, F, dn, s. split; [done|]. split; [done|]. split; [|lia].
      intros f Hf. apply Hsub, elem_of_app. by left. }
  assert (He : e ∈ edges) by (apply Hsub, elem_of_app; right; by left).
  assert (Hne : e.2.1 ≠ e.2.2) by by apply Hloop.
  assert (HF : forall f, f ∈ F -> f ∈ edges).
  { intros f Hf. apply Hsub, elem_of_app. left. by eapply k_sub. }
  destruct (cc_after_same limit (F.*2) s e.2.1 e.2.2 (k_cc _ _ _ _ _ _ I)) as (s1 & t & -> & Hcc & Ht); [|done|].
  { pose proof (subseteq_size _ _ (nodes_incl edges F HF)). lia. }
  cbn [mbind outcome_bind]. destruct t.
  - apply (IH (dn ++ [e]) F s1 out); [done|done|by rewrite <-app_assoc|].
    destruct I. constructor; try done.
    + intros f Hf. apply elem_of_app. left. by apply k_sub0.
    + intros f [Hf| ->%elem_of_list_singleton]%elem_of_app; [by apply k_done0|]. by apply Ht.
  - assert (Hnr : ~ reachable (F.*2) e.2.1 e.2.2) by (rewrite <-Ht; done).
    destruct (cc_after_add limit (F.*2) s1 e.2.1 e.2.2 Hcc) as (s2 & -> & Hcc2).
    { assert (Hincl : forall f, f ∈ e :: F -> f ∈ edges).
      { intros f [->|Hf]%elem_of_cons; [done|by apply HF]. }
      pose proof (subseteq_size _ _ (nodes_incl edges (e :: F) Hincl)) as Hs. rewrite fmap_cons in Hs.
      rewrite <-(surjective_pairing e.2). lia. }
    cbn [mbind outcome_bind]. rewrite <-(surjective_pairing e.2) in Hcc2.
    apply (IH (dn ++ [e]) (e :: F) s2 ({[e.2]} ∪ out)); [done|done|by rewrite <-app_assoc|].
    assert (Hfresh : e.2 ∉ F.*2).
    { intros Hin. apply Hnr. by apply reach_edge. }
    destruct I. constructor.
    + exact Hcc2.
    + intros f [->|Hf]%elem_of_cons; apply elem_of_app; [right; by left|left; by apply k_sub0].
    + subst out. done.
    + rewrite fmap_cons. by constructor.
    + rewrite size_union; [rewrite size_singleton, k_size0; done|].
      subst out. intros x ->%elem_of_singleton. by rewrite elem_of_list_to_set.
    + destruct (edge_nodes edges e He) as [H1 H2].
      pose proof (comps_join (nodes edges) (F.*2) e.2.1 e.2.2 H1 H2 Hnr) as Hj.
      rewrite <-(surjective_pairing e.2) in Hj. rewrite fmap_cons. cbn [length]. lia.
    + intros f [Hf| ->%elem_of_list_singleton]%elem_of_app.
      * eapply reach_incl; [|by apply k_done0]. intros g Hg. rewrite fmap_cons. by right.
      * apply reach_edge. rewrite fmap_cons. by left.
    + split; [done|]. intros f Hf Hw. apply k_done0.
      (* f is lighter than e, so it comes before e in the sorted list *)
      assert (Hin : f ∈ dn ++ e :: rest) by (by rewrite Hsplit, merge_sort_Permutation).
      apply elem_of_app in Hin as [?|Hin]; [done|exfalso].
      pose proof (StronglySorted_merge_sort edge_le edges) as Hsorted. rewrite <-Hsplit in Hsorted.
      clear -Hsorted Hin Hw. induction dn as [|d dn IHd]; simpl in Hsorted.
      * apply StronglySorted_inv in Hsorted as [_ Hall]. rewrite Forall_forall in Hall.
        apply elem_of_cons in Hin as [->|Hin]; [lia|]. specialize (Hall _ Hin). unfold edge_le in Hall. lia.
      * apply StronglySorted_inv in Hsorted as [Hsorted _]. by apply IHd.
Qed.

Lemma mst_extract_ne limit edges out : edges ≠ [] ->
  mst_extract limit edges out =
    (out' ← mst_loop (size (nodes edges) - 1) (cc_default limit) out (merge_sort edge_le edges);
     Ok (bool_decide (size out' = size (nodes edges) - 1), merge_sort edge_le edges, out')).
Proof. intros Hne. rewrite <-count_nodes_size. by destruct edges. Qed.

Lemma mst_lemma limit edges : no_self_loops edges -> (N.of_nat (size (nodes edges)) <= limit)%N ->
  exists ok sorted out, mst_extract limit edges ∅ = Ok (ok, sorted, out) /\
    (ok = true <-> edges ≠ [] /\ connects edges (nodes edges)) /\
    (ok = true -> exists T, minimum_spanning_tree edges T /\ NoDup (T.*2) /\ out = list_to_set (T.*2)) /\
    sorted ≡ₚ edges.
Proof.
  intros Hloop Hlim. destruct (decide (edges = [])) as [->|Hne].
  { exists false, [], ∅. split; [done|]. split; [|split; done]. split; [done|]. by intros [? _]. }
  rewrite mst_extract_ne by done.
  destruct (loop_ok limit edges (size (nodes edges) - 1) (merge_sort edge_le edges) [] [] (cc_default limit) ∅)
    as (out & F & dn & s & -> & I & Hdn & Hall); [done|done|done| |].
  { constructor.
    - exists [], []. split_and!; [by intros o ?%elem_of_nil|done|done].
    - by intros e ?%elem_of_nil.
    - done.
    - constructor.
    - done.
    - rewrite fmap_nil, comps_nil. simpl. lia.
    - by intros e ?%elem_of_nil.
    - done. }
  cbn [mbind outcome_bind]. eexists _, _, _. split; [done|].
  assert (HF : forall e, e ∈ F -> e ∈ edges).
  { intros e He. apply Hdn. by eapply k_sub. }
  pose proof (nodes_nonempty edges Hne) as HV.
  assert (Hpos : size (nodes edges) ≠ 0) by (intros E%size_empty_inv; set_solver).
  destruct I as [_ _ Hout Hnd Hsize Hcomps Hdone Hgreedy].
  assert (Hok : bool_decide (size out = size (nodes edges) - 1) = true <-> comps (nodes edges) (F.*2) = 1).
  { rewrite bool_decide_eq_true. lia. }
  rewrite Hok, <-(comps_connected _ _ HV). split; [|split].
  - split.
    + intros Hc. split; [done|]. intros a b Ha Hb. eapply reach_incl; [|by apply Hc].
      intros p (e & -> & He)%elem_of_list_fmap. by apply elem_of_list_fmap_1, HF.
    + intros [_ Hc].
      destruct (decide (size out < size (nodes edges) - 1)) as [Hlt|Hge].
      * specialize (Hall Hlt). intros a b Ha Hb. eapply reach_sub; [|by apply Hc].
        intros p (e & -> & He)%elem_of_list_fmap. apply Hdone. rewrite Hall, merge_sort_Permutation. done.
      * apply (comps_connected _ _ HV).
        assert (comps (nodes edges) (F.*2) ≠ 0); [|lia].
        unfold comps. apply set_choose_L in HV as [v Hv]. intros E%size_empty_inv.
        assert (rep (F.*2) v ∈ set_map (D := gset N) (rep (F.*2)) (nodes edges)); [|set_solver].
        apply elem_of_map. eauto.
  - intros Hc. exists F.
    assert (H1 : comps (nodes edges) (F.*2) = 1) by (by apply (comps_connected _ _ HV)).
    split_and!; [|done|done].
    split; [split_and!; [done|done|lia]|]. apply greedy_optimal; [done|done|lia].
  - apply merge_sort_Permutation.
Qed.
