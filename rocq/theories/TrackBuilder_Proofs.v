(** Proofs about the track builder. *)
From stdpp Require Import gmap.
From Verif Require Import Base ConnectedComponents_Model ConnectedComponents_Spec
  ConnectedComponents_Proofs Reconstruction_Model Reconstruction_Spec Reconstruction_Proofs
  Reconstruction_Lemmas TrackBuilder_Model TrackBuilder_Spec.

Lemma through_int_small n : (n < 2 ^ 31)%N -> through_int n = n.
Proof. intros Hn. unfold through_int. rewrite N.mod_small by lia. by rewrite decide_True. Qed.

Section proofs.
Context {F : Type} `{Countable F} {C D : Type} (c0 : C) (d0 : D).
Implicit Types (r : recon F C D) (a : arecon F C D) (cs : list (corr F)) (b : tb F).

(** The image features in order of their ids. *)
Definition ids_ok (l : list (N * F)) (m : gmap (N * F) N) : Prop :=
  NoDup l /\ forall k i, m !! k = Some i <-> l !! N.to_nat i = Some k.

(** What the builder knows after the correspondences [cs]. *)
Definition tb_ok (min max : Z) cs (l : list (N * F)) (es : list (N * N)) b : Prop :=
  tb_min b = min /\ cc_max (tb_cc b) = Z.to_N max /\
  inv (cc_set (tb_cc b)) (c_run (Z.to_N max) es) /\
  ids_ok l (tb_features b) /\ tb_num b = N.of_nat (length l) /\
  (length l <= 2 * length cs)%nat /\
  Forall2 (fun (c : corr F) (e : N * N) =>
     l !! N.to_nat e.1 = Some c.1 /\ l !! N.to_nat e.2 = Some c.2) cs es.

Lemma find_or_insert_ok b (l : list (N * F)) k :
  ids_ok l (tb_features b) -> tb_num b = N.of_nat (length l) -> (N.of_nat (length l) + 1 < 2 ^ 31)%N ->
  exists l' b' i, tb_find_or_insert b k = (b', i) /\ ids_ok l' (tb_features b') /\
    tb_num b' = N.of_nat (length l') /\ tb_min b' = tb_min b /\ tb_cc b' = tb_cc b /\
    (length l' <= length l + 1)%nat /\ (i < 2 ^ 31)%N /\
    l' !! N.to_nat i = Some k /\ (forall j x, l !! j = Some x -> l' !! j = Some x).
Proof.
  intros [Hnd Hl] Hn Hb. unfold tb_find_or_insert.
  destruct (tb_features b !! k) as [i|] eqn:E.
  - exists l, b, i. apply Hl in E as E'. pose proof (lookup_lt_Some _ _ _ E').
    split_and!; try done; try lia.
  - assert (Hk : k ∉ l).
    { intros [j Hj]%elem_of_list_lookup. specialize (Hl k (N.of_nat j)).
      rewrite Nat2N.id, E in Hl. destruct Hl as [_ Hl]. by specialize (Hl Hj). }
    eexists (l ++ [k]), _, _. split; [done|]. simpl. split_and!; try done; try lia.
    + split; [apply NoDup_app; split; [done|]; split; [set_solver|apply NoDup_singleton]|].
      intros k' i. destruct (decide (k' = k)) as [->|Hne].
      * rewrite lookup_insert, Hn. split.
        -- intros [= <-]. rewrite Nat2N.id. by rewrite list_lookup_middle.
        -- intros [Hx|[Hx Hy]]%lookup_app_Some.
           ++ exfalso. apply Hk. by eapply elem_of_list_lookup_2.
           ++ apply list_lookup_singleton_Some in Hy as [Hy _]. f_equal. lia.
      * rewrite lookup_insert_ne by done. rewrite Hl. split.
        -- intros Hx. by apply lookup_app_l_Some.
        -- intros [Hx|[Hx Hy]]%lookup_app_Some; [done|].
           apply list_lookup_singleton_Some in Hy as [_ Hy]. done.
    + rewrite app_length, N.mod_small; simpl; lia.
    + rewrite app_length; simpl; lia.
    + rewrite Hn, Nat2N.id. by rewrite list_lookup_middle.
    + intros j x Hj. by apply lookup_app_l_Some.
Qed.

Lemma tb_add_ok min max cs l es b e :
  tb_ok min max cs l es b -> e.1.1 ≠ e.2.1 -> (2 * N.of_nat (length cs) + 2 < 2 ^ 31)%N ->
  exists b' l' e', tb_add b e = Ok b' /\ tb_ok min max (cs ++ [e]) l' (es ++ [e']) b'.
Proof.
  intros (Hmin & Hmax & Hinv & Hids & Hnum & Hlen & Hes) Hne Hb. destruct e as [k1 k2]. simpl in Hne.
  unfold tb_add. rewrite bool_decide_true by done. simpl.
  destruct (find_or_insert_ok b l k1) as (l1 & b1 & i1 & -> & Hids1 & Hnum1 & Hm1 & Hc1 & Hl1 & Hi1 & Hk1 & Hold1);
    [done..|lia|].
  destruct (find_or_insert_ok b1 l1 k2) as (l2 & b2 & i2 & -> & Hids2 & Hnum2 & Hm2 & Hc2 & Hl2 & Hi2 & Hk2 & Hold2);
    [done..|lia|].
  rewrite !through_int_small by done.
  assert (Hinv2 : inv (cc_set (tb_cc b2)) (c_run (Z.to_N max) es)) by (by rewrite Hc2, Hc1).
  destruct (add_edge_inv _ _ i1 i2 Hinv2) as (m' & -> & Hinv'). simpl.
  eexists _, l2, (i1, i2). split; [done|]. split_and!; simpl; try done; try congruence.
  - rewrite c_run_snoc. cbn [fst snd]. rewrite Hc2, Hc1, Hmax in Hinv'. exact Hinv'.
  - rewrite app_length. simpl. lia.
  - apply Forall2_app; [|constructor; [simpl; auto|constructor]].
    eapply Forall2_impl; [exact Hes|]. intros c e [? ?]. auto.
Qed.

Lemma tb_run_ok min max cs2 : forall cs1 l es b,
  tb_ok min max cs1 l es b -> Forall (fun e => e.1.1 ≠ e.2.1) cs2 ->
  (2 * N.of_nat (length cs1 + length cs2) < 2 ^ 31)%N ->
  exists b' l' es', run_steps tb_add b cs2 = Ok b' /\ tb_ok min max (cs1 ++ cs2) l' es' b'.
Proof.
  induction cs2 as [|e cs2 IH]; intros cs1 l es b Hok Hne Hb; simpl.
  - exists b, l, es. by rewrite app_nil_r.
  - apply Forall_cons in Hne as [He Hne].
    destruct (tb_add_ok min max cs1 l es b e) as (b' & l' & e' & -> & Hok'); [done|done|cbn [length] in Hb; lia|].
    simpl. destruct (IH _ _ _ _ Hok' Hne) as (b2 & l2 & es2 & -> & Hok2).
    { rewrite app_length. cbn [length] in *. lia. }
    exists b2, l2, es2. split; [done|]. by rewrite <-app_assoc in Hok2.
Qed.

Lemma tb_new_ok min max : (0 < max < 2 ^ 31)%Z ->
  exists b, tb_new min max = Ok b /\ tb_ok min max [] [] [] b.
Proof.
  intros Hm. unfold tb_new. rewrite cc_new_pos by done. simpl. eexists. split; [done|].
  split_and!; simpl; try done; [apply inv_empty|].
  split; [constructor|]. intros k i. rewrite lookup_empty, lookup_nil. done.
Qed.

(** ** The reverse map *)

Lemma reverse_ok (l : list (N * F)) (m : gmap (N * F) N) (o : order ((N * F) * N)) :
  ids_ok l m ->
  exists rev, run_steps tb_reverse_step ∅ (o (map_to_list m)) = Ok rev /\
    forall i k, rev !! i = Some k <-> l !! N.to_nat i = Some k.
Proof.
  intros [Hnd Hl].
  assert (Hgen : forall q (rev0 : gmap N (N * F)),
    NoDup q.*2 -> (forall i, i ∈ q.*2 -> rev0 !! i = None) ->
    run_steps tb_reverse_step rev0 q = Ok (list_to_map ((fun ki => (ki.2, ki.1)) <$> q) ∪ rev0)).
  { clear. induction q as [|[k i] q IH]; intros rev0 Hnd Hfr; simpl; [by rewrite (left_id_L ∅ (∪))|].
    apply NoDup_cons in Hnd as [Hi Hnd]. unfold tb_reverse_step at 2. simpl.
    rewrite Hfr by (by left). simpl. rewrite IH; [|done|].
    - rewrite <-insert_union_r; [by rewrite <-insert_union_l|].
      apply not_elem_of_list_to_map_1. rewrite <-list_fmap_compose. exact Hi.
    - intros j Hj. rewrite lookup_insert_ne by (intros ->; done). apply Hfr. by right. }
  set (q := o (map_to_list m)).
  assert (Hq : q ≡ₚ map_to_list m) by apply ord_perm.
  assert (Hmem : forall k i, (k, i) ∈ q <-> m !! k = Some i).
  { intros k i. rewrite Hq. apply elem_of_map_to_list. }
  assert (Hndq : NoDup q.*2).
  { apply NoDup_fmap_2_strong.
    - intros [k i] [k' i'] Hx%Hmem Hy%Hmem; simpl; intros <-.
      apply Hl in Hx, Hy. congruence.
    - rewrite Hq. apply NoDup_map_to_list. }
  exists (list_to_map ((fun ki => (ki.2, ki.1)) <$> q)). split.
  { rewrite Hgen; [by rewrite (right_id_L ∅ (∪))|done|]. intros. apply lookup_empty. }
  intros i k. rewrite <-Hl, <-Hmem, <-elem_of_list_to_map.
  - rewrite elem_of_list_fmap. split.
    + intros ([k' i'] & [= -> ->] & ?). done.
    + intros ?. by exists (k, i).
  - rewrite <-list_fmap_compose. exact Hndq.
Qed.

(** ** Collecting the features of a component *)

Lemma collect_ok (nm : N -> option (N * F)) (rev : gmap N (N * F)) q :
  (forall i, i ∈ q -> rev !! i = nm i /\ is_Some (nm i)) ->
  exists tr, run_steps (tb_collect_step rev) ([], ∅) q = Ok (tr, list_to_set tr.*1) /\
    NoDup tr.*1 /\ (forall k, k ∈ tr -> exists i, i ∈ q /\ nm i = Some k) /\
    (forall i k, i ∈ q -> nm i = Some k -> k.1 ∈ tr.*1).
Proof.
  induction q as [|i q IH] using rev_ind; intros Hrev.
  - exists []. simpl. split_and!; [done|constructor|set_solver|set_solver].
  - destruct IH as (tr & Hrun & Hnd & Hsrc & Hall); [intros; apply Hrev; set_solver|].
    rewrite run_steps_app, Hrun. simpl. destruct (Hrev i ltac:(set_solver)) as [-> [ki Hki]].
    rewrite Hki. simpl.
    case_decide as Hin; simpl.
    + apply elem_of_list_to_set in Hin. exists tr. split_and!; [done|done| |].
      * intros k (j & ? & ?)%Hsrc. exists j. set_solver.
      * intros j k [Hj| ->%elem_of_list_singleton]%elem_of_app Hk; [by eapply Hall|]. by simplify_eq.
    + rewrite elem_of_list_to_set in Hin. exists (tr ++ [ki]). split_and!.
      * f_equal. f_equal. rewrite fmap_app, list_to_set_app_L. simpl. set_solver.
      * rewrite fmap_app. simpl. apply NoDup_app. split; [done|]. split; [set_solver|].
        apply NoDup_singleton.
      * intros k [(j & ? & ?)%Hsrc| ->%elem_of_list_singleton]%elem_of_app; [exists j|exists i]; set_solver.
      * rewrite fmap_app. intros j k [Hj| ->%elem_of_list_singleton]%elem_of_app Hk.
        -- apply elem_of_app. left. by eapply Hall.
        -- simplify_eq. set_solver.
Qed.

(** ** Components with two members have two views *)

(** Every block with two members contains both ends of some edge. *)
Lemma spec_adds_two cap es X : X ∈ spec_adds cap es -> (2 <= size X)%nat ->
  exists e, e ∈ es /\ e.1 ∈ X /\ e.2 ∈ X.
Proof.
  unfold spec_adds. induction es as [|e es IH] using rev_ind; [set_solver|].
  rewrite foldl_app. cbn [foldl]. set (P := foldl _ ∅ es) in *.
  assert (Hold : X ∈ P -> (2 <= size X)%nat -> exists e0, e0 ∈ es ++ [e] /\ e0.1 ∈ X /\ e0.2 ∈ X).
  { intros HX Hs. destruct (IH HX Hs) as (e0 & ? & ?). exists e0. set_solver. }
  assert (Hens : forall Q n, X ∈ ensure Q n -> (2 <= size X)%nat -> X ∈ Q).
  { intros Q n. unfold ensure. case_decide; [done|].
    intros [->%elem_of_singleton|?]%elem_of_union; [|done]. rewrite size_singleton. lia. }
  unfold spec_add. set (Q := ensure (ensure P e.1) e.2).
  case_decide as Hd; intros HX Hs.
  2:{ apply Hold; [|done]. apply Hens in HX; [|done]. by apply Hens in HX. }
  apply elem_of_union in HX as [->%elem_of_singleton|[HX _]%elem_of_difference].
  2:{ apply Hold; [|done]. apply Hens in HX; [|done]. by apply Hens in HX. }
  exists e. split; [apply elem_of_app; right; by left|].
  assert (Hblk : forall Q n, n ∈ covered Q -> n ∈ block Q n).
  { intros Q0 n (Y & HY & Hn)%elem_of_union_list. apply elem_of_union_list. exists Y. split; [|done].
    apply elem_of_list_filter. done. }
  assert (Hcov : forall Q n, n ∈ covered (ensure Q n)).
  { intros Q0 n. unfold ensure. case_decide as Hc; [done|]. apply elem_of_union_list.
    exists {[n]}. split; [|by apply elem_of_singleton]. apply elem_of_elements, elem_of_union. left. by apply elem_of_singleton. }
  assert (Hcov' : forall Q n n', n ∈ covered Q -> n ∈ covered (ensure Q n')).
  { intros Q0 n n' (Y & HY & Hn)%elem_of_union_list. unfold ensure. case_decide.
    - apply elem_of_union_list. eauto.
    - apply elem_of_union_list. exists Y. split; [|done]. apply elem_of_elements, elem_of_union. right. by apply elem_of_elements in HY. }
  split; apply elem_of_union; [left|right]; apply Hblk; [apply Hcov', Hcov|apply Hcov].
Qed.

(** ** One component after the other *)

Lemma two_views (tr : list (N * F)) (k1 k2 : N) :
  k1 ≠ k2 -> k1 ∈ tr.*1 -> k2 ∈ tr.*1 -> (2 <= length tr)%nat.
Proof.
  intros Hne H1 H2. destruct tr as [|x [|y tr]]; simpl in *; [set_solver| |lia].
  apply elem_of_list_singleton in H1, H2. congruence.
Qed.

Lemma loop_ok (on : order N) (min : Z) (l : list (N * F)) (rev : gmap N (N * F)) comps : forall r a,
  (2 <= min < 2 ^ 31)%Z ->
  rel r a -> wf a -> (a_next_track a + N.of_nat (length comps) < 2 ^ 32)%N ->
  (forall i k, rev !! i = Some k <-> l !! N.to_nat i = Some k) ->
  (forall p X i, (p, X) ∈ comps -> i ∈ X ->
     exists k, l !! N.to_nat i = Some k /\ is_Some (a_views a !! k.1)) ->
  (forall p X, (p, X) ∈ comps -> (2 <= size X)%nat ->
     exists i j k k', i ∈ X /\ j ∈ X /\ l !! N.to_nat i = Some k /\ l !! N.to_nat j = Some k' /\ k.1 ≠ k'.1) ->
  exists r' tracks ids,
    run_steps (tb_component_step d0 on min rev) r comps = Ok r' /\
    run_obs (rc_step c0 d0) r (OAddTrack <$> tracks) = Ok (r', RId <$> ids) /\
    kInvalidId ∉ ids /\
    Forall2 (one_per_view l) (filter (fun X => (Z.to_N min <= N.of_nat (size X))%N) comps.*2) tracks.
Proof.
  induction comps as [|[k X] comps IH]; intros r a Hmin R W Hb Hrev Hvw Htwo.
  { exists r, [], []. simpl. split_and!; [done|done|set_solver|constructor]. }
  cbn [run_steps]. unfold tb_component_step at 2. cbn [fst snd].
  rewrite Z.mod_small by lia. rewrite fmap_cons, filter_cons. cbn [snd].
  cbn [length] in Hb.
  assert (Hvw' : forall p X i, (p, X) ∈ comps -> i ∈ X ->
     exists k, l !! N.to_nat i = Some k /\ is_Some (a_views a !! k.1)).
  { intros k' X' i Hx Hi. eapply Hvw; [by right|done]. }
  assert (Htwo' : forall p X, (p, X) ∈ comps -> (2 <= size X)%nat ->
     exists i j k k', i ∈ X /\ j ∈ X /\ l !! N.to_nat i = Some k /\ l !! N.to_nat j = Some k' /\ k.1 ≠ k'.1).
  { intros k' X' Hx. eapply Htwo. by right. }
  destruct (decide (N.of_nat (size X) < Z.to_N min)%N) as [Hs|Hs].
  { rewrite decide_False by lia. cbn [mbind outcome_bind].
    apply (IH r a); [done|done|done|lia|done|done|done]. }
  rewrite decide_True by lia.
  destruct (collect_ok (fun i => l !! N.to_nat i) rev (on (elements X))) as (tr & -> & Hnd & Hsrc & Hall).
  { intros i Hi. rewrite (ord_perm on) in Hi. apply elem_of_elements in Hi.
    destruct (Hvw k X i (elem_of_list_here _ _) Hi) as (x & Hx & _). rewrite Hx.
    split; [by apply Hrev|done]. }
  cbn [mbind outcome_bind].
  assert (Hsrc' : forall x, x ∈ tr -> exists i, i ∈ X /\ l !! N.to_nat i = Some x).
  { intros x (i & Hi & ?)%Hsrc. rewrite (ord_perm on) in Hi. apply elem_of_elements in Hi. eauto. }
  assert (Hall' : forall i x, i ∈ X -> l !! N.to_nat i = Some x -> x.1 ∈ tr.*1).
  { intros i x Hi. apply Hall. rewrite (ord_perm on). by apply elem_of_elements. }
  assert (Hl : (2 <= length tr)%nat).
  { destruct (Htwo k X (elem_of_list_here _ _)) as (i & j & x & y & Hi & Hj & Hx & Hy & Hne); [lia|].
    exact (two_views tr _ _ Hne (Hall' _ _ Hi Hx) (Hall' _ _ Hj Hy)). }
  pose proof (add_track_refines d0 r a tr R W ltac:(lia)) as Href.
  unfold spec_add_track in Href. rewrite decide_False in Href by (intros [?|?]; [lia|done]).
  rewrite decide_True in Href.
  2:{ apply Forall_forall. intros u (x & -> & Hx)%elem_of_list_fmap.
      destruct (Hsrc' x Hx) as (i & Hi & Hxi).
      destruct (Hvw k X i (elem_of_list_here _ _) Hi) as (y & Hy & ?). by simplify_eq. }
  destruct (rc_add_track d0 r tr) as [[r1 id]| | |] eqn:Eadd; [|done..].
  destruct Href as (-> & R1 & W1). cbn [mbind outcome_bind].
  assert (Hid : a_next_track a ≠ kInvalidId) by (unfold kInvalidId; lia).
  rewrite bool_decide_true by done. cbn [mbind outcome_bind check].
  destruct (IH _ _ Hmin R1 W1) as (r' & tracks & ids & -> & Hrun & Hni & Hf); [simpl; lia|done..|].
  exists r', (tr :: tracks), (a_next_track a :: ids). split; [done|]. split_and!.
  - rewrite fmap_cons. cbn [run_obs]. unfold rc_step at 2. rewrite Eadd. cbn [mbind outcome_bind].
    rewrite Hrun. done.
  - set_solver.
  - constructor; [|done]. split_and!; done.
Qed.

(** ** BuildTracks *)

Lemma elem_of_mentioned es i : i ∈ mentioned es <-> exists e, e ∈ es /\ (i = e.1 \/ i = e.2).
Proof.
  unfold mentioned. rewrite elem_of_list_to_set, elem_of_list_bind.
  split; intros (e & H1 & H2); exists e; set_solver.
Qed.

Lemma size_list_to_set (q : list N) : (size (list_to_set q : gset N) <= length q)%nat.
Proof.
  change (length (elements (list_to_set q : gset N)) <= length q)%nat. apply submseteq_length.
  apply NoDup_submseteq; [apply NoDup_elements|]. intros x. by rewrite elem_of_elements, elem_of_list_to_set.
Qed.

Lemma size_mentioned es : (size (mentioned es) <= 2 * length es)%nat.
Proof.
  unfold mentioned. etransitivity; [apply size_list_to_set|].
  induction es as [|e es IH]; csimpl in *; lia.
Qed.

Lemma c_components_size c : c_wf c -> (size (c_components c) <= size (dom c))%nat.
Proof.
  intros Hwf. rewrite <-(size_dom (c_components c)). apply subseteq_size. intros p Hp.
  apply elem_of_dom in Hp as [X [[n Hn] ->]%lookup_c_components]. apply elem_of_dom. apply Hwf in Hn. eauto.
Qed.

Lemma tb_build_ok min max cs l es b r a ofe on oc :
  (2 <= min < 2 ^ 31)%Z -> tb_ok min max cs l es b ->
  Forall (fun e => e.1.1 ≠ e.2.1) cs ->
  rel r a -> wf a -> (a_next_track a + 2 * N.of_nat (length cs) < 2 ^ 32)%N ->
  (forall k, occurs cs k -> is_Some (a_views a !! k.1)) ->
  exists b' r' tracks ids,
    tb_build d0 ofe on oc b r = Ok (b', r') /\
    tb_ok min max cs l es b' /\
    run_obs (rc_step c0 d0) r (OAddTrack <$> tracks) = Ok (r', RId <$> ids) /\
    kInvalidId ∉ ids /\
    are_tracks (Z.to_N min) (Z.to_N max) cs tracks.
Proof.
  intros Hmin (Hm & Hcap & Hinv & Hids & Hnum & Hlen & Hes) Hne R W Hb Hvw.
  unfold tb_build. destruct (reverse_ok l (tb_features b) ofe Hids) as (rev & -> & Hrev).
  cbn [mbind outcome_bind].
  set (c := c_run (Z.to_N max) es) in *.
  assert (Hdom : dom (cc_set (tb_cc b)) = dom c) by (destruct Hinv as [d [Hd _]]; done).
  destruct (cc_extract_inv (tb_cc b) c (on (elements (dom (cc_set (tb_cc b))))) Hinv) as (m' & -> & Hinv').
  { intros n. rewrite (ord_perm on), elem_of_elements, Hdom. apply elem_of_dom. }
  cbn [mbind outcome_bind]. rewrite c_extract_components by (by rewrite (ord_perm on), Hdom).
  destruct (c_run_spec (Z.to_N max) es) as [Hwf Hpart]. fold c in Hwf, Hpart.
  set (q := oc (map_to_list (c_components c))).
  assert (Hq : q ≡ₚ map_to_list (c_components c)) by apply ord_perm.
  assert (HqX : forall p X, (p, X) ∈ q <-> (exists n, c !! n = Some p) /\ X = cls c p).
  { intros p X. rewrite Hq, elem_of_map_to_list. apply lookup_c_components. }
  assert (Hment : forall i, is_Some (c !! i) <-> exists e, e ∈ es /\ (i = e.1 \/ i = e.2)).
  { intros i. rewrite <-elem_of_dom. unfold c. rewrite dom_c_run. apply elem_of_mentioned. }
  assert (Hname : forall e, e ∈ es -> exists k, k ∈ cs /\
     l !! N.to_nat e.1 = Some k.1 /\ l !! N.to_nat e.2 = Some k.2).
  { intros e [j Hj]%elem_of_list_lookup.
    destruct (Forall2_lookup_r _ _ _ _ _ Hes Hj) as (k & Hk & ?). exists k. split; [|done].
    by eapply elem_of_list_lookup_2. }
  assert (Hlc : (length q <= 2 * length cs)%nat).
  { rewrite Hq. change (size (c_components c) <= 2 * length cs)%nat.
    rewrite (Forall2_length _ _ _ Hes). etransitivity; [by apply c_components_size|].
    unfold c. rewrite dom_c_run. apply size_mentioned. }
  destruct (loop_ok on min l rev q r a) as (r' & tracks & ids & Hrun & Hobs & Hni & Hf);
    [done|done|done|lia|done| | |].
  - intros p X i [_ ->]%HqX Hi%elem_of_cls.
    destruct (proj1 (Hment i) ltac:(eauto)) as (e & He & Hie).
    destruct (Hname e He) as (k & Hk & H1 & H2).
    destruct Hie as [-> | ->]; [exists k.1|exists k.2]; (split; [done|]); apply Hvw; exists k; auto.
  - intros p X [[n Hn] ->]%HqX Hs.
    destruct (spec_adds_two (Z.to_N max) es (cls c p)) as (e & He & H1 & H2); [|done|].
    { rewrite <-Hpart. apply elem_of_c_partition. exists p. split; [|done]. by eapply Hwf. }
    destruct (Hname e He) as (k & Hk & Hk1 & Hk2).
    exists e.1, e.2, k.1, k.2. split_and!; try done.
    by eapply (proj1 (Forall_forall _ _) Hne).
  - rewrite Hm, Hrun. cbn [mbind outcome_bind].
    eexists _, r', tracks, ids. split; [done|]. split; [|split; [done|split; [done|]]].
    { split_and!; simpl; try done; by rewrite Hcap. }
    exists l, es, (filter (fun X => (Z.to_N min <= N.of_nat (size X))%N) q.*2).
    split; [by split; [apply Hids|]|]. split; [|split; [|done]].
    + apply NoDup_filter. apply NoDup_fmap_2_strong.
      * intros [p X] [p' X'] [[n Hn] ->]%HqX [[n' Hn'] ->]%HqX; simpl; intros E.
        assert (Hp : p ∈ cls c p') by (rewrite <-E; apply elem_of_cls; by eapply Hwf).
        apply elem_of_cls in Hp. apply Hwf in Hn. f_equal; [congruence|done].
      * rewrite Hq. apply NoDup_map_to_list.
    + intros X. rewrite elem_of_list_filter, <-Hpart, elem_of_c_partition, elem_of_list_fmap.
      split.
      * intros [Hs ([p Y] & -> & [[n Hn] ->]%HqX)]. split; [|done]. exists p. split; [|done]. by eapply Hwf.
      * intros [(p & Hp & ->) Hs]. split; [done|]. exists (p, cls c p). split; [done|]. apply HqX. eauto.
Qed.

(** ** Numbers and image features *)

Lemma num_inj (l : list (N * F)) i j k :
  NoDup l -> l !! N.to_nat i = Some k -> l !! N.to_nat j = Some k -> i = j.
Proof. intros Hnd Hi Hj. apply N2Nat.inj. by eapply NoDup_lookup. Qed.

Lemma num_edge cs l es i j : numbering cs l es -> (i, j) ∈ es ->
  exists k k', l !! N.to_nat i = Some k /\ l !! N.to_nat j = Some k' /\ (k, k') ∈ cs.
Proof.
  intros [_ Hf] [x Hx]%elem_of_list_lookup.
  destruct (Forall2_lookup_r _ _ _ _ _ Hf Hx) as ([k k'] & Hk & H1 & H2).
  exists k, k'. split_and!; [done|done|]. by eapply elem_of_list_lookup_2.
Qed.

Lemma edge_num cs l es k k' : numbering cs l es -> (k, k') ∈ cs ->
  exists i j, l !! N.to_nat i = Some k /\ l !! N.to_nat j = Some k' /\ (i, j) ∈ es.
Proof.
  intros [_ Hf] [x Hx]%elem_of_list_lookup.
  destruct (Forall2_lookup_l _ _ _ _ _ Hf Hx) as ([i j] & Hk & H1 & H2).
  exists i, j. split_and!; [done|done|]. by eapply elem_of_list_lookup_2.
Qed.

Lemma reach_chained cs l es i j k : numbering cs l es -> reachable es i j ->
  l !! N.to_nat i = Some k -> exists k', l !! N.to_nat j = Some k' /\ chained cs k k'.
Proof.
  intros Hn Hr. revert k. induction Hr as [i|i i' j Hl Hr IH]; intros k Hk.
  { exists k. split; [done|]. apply rtc_refl. }
  assert (exists k1, l !! N.to_nat i' = Some k1 /\ ((k, k1) ∈ cs \/ (k1, k) ∈ cs)) as (k1 & Hk1 & Hc).
  { destruct Hl as [Hl|Hl]; destruct (num_edge _ _ _ _ _ Hn Hl) as (x & y & Hx & Hy & Hxy);
      [exists y|exists x]; simplify_eq; auto. }
  destruct (IH k1 Hk1) as (k' & Hk' & Hch). exists k'. split; [done|]. by eapply rtc_l.
Qed.

Lemma chained_reach cs l es i k k' : numbering cs l es -> chained cs k k' ->
  l !! N.to_nat i = Some k -> exists j, l !! N.to_nat j = Some k' /\ reachable es i j.
Proof.
  intros Hn Hr. revert i. induction Hr as [k|k k1 k' Hl Hr IH]; intros i Hi.
  { exists i. split; [done|]. apply rtc_refl. }
  assert (exists i1, l !! N.to_nat i1 = Some k1 /\ linked es i i1) as (i1 & Hi1 & Hc).
  { destruct Hl as [Hl|Hl]; destruct (edge_num _ _ _ _ _ Hn Hl) as (x & y & Hx & Hy & Hxy);
      [exists y|exists x]; (split; [done|]); [left|right].
    - by rewrite (num_inj l i x k (proj1 Hn) Hi Hx).
    - by rewrite (num_inj l i y k (proj1 Hn) Hi Hy). }
  destruct (IH i1 Hi1) as (j & Hj & Hre). exists j. split; [done|]. by eapply rtc_l.
Qed.

Lemma mentioned_occurs cs l es i k : numbering cs l es -> l !! N.to_nat i = Some k ->
  (i ∈ mentioned es <-> occurs cs k).
Proof.
  intros Hn Hi. rewrite elem_of_mentioned. split.
  - intros ([x y] & He & Hx). destruct (num_edge _ _ _ _ _ Hn He) as (k1 & k2 & H1 & H2 & Hk).
    exists (k1, k2). split; [done|]. destruct Hx as [-> | ->]; simpl in *; simplify_eq; auto.
  - intros ([k1 k2] & He & Hx). destruct (edge_num _ _ _ _ _ Hn He) as (x & y & H1 & H2 & Hk).
    exists (x, y). split; [done|]. simpl in *. destruct Hx as [-> | ->]; [left|right]; (eapply num_inj; [apply Hn|done|done]).
Qed.

Lemma mentioned_num cs l es i : numbering cs l es -> i ∈ mentioned es -> exists k, l !! N.to_nat i = Some k.
Proof.
  intros Hn ([x y] & He & Hx)%elem_of_mentioned.
  destruct (num_edge _ _ _ _ _ Hn He) as (k1 & k2 & H1 & H2 & Hk).
  destruct Hx as [-> | ->]; eauto.
Qed.

(** ** What the tracks of a list of correspondences look like *)

Lemma block_sub cap es X i : X ∈ spec_adds cap es -> i ∈ X -> i ∈ mentioned es.
Proof.
  intros HX Hi. destruct (spec_adds_partition cap es) as [_ <-].
  apply elem_of_union_list. exists X. by rewrite elem_of_elements.
Qed.

Lemma tracks_shape mn max cs tracks :
  (2 <= mn)%N -> (0 < max)%N -> Forall (fun e => e.1.1 ≠ e.2.1) cs -> are_tracks mn max cs tracks ->
  (forall tr, tr ∈ tracks ->
     NoDup tr.*1 /\ (2 <= length tr)%nat /\ (N.of_nat (length tr) <= max)%N /\
     (forall k, k ∈ tr -> occurs cs k) /\ (forall k k', k ∈ tr -> k' ∈ tr -> chained cs k k')) /\
  (forall i j tr tr' k, tracks !! i = Some tr -> tracks !! j = Some tr' -> k ∈ tr -> k ∈ tr' -> i = j).
Proof.
  intros Hmn Hmax Hne (l & es & Xs & Hn & Hnd & HXs & Hf). split.
  - intros tr [j Hj]%elem_of_list_lookup.
    destruct (Forall2_lookup_r _ _ _ _ _ Hf Hj) as (X & HX & Hndt & Hsrc & Hall).
    apply elem_of_list_lookup_2 in HX. apply HXs in HX as [HX Hs].
    split_and!; [done| | | |].
    + destruct (spec_adds_two _ _ _ HX) as ([x y] & He & H1 & H2); [lia|]. simpl in *.
      destruct (num_edge _ _ _ _ _ Hn He) as (k & k' & Hk & Hk' & Hc).
      eapply (two_views tr k.1 k'.1); [|exact (Hall _ _ H1 Hk)|exact (Hall _ _ H2 Hk')].
      by apply (proj1 (Forall_forall _ _) Hne _ Hc).
    + assert (Hlen : (length tr <= size X)%nat).
      { assert (Hsub : forall q, NoDup q.*1 -> (forall k, k ∈ q -> exists i, i ∈ X /\ l !! N.to_nat i = Some k) ->
          exists is, NoDup is /\ length is = length q /\
            forall i, i ∈ is -> i ∈ X /\ exists k, k ∈ q /\ l !! N.to_nat i = Some k).
        { induction q as [|k q IH]; intros Hq1 Hq2.
          - exists []. split_and!; [constructor|done|set_solver].
          - apply NoDup_cons in Hq1 as [Hk Hq1]. destruct IH as (is & Hi1 & Hi2 & Hi3); [done|set_solver|].
            destruct (Hq2 k (elem_of_list_here _ _)) as (i & Hi & Hik).
            exists (i :: is). split_and!.
            + apply NoDup_cons. split; [|done]. intros Hin. destruct (Hi3 _ Hin) as (_ & k' & Hk' & E).
              simplify_eq. apply Hk. by apply elem_of_list_fmap_1.
            + simpl. lia.
            + intros i' [->|Hi']%elem_of_cons.
              * split; [done|]. exists k. split; [by left|done].
              * destruct (Hi3 _ Hi') as (? & k' & ? & ?). split; [done|]. exists k'. split; [by right|done]. }
        destruct (Hsub tr Hndt Hsrc) as (is & Hi1 & <- & Hi3).
        change (size X) with (length (elements X)). apply submseteq_length, NoDup_submseteq; [done|].
        intros i Hi. apply elem_of_elements. by destruct (Hi3 i Hi). }
      pose proof (spec_adds_size max es X Hmax HX). lia.
    + intros k (i & Hi & Hk)%Hsrc. apply (mentioned_occurs _ _ _ _ _ Hn Hk). by eapply block_sub.
    + intros k k' (i & Hi & Hk)%Hsrc (i' & Hi' & Hk')%Hsrc.
      pose proof (spec_adds_connected _ _ _ _ _ HX Hi Hi') as Hre.
      destruct (reach_chained _ _ _ _ _ _ Hn Hre Hk) as (k2 & Hk2 & ?). by simplify_eq.
  - intros i j tr tr' k Hi Hj Hk Hk'.
    destruct (Forall2_lookup_r _ _ _ _ _ Hf Hi) as (X & HX & _ & Hsrc & _).
    destruct (Forall2_lookup_r _ _ _ _ _ Hf Hj) as (X' & HX' & _ & Hsrc' & _).
    destruct (Hsrc k Hk) as (x & Hx & Hxk). destruct (Hsrc' k Hk') as (x' & Hx' & Hxk').
    assert (x = x') as -> by (eapply num_inj; [apply Hn|done|done]).
    eapply NoDup_lookup; [exact Hnd|exact HX|]. rewrite HX'. f_equal.
    apply elem_of_list_lookup_2, HXs in HX as [HX _]. apply elem_of_list_lookup_2, HXs in HX' as [HX' _].
    destruct (spec_adds_partition max es) as [[_ Hp] _]. by eapply Hp.
Qed.

(** Nothing is left out: when no component can exceed the maximum, every image feature with at least
    [mn] features in its chain of correspondences has its view represented in a track of that chain. *)
Lemma tracks_complete mn max cs tracks :
  are_tracks mn max cs tracks -> (2 * N.of_nat (length cs) <= max)%N ->
  forall k (S : gset (N * F)), occurs cs k -> (mn <= N.of_nat (size S))%N ->
    (forall k', k' ∈ S -> chained cs k k') ->
    exists tr, tr ∈ tracks /\ k.1 ∈ tr.*1 /\ forall k', k' ∈ tr -> chained cs k k'.
Proof.
  intros (l & es & Xs & Hn & Hnd & HXs & Hf) Hmax k S Hk HS Hch.
  destruct Hn as [Hndl Hes]. assert (Hn : numbering cs l es) by done.
  assert (Hsm : (N.of_nat (size (mentioned es)) <= max)%N).
  { pose proof (size_mentioned es). rewrite (Forall2_length _ _ _ Hes) in Hmax. lia. }
  assert (exists i, l !! N.to_nat i = Some k) as [i Hi].
  { destruct Hk as ([k1 k2] & He & Hx). destruct (edge_num _ _ _ _ _ Hn He) as (x & y & H1 & H2 & _).
    simpl in Hx. destruct Hx as [-> | ->]; eauto. }
  apply (mentioned_occurs _ _ _ _ _ Hn Hi) in Hk as Hm.
  destruct (spec_adds_partition max es) as [_ Hcov]. rewrite <-Hcov in Hm.
  apply elem_of_union_list in Hm as (X & HX & HiX). apply elem_of_elements in HX.
  assert (HXr : forall x, x ∈ X <-> reachable es i x).
  { intros x. split; [intros; by eapply spec_adds_connected|]. intros Hr.
    apply (spec_adds_reach_classes max es X Hsm) in HX as (a & Ha & HXa). apply HXa.
    apply HXa in HiX. by transitivity i. }
  assert (Hsz : (size S <= size X)%nat).
  { assert (Hex : forall k', k' ∈ elements S -> exists j, j ∈ X /\ l !! N.to_nat j = Some k').
    { intros k' Hk'%elem_of_elements%Hch.
      destruct (chained_reach _ _ _ _ _ _ Hn Hk' Hi) as (j & Hj & Hr). exists j. by rewrite HXr. }
    change (length (elements S) <= length (elements X))%nat.
    assert (Hsub : forall q, NoDup q -> (forall k, k ∈ q -> exists i, i ∈ X /\ l !! N.to_nat i = Some k) ->
          exists is, NoDup is /\ length is = length q /\
            forall i, i ∈ is -> i ∈ X /\ exists k, k ∈ q /\ l !! N.to_nat i = Some k).
    { clear. induction q as [|k q IH]; intros Hq1 Hq2.
      - exists []. split_and!; [constructor|done|set_solver].
      - apply NoDup_cons in Hq1 as [Hk Hq1]. destruct IH as (is & Hi1 & Hi2 & Hi3); [done|set_solver|].
        destruct (Hq2 k (elem_of_list_here _ _)) as (i & Hi & Hik).
        exists (i :: is). split_and!.
        + apply NoDup_cons. split; [|done]. intros Hin. destruct (Hi3 _ Hin) as (_ & k' & Hk' & E).
          by simplify_eq.
        + simpl. lia.
        + intros i' [->|Hi']%elem_of_cons.
          * split; [done|]. exists k. split; [by left|done].
          * destruct (Hi3 _ Hi') as (? & k' & ? & ?). split; [done|]. exists k'. split; [by right|done]. }
    destruct (Hsub (elements S) (NoDup_elements _) Hex) as (is & Hi1 & <- & Hi3).
    apply submseteq_length, NoDup_submseteq; [done|].
    intros x Hx. apply elem_of_elements. by destruct (Hi3 x Hx). }
  assert (HXin : X ∈ Xs) by (apply HXs; split; [done|lia]).
  apply elem_of_list_lookup in HXin as [n Hn'].
  destruct (Forall2_lookup_l _ _ _ _ _ Hf Hn') as (tr & Htr & _ & Hsrc & Hall).
  exists tr. split_and!.
  - by eapply elem_of_list_lookup_2.
  - exact (Hall _ _ HiX Hi).
  - intros k' (j & Hj & Hk')%Hsrc. apply HXr in Hj.
    destruct (reach_chained _ _ _ _ _ _ Hn Hj Hi) as (k2 & Hk2 & ?). by simplify_eq.
Qed.

(** When no view has two features in one chain, no feature is dropped. *)
Lemma tracks_min_length mn max cs tracks :
  are_tracks mn max cs tracks ->
  (forall k k', occurs cs k -> chained cs k k' -> k.1 = k'.1 -> k = k') ->
  forall tr, tr ∈ tracks -> (mn <= N.of_nat (length tr))%N.
Proof.
  intros (l & es & Xs & Hn & Hnd & HXs & Hf) Hcons tr [j Hj]%elem_of_list_lookup.
  destruct (Forall2_lookup_r _ _ _ _ _ Hf Hj) as (X & HX & Hndt & Hsrc & Hall).
  apply elem_of_list_lookup_2 in HX. apply HXs in HX as [HX Hs].
  assert (Hin : forall i k, i ∈ X -> l !! N.to_nat i = Some k -> k ∈ tr).
  { intros i k Hi Hk. pose proof (Hall i k Hi Hk) as (k' & E & Hk')%elem_of_list_fmap.
    destruct (Hsrc k' Hk') as (i' & Hi' & Hki').
    pose proof (spec_adds_connected _ _ _ _ _ HX Hi Hi') as Hre.
    destruct (reach_chained _ _ _ _ _ _ Hn Hre Hk) as (k2 & Hk2 & Hch).
    assert (k2 = k') as -> by congruence. rewrite (Hcons k k'); [done| |done|done].
    apply (mentioned_occurs _ _ _ _ _ Hn Hk). by eapply block_sub. }
  assert (Hlen : (size X <= length tr)%nat).
  { change (length (elements X) <= length tr)%nat.
    assert (Hmap : forall q, NoDup q -> (forall i, i ∈ q -> i ∈ X) ->
      exists ks, NoDup ks /\ length ks = length q /\
        forall k, k ∈ ks -> k ∈ tr /\ exists i, i ∈ q /\ l !! N.to_nat i = Some k).
    { induction q as [|i q IH]; intros Hq1 Hq2.
      - exists []. split_and!; [constructor|done|set_solver].
      - apply NoDup_cons in Hq1 as [Hi Hq1]. destruct IH as (ks & Hi1 & Hi2 & Hi3); [done|set_solver|].
        assert (HiX : i ∈ X) by (apply Hq2; by left).
        destruct (mentioned_num _ _ _ i Hn) as (k & Hk); [by eapply block_sub|].
        exists (k :: ks). split_and!.
        + apply NoDup_cons. split; [|done]. intros Hin'. destruct (Hi3 _ Hin') as (_ & i' & Hi' & E).
          assert (i = i') as <- by (eapply num_inj; [apply Hn|done|done]). done.
        + simpl. lia.
        + intros k' [->|Hk']%elem_of_cons.
          * split; [exact (Hin _ _ HiX Hk)|]. exists i. split; [by left|done].
          * destruct (Hi3 _ Hk') as (? & i' & ? & ?). split; [done|]. exists i'. split; [by right|done]. }
    destruct (Hmap (elements X) (NoDup_elements _)) as (ks & Hi1 & <- & Hi3).
    { intros i. apply elem_of_elements. }
    apply submseteq_length, NoDup_submseteq; [done|].
    intros k Hk. by destruct (Hi3 k Hk). }
  lia.
Qed.

(** ** The whole builder *)

Lemma track_builder_lemma cs min max ops r rs ofe on oc :
  (2 <= min < 2 ^ 31)%Z -> (0 < max < 2 ^ 31)%Z ->
  Forall (fun e => e.1.1 ≠ e.2.1) cs -> (2 * N.of_nat (length cs) < 2 ^ 31)%N ->
  (N.of_nat (length ops) + 2 * N.of_nat (length cs) < 2 ^ 32)%N ->
  run_obs (rc_step c0 d0) rc_empty ops = Ok (r, rs) ->
  (forall k, occurs cs k -> is_Some (rc_views r !! k.1)) ->
  exists b0 b b' r' tracks ids,
    tb_new min max = Ok b0 /\ run_steps tb_add b0 cs = Ok b /\
    tb_build d0 ofe on oc b r = Ok (b', r') /\
    run_obs (rc_step c0 d0) r (OAddTrack <$> tracks) = Ok (r', RId <$> ids) /\ kInvalidId ∉ ids /\
    are_tracks (Z.to_N min) (Z.to_N max) cs tracks.
Proof.
  intros Hmin Hmax Hne Hlc Hb Hrun Hvw.
  destruct (reach_rel c0 d0 ops r rs) as (a & _ & R & W & _ & Hnt); [unfold few; lia|done|].
  destruct (tb_new_ok min max Hmax) as (b0 & Hb0 & Hok0).
  destruct (tb_run_ok min max cs [] [] [] b0 Hok0 Hne) as (b & l & es & Hrb & Hok); [cbn [length]; lia|].
  destruct (tb_build_ok min max cs l es b r a ofe on oc) as (b' & r' & tracks & ids & ? & ? & ? & ? & ?);
    [done|done|done|done|done|lia| |].
  - intros k Hk. destruct (Hvw k Hk) as [v Hv]. destruct (rel_view_Some r a _ v R Hv) as (? & ? & _). eauto.
  - exists b0, b, b', r', tracks, ids. done.
Qed.

End proofs.
