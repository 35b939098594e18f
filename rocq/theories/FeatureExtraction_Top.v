(** Feature extraction followed by matching; races; sorts for the examples. *)
From stdpp Require Import gmap strings sorting.
From Coq Require Import Reals QArith_base Qcanon.
From Verif Require Import Base Priors_Model FeatureDb_Model FeatureMatcher_Model FeatureMatcher_Proofs FeatureExtraction_Model FeatureExtraction_Spec
  FeatureExtraction_Tasks FeatureExtraction_Run FeatureExtraction_Select.

(** * Sorts that meet the contracts *)
Definition scored_le (x y : scored) : Prop := ~ scored_lt y x.
Global Instance scored_le_dec x y : Decision (scored_le x y).
Proof. unfold scored_le. apply _. Defined.
Global Instance scored_le_total : Total scored_le.
Proof.
  intros x y. unfold scored_le. destruct (scored_total x y) as [H|[->|H]].
  - left. intros H'. unfold scored_lt in *. destruct H as [H|[E H]], H' as [H'|[E' H']].
    + exact (Qclt_not_le _ _ H (Qclt_le_weak _ _ H')).
    + rewrite E' in H. exact (Qclt_not_eq _ _ H eq_refl).
    + rewrite E in H'. exact (Qclt_not_eq _ _ H' eq_refl).
    + lia.
  - left. apply scored_irrefl.
  - right. intros H'. unfold scored_lt in *. destruct H as [H|[E H]], H' as [H'|[E' H']].
    + exact (Qclt_not_le _ _ H (Qclt_le_weak _ _ H')).
    + rewrite E' in H. exact (Qclt_not_eq _ _ H eq_refl).
    + rewrite E in H'. exact (Qclt_not_eq _ _ H' eq_refl).
    + lia.
Qed.
Global Instance scored_le_trans : Transitive scored_le.
Proof.
  assert (HT : forall x y z, scored_lt x y -> scored_lt y z -> scored_lt x z).
  { unfold scored_lt. intros x y z [H|[E H]] [H'|[E' H']].
    - left. exact (Qclt_trans _ _ _ H H').
    - left. rewrite <- E'. exact H.
    - left. rewrite E. exact H'.
    - right. split; [congruence|lia]. }
  unfold scored_le. intros x y z H1 H2 H3.
  destruct (scored_total x y) as [H|[->|H]]; [|exact (H2 H3)|exact (H1 H)].
  exact (H2 (HT z x y H3 H)).
Qed.

Lemma sorted_lookup {A} (R : A -> A -> Prop) (l : list A) i j x y : StronglySorted R l -> (i < j)%nat -> l !! i = Some x -> l !! j = Some y -> R x y.
Proof.
  intros Hs. revert i j. induction Hs as [|z l Hs IH Hall]; intros i j Hij Hi Hj; [discriminate|].
  destruct j as [|j]; [lia|]. destruct i as [|i]; cbn in *.
  - injection Hi as ->. rewrite Forall_forall in Hall. apply Hall. eapply elem_of_list_lookup_2. exact Hj.
  - apply (IH i j); [lia|exact Hi|exact Hj].
Qed.

Definition sample_ps : partial_sort.
Proof.
  refine (PartialSort (fun k l => merge_sort scored_le l) _ _).
  - intros k l. apply merge_sort_Permutation.
  - intros k l i j x y Hij _ Hi Hj. exact (sorted_lookup scored_le _ i j x y (StronglySorted_merge_sort scored_le l) Hij Hi Hj).
Defined.
Definition pair_le (x y : string * string) : Prop := (encode x <= encode y)%positive.
Global Instance pair_le_dec x y : Decision (pair_le x y).
Proof. unfold pair_le. apply _. Defined.
Global Instance pair_le_total : Total pair_le.
Proof. intros x y. unfold pair_le. lia. Qed.
Global Instance pair_le_trans : Transitive pair_le.
Proof. intros x y z. unfold pair_le. lia. Qed.
Definition sample_ns : name_sort.
Proof.
  refine (NameSort pair_le (merge_sort pair_le) _ _ _).
  - intros x y H1 H2. apply (encode_inj x y). unfold pair_le in *. lia.
  - intros l. apply merge_sort_Permutation.
  - intros l i j x y Hij Hi Hj. exact (sorted_lookup pair_le _ i j x y (StronglySorted_merge_sort pair_le l) Hij Hi Hj).
Defined.

(** * Matching after extraction *)
Lemma nearest_exists (ps : partial_sort) score n k i : (2 <= n)%nat -> (1 <= k)%nat -> (i < n)%nat -> exists j, neighbor n score k i j.
Proof.
  intros Hn Hk Hi.
  destruct (take k (ps k (all_scores score n i))) as [|x l] eqn:E.
  - apply (f_equal length) in E. rewrite take_length in E.
    assert (length (ps k (all_scores score n i)) = length (all_scores score n i)) as El by (apply Permutation_length, ps_perm).
    unfold all_scores in El at 2. rewrite fmap_length, others_length in El by exact Hi. cbn in E. lia.
  - exists x.2. apply (nearest ps score n i k x Hi). rewrite E. left.
Qed.

Lemma pairs_bound (images : list string) (pairs : list (string * string)) : NoDup pairs -> (forall p, p ∈ pairs -> p.1 ∈ images /\ p.2 ∈ images) ->
  (length pairs <= length images * length images)%nat.
Proof.
  intros Hnd Hin. rewrite <- prod_length. apply submseteq_length, NoDup_submseteq; [exact Hnd|].
  intros [a b] Hp. destruct (Hin _ Hp). apply elem_of_list_In, in_prod; apply elem_of_list_In; assumption.
Qed.

Section top.
Context {K De M : Type} (ou : outside K De) (opts : fe_options) (masks : gmap string string).
Context (ps : partial_sort) (ns : name_sort) (om : order (nat * (gset nat * gset nat))) (oi : order nat) (on : order string).
Context (train : list De -> bool) (distance : list De -> list De -> Qc).
Notation features := (list K * list De)%type.
Notation database := (db prior features M).

Lemma extract_and_match_ok paths asked sched sched' (result : database -> string * string -> option M) (d : database) s :
  extract_all ou opts masks paths sched d [] = Ok s ->
  fo_global opts = true -> train (sh_training s) = true -> (1 <= fo_threads opts)%Z -> (1 <= fo_neighbors opts)%Z ->
  (2 <= size (db_features (sh_db s)))%nat -> (Z.of_nat (size (db_features (sh_db s)) * size (db_features (sh_db s))) + 20 < 2 ^ 31)%Z ->
  (forall l, sched' l ≡ₚ l) ->
  exists d' imgs pairs,
    extract_and_match ou opts masks ps ns om oi on train distance paths asked sched sched' result d = Ok d' /\
    db_priors d' = db_priors (sh_db s) /\ db_features d' = db_features (sh_db s) /\
    NoDup imgs /\ (forall x, x ∈ imgs <-> is_Some (db_features d' !! x)) /\
    NoDup pairs /\
    (forall x y, (x, y) ∈ pairs <-> exists a b, (a < b)%nat /\ imgs !! a = Some x /\ imgs !! b = Some y /\
       selected (length imgs) (fun i j => distance (descriptors_at d' imgs i) (descriptors_at d' imgs j)) (Z.to_nat (fo_neighbors opts)) a b) /\
    (forall x, x ∈ imgs -> exists y, (x, y) ∈ pairs \/ (y, x) ∈ pairs) /\
    (forall p, p ∈ pairs -> db_matches d' !! p = match result (sh_db s) p with Some r => Some r | None => db_matches (sh_db s) !! p end) /\
    (forall p, p ∉ pairs -> db_matches d' !! p = db_matches (sh_db s) !! p).
Proof.
  intros Hx Hg Ht Hth Hnb H2 Hbound Hs'. unfold extract_and_match. rewrite Hx. cbn [mbind outcome_bind].
  unfold select_images. rewrite Hg, Ht. cbn [negb check mbind outcome_bind].
  set (imgs := on (elements (dom (db_features (sh_db s))))).
  assert (Hp : imgs ≡ₚ elements (dom (db_features (sh_db s)))) by apply ord_perm.
  assert (Hnd : NoDup imgs) by (rewrite Hp; apply NoDup_elements).
  assert (Hin : forall x, x ∈ imgs <-> is_Some (db_features (sh_db s) !! x)) by (intros x; rewrite Hp, elem_of_elements, elem_of_dom; reflexivity).
  assert (Hlen : length imgs = size (db_features (sh_db s))) by (rewrite Hp; change (length (elements (dom (db_features (sh_db s))))) with (size (dom (db_features (sh_db s)))); apply size_dom).
  clearbody imgs. rewrite <- Hlen in H2, Hbound.
  set (score := fun i j => distance (descriptors_at (sh_db s) imgs i) (descriptors_at (sh_db s) imgs j)).
  destruct (select_pairs_ok ps ns om oi score imgs (fo_neighbors opts) Hnd ltac:(lia) ltac:(nia)) as (pairs & E & Hpn & Hpe).
  rewrite E. cbn [mbind outcome_bind set_pairs fm_names fm_pairs].
  assert (Hsome : forall x, x ∈ imgs -> exists y, (x, y) ∈ pairs \/ (y, x) ∈ pairs).
  { intros x Hxi. apply elem_of_list_lookup_1 in Hxi as [i Hi].
    destruct (nearest_exists ps score (length imgs) (Z.to_nat (fo_neighbors opts)) i H2 ltac:(lia) ltac:(eapply lookup_lt_Some; exact Hi)) as [j Hj].
    assert (Hjl : (j < length imgs)%nat /\ i <> j) by (unfold neighbor in Hj; clear -Hj; tauto).
    destruct (lookup_lt_is_Some_2 imgs j (proj1 Hjl)) as [y Hy]. exists y.
    destruct (decide (i < j)%nat) as [Hij|Hij].
    - left. apply Hpe. exists i, j. split; [exact Hij|]. split; [exact Hi|]. split; [exact Hy|]. left. exact Hj.
    - right. apply Hpe. exists j, i. split; [lia|]. split; [exact Hy|]. split; [exact Hi|]. right. left. exact Hj. }
  assert (Hpin : forall p, p ∈ pairs -> p.1 ∈ imgs /\ p.2 ∈ imgs).
  { intros [x y] Hxy. apply Hpe in Hxy as (a & b & _ & Ha & Hb & _). split; eapply elem_of_list_lookup_2; [exact Ha|exact Hb]. }
  assert (H1p : (1 <= length pairs)%nat).
  { destruct imgs as [|x imgs0] eqn:Ei; [cbn in H2; lia|]. destruct (Hsome x ltac:(left)) as (y & [H|H]); destruct pairs; cbn; try lia; inversion H. }
  pose proof (pairs_bound imgs pairs Hpn Hpin) as Hpl.
  set (res := fun i => (match pairs with [] => all_pairs (sh_names s) | p :: l => p :: l end) !! i ≫= result (sh_db s)).
  assert (Hres : forall i p, pairs !! i = Some p -> res i = result (sh_db s) p).
  { intros i p Hi. unfold res. destruct pairs as [|q l]; [discriminate|]. rewrite Hi. reflexivity. }
  destruct (match_images_pairs (fo_threads opts) sched' (dom (db_features (sh_db s))) res (sh_names s) pairs (db_matches (sh_db s)) Hth H1p ltac:(nia) Hs' Hpn)
    as (db' & Em & Hm1 & Hm2).
  { intros p Hpp. destruct (Hpin p Hpp) as [A B]. rewrite !elem_of_dom. split; apply Hin; assumption. }
  unfold res in Em.
  match goal with |- context [match_images ?a ?b ?c ?r ?m ?e] => change (match_images a b c r m e) with (match_images (fo_threads opts) sched' (dom (db_features (sh_db s))) res (Matcher (sh_names s) pairs) (db_matches (sh_db s))) end.
  unfold res. rewrite Em. cbn [mbind outcome_bind].
  eexists _, imgs, pairs. split; [reflexivity|]. cbn [db_priors db_features db_matches].
  split; [reflexivity|]. split; [reflexivity|]. split; [exact Hnd|]. split; [exact Hin|]. split; [exact Hpn|].
  split; [exact Hpe|]. split; [exact Hsome|]. split; [|exact Hm2].
  intros p Hpp. apply elem_of_list_lookup_1 in Hpp as [i Hi]. rewrite (Hm1 i p Hi), (Hres i p Hi). reflexivity.
Qed.

(** * Races *)
Lemma accesses_active path ph a : a ∈ accesses ou opts path ph -> is_active ph = true.
Proof. destruct ph; cbn; try reflexivity; intros H; inversion H. Qed.
Lemma two_active (s : state K De M) i j x y : i <> j -> st_tasks s !! i = Some x -> st_tasks s !! j = Some y ->
  is_active x.2 = true -> is_active y.2 = true -> (2 <= active s)%nat.
Proof.
  unfold active. generalize (st_tasks s). intros l.
  assert (H1 : forall (l : list (string * phase K De)) j y, l !! j = Some y -> is_active y.2 = true -> (1 <= length (filter (fun t : string * phase K De => is_active t.2 = true) l))%nat).
  { clear. intros l j y Hj Hy. assert (y ∈ filter (fun t : string * phase K De => is_active t.2 = true) l) as H by (apply elem_of_list_filter; split; [exact Hy|eapply elem_of_list_lookup_2; exact Hj]).
    destruct (filter _ l); [inversion H|cbn; lia]. }
  revert i j. induction l as [|z l IH]; intros i j Hij Hi Hj Hx Hy; [discriminate|].
  rewrite filter_cons. destruct i as [|i], j as [|j]; [lia| | |].
  - injection Hi as ->. rewrite decide_True by exact Hx. cbn [length]. pose proof (H1 l j y Hj Hy). lia.
  - injection Hj as ->. rewrite decide_True by exact Hy. cbn [length]. pose proof (H1 l i x Hi Hx). lia.
  - pose proof (IH i j ltac:(lia) Hi Hj Hx Hy). destruct (decide (is_active z.2 = true)); cbn [length]; lia.
Qed.
Lemma first_active paths (d : database) : active (first_state ou paths d []) = 0%nat.
Proof.
  unfold active, first_state. cbn [st_tasks]. induction (filter _ paths) as [|p l IH]; [reflexivity|].
  rewrite fmap_cons, filter_cons_False by discriminate. exact IH.
Qed.
Lemma one_thread_no_race paths (d : database) sched s :
  run_steps (step ou opts masks 1) (first_state ou paths d []) sched = Ok s -> ~ race ou opts s.
Proof.
  intros Hr (i & j & p & q & ph & ph' & a & b & Hij & Hi & Hj & Ha & Hb & _).
  assert (H : (active s <= 1)%nat).
  { eapply (run_steps_inv (step ou opts masks 1) (fun s => (active s <= 1)%nat)); [|rewrite first_active; lia|exact Hr].
    intros s0 o s1 H0 _ E. eapply step_active; [exact H0|exact E]. }
  pose proof (two_active s i j _ _ Hij Hi Hj (accesses_active _ _ _ Ha) (accesses_active _ _ _ Hb)). lia.
Qed.
Lemma two_threads_race threads p q rest paths (d : database) n :
  images ou paths = p :: q :: rest -> (2 <= threads)%nat -> ou_name ou p = Some n -> is_Some (ou_name ou q) ->
  is_Some (image_prior ou opts p (db_priors d !! n)) ->
  exists sched s, run_steps (step ou opts masks threads) (first_state ou paths d []) sched = Ok s /\ race ou opts s.
Proof.
  intros Him Hth Hp [nq Hq] [e He].
  assert (Hw : forall l : list string, filter (fun t : string * phase K De => is_active t.2 = true) ((fun x => (x, Waiting)) <$> l) = []).
  { clear. induction l as [|x l IH]; [reflexivity|]. rewrite fmap_cons, filter_cons_False by discriminate. exact IH. } exists [0; 0; 1]%nat. unfold first_state. fold (images ou paths). rewrite Him.
  cbn [run_steps]. unfold step at 3. cbn [st_tasks fmap list_fmap lookup list_lookup].
  assert (Ha : forall l sh, active (State ((p, Waiting) :: (q, Waiting) :: ((fun x => (x, Waiting)) <$> l)) sh : state K De M) = 0%nat).
  { intros l sh. unfold active. cbn [st_tasks]. rewrite !filter_cons_False by discriminate. induction l as [|x l IH]; [reflexivity|]. rewrite fmap_cons, filter_cons_False by discriminate. exact IH. }
  unfold fmap in Ha. rewrite Ha. replace (threads <=? 0)%nat with false by (symmetry; apply Nat.leb_gt; lia). cbn [is_waiting andb].
  unfold task_step at 1. rewrite Hp. cbn [or_die mbind outcome_bind st_shared].
  unfold step at 2. cbn [st_tasks insert list_insert lookup list_lookup is_waiting andb].
  unfold task_step at 1. rewrite Hp. cbn [or_die mbind outcome_bind st_shared sh_db].
  unfold step at 1. cbn [st_tasks insert list_insert lookup list_lookup is_waiting andb].
  match goal with |- context [(threads <=? active ?S)%nat] => set (S0 := S) end.
  assert (Ha1 : active S0 = 1%nat).
  { unfold active, S0. cbn [st_tasks]. rewrite filter_cons_True by reflexivity. rewrite filter_cons_False by discriminate. cbn [length]. f_equal.
    exact (f_equal length (Hw rest)). }
  rewrite Ha1. replace (threads <=? 1)%nat with false by (symmetry; apply Nat.leb_gt; lia).
  unfold task_step at 1. rewrite Hq. cbn [or_die mbind outcome_bind st_shared].
  eexists. split; [reflexivity|].
  exists 0%nat, 1%nat, p, q. eexists _, _, (Access Priors true false), (Access Priors false false).
  split; [lia|]. split; [reflexivity|]. split; [reflexivity|]. split; [|split; [left|]].
  - cbn [accesses]. destruct (complete_prior_some ou opts _ _ _ He) as [-> ->]. rewrite andb_false_r. left.
  - split; [reflexivity|]. split; [left; reflexivity|]. intros [H _]. discriminate.
Qed.
End top.
