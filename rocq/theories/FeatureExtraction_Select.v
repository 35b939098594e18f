(** The selection of image pairs by their global descriptors. *)
From stdpp Require Import gmap strings.
From Coq Require Import Reals QArith_base Qcanon.
From Verif Require Import Base FeatureMatcher_Model FeatureMatcher_Proofs FeatureExtraction_Model FeatureExtraction_Spec.

Lemma scored_total x y : scored_lt x y \/ x = y \/ scored_lt y x.
Proof.
  destruct x as [a i], y as [b j]. unfold scored_lt. cbn [fst snd].
  destruct (Qclt_le_dec a b) as [H|H]; [left; left; exact H|].
  apply Qcle_lt_or_eq in H as [H|H]; [right; right; left; exact H|subst b].
  destruct (lt_eq_lt_dec i j) as [[H'| ->]|H']; [left; right; auto|right; left; reflexivity|right; right; right; auto].
Qed.
Lemma scored_irrefl x : ~ scored_lt x x.
Proof. unfold scored_lt. intros [H|[_ H]]; [exact (Qclt_not_eq _ _ H eq_refl)|lia]. Qed.

Lemma filter_none {A} (P : A -> Prop) `{forall x, Decision (P x)} (l : list A) : (forall x, x ∈ l -> ~ P x) -> filter P l = [].
Proof.
  induction l as [|x l IH]; intros Hl; [reflexivity|]. rewrite filter_cons_False by (apply Hl; left). apply IH. intros y Hy. apply Hl. right. exact Hy.
Qed.
Lemma filter_in {A} (P : A -> Prop) `{forall x, Decision (P x)} (l : list A) : (forall x, x ∈ l -> P x) -> filter P l = l.
Proof.
  induction l as [|x l IH]; intros Hl; [reflexivity|]. rewrite filter_cons_True by (apply Hl; left). f_equal. apply IH. intros y Hy. apply Hl. right. exact Hy.
Qed.

(** The first [k] elements of a partially sorted list. *)
Lemma first_elements k (l : list scored) x : NoDup l ->
  (forall i j x y, (i < j)%nat -> (i < k)%nat -> l !! i = Some x -> l !! j = Some y -> ~ scored_lt y x) ->
  x ∈ take k l <-> x ∈ l /\ (length (filter (fun y => scored_lt y x) l) < k)%nat.
Proof.
  intros Hnd Hs. split.
  - intros Hx. apply elem_of_take in Hx as (i & Hi & Hik). split; [eapply elem_of_list_lookup_2; exact Hi|].
    rewrite <- (take_drop i l), filter_app, app_length, (filter_none _ (drop i l)).
    + cbn [length]. pose proof (filter_length (fun y => scored_lt y x) (take i l)). rewrite take_length in *. lia.
    + intros y Hy. apply elem_of_list_lookup_1 in Hy as [j Hj]. rewrite lookup_drop in Hj.
      destruct j as [|j].
      * rewrite Nat.add_0_r, Hi in Hj. injection Hj as <-. apply scored_irrefl.
      * apply (Hs i (i + S j)%nat x y); [lia|exact Hik|exact Hi|exact Hj].
  - intros [Hx Hc]. apply elem_of_list_lookup_1 in Hx as [i Hi].
    apply elem_of_take. exists i. split; [exact Hi|].
    destruct (decide (i < k)%nat) as [H|H]; [exact H|exfalso].
    rewrite <- (take_drop k l), filter_app, app_length, (filter_in _ (take k l)) in Hc.
    + rewrite take_length in Hc. apply lookup_lt_Some in Hi. lia.
    + intros y Hy. apply elem_of_take in Hy as (j & Hj & Hjk).
      destruct (scored_total y x) as [E|[E|E]]; [exact E| |].
      * exfalso. subst y. pose proof (NoDup_lookup l i j x Hnd Hi Hj). lia.
      * exfalso. apply (Hs j i y x); [lia|lia|exact Hj|exact Hi|exact E].
Qed.

Section sel.
Context (ps : partial_sort) (ns : name_sort) (om : order (nat * (gset nat * gset nat))) (oi : order nat) (score : nat -> nat -> Qc).

(** * Scores *)
Lemma score_rows i j c (S : list (list scored)) r row : (i < j)%nat -> S !! r = Some row ->
  foldl (score_step score i) S (seq j c) !! r = Some (
    if decide (r = i) then row ++ ((fun x => (score i x, x)) <$> seq j c)
    else if decide (j <= r < j + c)%nat then row ++ [(score i r, i)] else row).
Proof.
  revert j S row. induction c as [|c IH]; intros j S row Hij Hr; cbn [seq foldl].
  - rewrite Hr. destruct (decide (r = i)); [rewrite app_nil_r; reflexivity|]. rewrite decide_False by lia. reflexivity.
  - assert (E : score_step score i S j !! r = Some (if decide (r = i) then row ++ [(score i j, j)] else if decide (r = j) then row ++ [(score i j, i)] else row)).
    { unfold score_step.
      destruct (decide (r = i)) as [->|Hri].
      - rewrite list_lookup_alter_ne by lia. rewrite list_lookup_alter, Hr. reflexivity.
      - destruct (decide (r = j)) as [->|Hrj].
        + rewrite list_lookup_alter, list_lookup_alter_ne by lia. rewrite Hr. reflexivity.
        + rewrite !list_lookup_alter_ne by lia. exact Hr. }
    rewrite (IH (Datatypes.S j) _ _ ltac:(lia) E).
    destruct (decide (r = i)) as [->|Hri]; [rewrite fmap_cons, <- app_assoc; reflexivity|].
    destruct (decide (r = j)) as [->|Hrj].
    + rewrite decide_False by lia. rewrite decide_True by lia. reflexivity.
    + destruct (decide (Datatypes.S j <= r < Datatypes.S j + c)%nat); [rewrite decide_True by lia|rewrite decide_False by lia]; reflexivity.
Qed.

(** The scores of an image with all others. *)
Definition others (n i : nat) : list nat := seq 0 i ++ seq (S i) (n - S i).
Definition all_scores (n i : nat) : list scored := (fun x => (gap score i x, x)) <$> others n i.

Lemma elem_of_others n i x : (i < n)%nat -> x ∈ others n i <-> (x < n)%nat /\ x <> i.
Proof. intros H. unfold others. rewrite elem_of_app, !elem_of_seq. lia. Qed.
Lemma others_length n i : (i < n)%nat -> length (others n i) = (n - 1)%nat.
Proof. intros H. unfold others. rewrite app_length, !seq_length. lia. Qed.
Lemma all_scores_nodup n i : NoDup (all_scores n i).
Proof.
  unfold all_scores. apply NoDup_fmap_2_strong.
  - intros x y Hx Hy [= _ E]. exact E.
  - unfold others. apply NoDup_app. split; [apply NoDup_seq|]. split; [|apply NoDup_seq].
    intros x. rewrite !elem_of_seq. lia.
Qed.
Lemma seq_others n i : (i < n)%nat -> seq 0 n = seq 0 i ++ i :: seq (S i) (n - S i).
Proof. intros H. replace n with (i + S (n - S i))%nat at 1 by lia. rewrite seq_app. cbn. reflexivity. Qed.

Lemma nearer_count n i j : (i < n)%nat ->
  length (filter (fun y : scored => scored_lt y (gap score i j, j)) (all_scores n i)) =
  length (filter (fun y => y <> i /\ nearer score i y j) (seq 0 n)).
Proof.
  intros H. rewrite (seq_others n i H), filter_app, (filter_cons_False _ i) by (intros [[] _]; reflexivity). rewrite <- filter_app.
  change (seq 0 i ++ seq (S i) (n - S i)) with (others n i). unfold all_scores.
  assert (Hne : forall y, y ∈ others n i -> y <> i) by (intros y Hy; apply elem_of_others in Hy; tauto).
  induction (others n i) as [|y l IH]; [reflexivity|].
  rewrite fmap_cons, !filter_cons.
  assert (E : scored_lt (gap score i y, y) (gap score i j, j) <-> y <> i /\ nearer score i y j).
  { unfold scored_lt, nearer. cbn [fst snd]. pose proof (Hne y ltac:(left)). tauto. }
  specialize (IH ltac:(intros z Hz; apply Hne; right; exact Hz)).
  destruct (decide (scored_lt _ _)) as [D|D], (decide (y <> i /\ nearer score i y j)) as [D'|D']; cbn [length]; try (rewrite IH; reflexivity);
    exfalso; tauto.
Qed.

(** The [k] nearest neighbours of image [i]. *)
Lemma nearest n i k x : (i < n)%nat ->
  x ∈ take k (ps k (all_scores n i)) <-> x = (gap score i x.2, x.2) /\ neighbor n score k i x.2.
Proof.
  intros H.
  assert (Hp : ps k (all_scores n i) ≡ₚ all_scores n i) by apply ps_perm.
  rewrite first_elements; [|rewrite Hp; apply all_scores_nodup|apply ps_first].
  rewrite Hp at 1.
  assert (EL : length (filter (fun y => scored_lt y x) (ps k (all_scores n i))) = length (filter (fun y => scored_lt y x) (all_scores n i)))
    by (apply Permutation_length; rewrite Hp; reflexivity).
  rewrite EL. unfold neighbor. split.
  - intros [Hx Hc]. unfold all_scores in Hx. apply elem_of_list_fmap in Hx as (y & -> & Hy). cbn [snd].
    apply elem_of_others in Hy as [H1 H2]; [|exact H]. rewrite nearer_count in Hc by exact H. repeat split; auto.
  - intros (Hx & _ & Hj & Hij & Hc). rewrite Hx. rewrite nearer_count by exact H. cbn [snd]. split; [|exact Hc].
    unfold all_scores. apply elem_of_list_fmap. exists x.2. split; [reflexivity|]. apply elem_of_others; [exact H|]. auto.
Qed.

(** * The maps of matches *)
Lemma ranked_insert (m : gmap nat (gset nat * gset nat)) i R E x : ranked (<[i := (R, E)]> m) x = if decide (x = i) then R else ranked m x.
Proof. unfold ranked. destruct (decide (x = i)) as [->|H]; [rewrite lookup_insert; reflexivity|rewrite lookup_insert_ne by congruence; reflexivity]. Qed.
Lemma expanded_insert (m : gmap nat (gset nat * gset nat)) i R E x : expanded (<[i := (R, E)]> m) x = if decide (x = i) then E else expanded m x.
Proof. unfold expanded. destruct (decide (x = i)) as [->|H]; [rewrite lookup_insert; reflexivity|rewrite lookup_insert_ne by congruence; reflexivity]. Qed.

Lemma expand_all (m : gmap nat (gset nat * gset nat)) i l x y :
  ranked (foldl (fun m nb => add_expanded m nb i) m l) x = ranked m x /\
  (y ∈ expanded (foldl (fun m nb => add_expanded m nb i) m l) x <-> y ∈ expanded m x \/ (y = i /\ x ∈ l)).
Proof.
  revert m. induction l as [|z l IH]; intros m; cbn [foldl]; [split; [reflexivity|set_solver]|].
  destruct (IH (add_expanded m z i)) as [I1 I2]. rewrite I1, I2. unfold add_expanded. rewrite ranked_insert, expanded_insert.
  destruct (decide (x = z)) as [->|H]; (split; [reflexivity|set_solver]).
Qed.

Lemma neighbor_step_sets i s (m : gmap nat (gset nat * gset nat)) x y : s.2 <> i ->
  (y ∈ ranked (neighbor_step oi i m s) x <-> y ∈ ranked m x \/ (x = i /\ y = s.2) \/ (x = s.2 /\ y = i)) /\
  (y ∈ expanded (neighbor_step oi i m s) x <-> y ∈ expanded m x \/ (y = i /\ x ∈ ranked m s.2)).
Proof.
  intros Hsi. unfold neighbor_step. set (m1 := <[s.2 := (ranked m s.2, expanded m s.2)]> m).
  assert (R1 : forall x, ranked m1 x = ranked m x) by (intros z; unfold m1; rewrite ranked_insert; destruct (decide (z = s.2)) as [->|]; reflexivity).
  assert (E1 : forall x, expanded m1 x = expanded m x) by (intros z; unfold m1; rewrite expanded_insert; destruct (decide (z = s.2)) as [->|]; reflexivity).
  rewrite R1. set (L := oi (elements (ranked m s.2))). set (m2 := foldl (fun m nb => add_expanded m nb i) m1 L).
  assert (R2 : forall x, ranked m2 x = ranked m x) by (intros z; unfold m2; rewrite (proj1 (expand_all m1 i L z 0)); apply R1).
  assert (HL : forall z, z ∈ L <-> z ∈ ranked m s.2) by (intros z; unfold L; rewrite ord_perm, elem_of_elements; reflexivity).
  assert (E2 : y ∈ expanded m2 x <-> y ∈ expanded m x \/ (y = i /\ x ∈ ranked m s.2)).
  { unfold m2. rewrite (proj2 (expand_all m1 i L x y)), E1, HL. reflexivity. }
  clearbody m1 m2 L. unfold add_ranked.
  rewrite !ranked_insert, !expanded_insert, !R2.
  split.
  - destruct (decide (x = s.2)) as [->|H1]; [rewrite decide_False by exact Hsi; clear -Hsi; set_solver|].
    destruct (decide (x = i)) as [->|H2]; [clear -H1; set_solver|clear -H1 H2; set_solver].
  - rewrite <- E2. destruct (decide (x = s.2)) as [->|H1]; [rewrite decide_False by exact Hsi; reflexivity|].
    destruct (decide (x = i)) as [->|H2]; reflexivity.
Qed.

Lemma neighbors_sets i (T : list scored) (m : gmap nat (gset nat * gset nat)) x y :
  (forall s, s ∈ T -> s.2 <> i) -> NoDup (snd <$> T) ->
  (y ∈ ranked (foldl (neighbor_step oi i) m T) x <-> y ∈ ranked m x \/ (x = i /\ y ∈ (snd <$> T)) \/ (y = i /\ x ∈ (snd <$> T))) /\
  (y ∈ expanded (foldl (neighbor_step oi i) m T) x <-> y ∈ expanded m x \/ (y = i /\ exists s, s ∈ (snd <$> T) /\ x ∈ ranked m s)).
Proof.
  revert m. induction T as [|t T IH]; intros m Hi Hnd; cbn [foldl].
  - split; [|split; [auto|intros [H|(_ & s & H & _)]; [exact H|inversion H]]].
    split; [auto|]. intros [H|[[_ H]|[_ H]]]; [exact H|inversion H..].
  - rewrite fmap_cons in Hnd. apply NoDup_cons in Hnd as [Ht Hnd].
    destruct (IH (neighbor_step oi i m t) ltac:(intros s Hs; apply Hi; right; exact Hs) Hnd) as [I1 I2].
    pose proof (Hi t ltac:(left)) as Hti.
    rewrite I1, I2. rewrite fmap_cons. split.
    + rewrite (proj1 (neighbor_step_sets i t m x y Hti)), !elem_of_cons. clear. tauto.
    + rewrite (proj2 (neighbor_step_sets i t m x y Hti)).
      split.
      * intros [[H|[-> H]]|[-> (s & Hs & H)]]; [left; exact H|right; split; [reflexivity|]; exists t.2; split; [left|exact H]|].
        right. split; [reflexivity|]. exists s. split; [right; exact Hs|].
        apply (proj1 (neighbor_step_sets i t m s x Hti)) in H as [H|[[-> _]|[-> _]]]; [exact H| |destruct (Ht Hs)].
        apply elem_of_list_fmap in Hs as (s' & E & Hs). destruct (Hi s' ltac:(right; exact Hs) (eq_sym E)).
      * intros [H|[-> (s & Hs & H)]]; [left; left; exact H|].
        apply elem_of_cons in Hs as [->|Hs]; [left; right; auto|].
        right. split; [reflexivity|]. exists s. split; [exact Hs|]. apply (proj1 (neighbor_step_sets i t m s x Hti)). left. exact H.
Qed.

(** * All images *)
Section loop.
Context (n k : nat) (Hk : (k <= n - 1)%nat).
Notation near := (neighbor n score k).

Record loop_ok (i : nat) (st : list (list scored) * gmap nat (gset nat * gset nat)) : Prop := LoopOk {
  lo_rows : forall r, (i <= r < n)%nat -> st.1 !! r = Some ((fun x => (gap score r x, x)) <$> seq 0 i);
  lo_length : length st.1 = n;
  lo_ranked : forall x y, y ∈ ranked st.2 x <-> ((x < i)%nat /\ near x y) \/ ((y < i)%nat /\ near y x);
  lo_expanded : forall x y, y ∈ expanded st.2 x <->
    (y < i)%nat /\ exists s, near y s /\ (((s < y)%nat /\ near s x) \/ ((x < y)%nat /\ near x s)) }.

Lemma loop_step i st : (i < n)%nat -> loop_ok i st -> exists st', image_step ps oi score n (Z.of_nat k) st i = Ok st' /\ loop_ok (S i) st'.
Proof.
  intros Hi [L1 L2 L3 L4]. destruct st as [rows m]. cbn [fst snd] in *.
  unfold image_step. cbn [fst snd]. set (rows' := foldl (score_step score i) rows (seq (S i) (n - S i))).
  assert (HR : forall r row, rows !! r = Some row -> rows' !! r = Some (
    if decide (r = i) then row ++ ((fun x => (score i x, x)) <$> seq (S i) (n - S i))
    else if decide (S i <= r < S i + (n - S i))%nat then row ++ [(score i r, i)] else row)).
  { intros r row Hr. apply score_rows; [lia|exact Hr]. }
  assert (Hmine : rows' !! i = Some (all_scores n i)).
  { rewrite (HR i _ (L1 i ltac:(lia))). rewrite decide_True by reflexivity. f_equal. unfold all_scores, others. rewrite fmap_app. f_equal.
    apply list_fmap_ext. intros j x Hx. apply elem_of_list_lookup_2, elem_of_seq in Hx.
    unfold gap. rewrite Nat.min_l, Nat.max_r by lia. reflexivity. }
  assert (Hlen' : length rows' = n).
  { unfold rows'. transitivity (length rows); [|exact L2]. generalize (seq (S i) (n - S i)). clear. intros l. revert rows. induction l as [|j l IH]; intros rows; [reflexivity|].
    cbn [foldl]. rewrite IH. unfold score_step. rewrite !alter_length. reflexivity. }
  rewrite Hmine. cbn [or_ub mbind outcome_bind].
  assert (Hal : length (all_scores n i) = (n - 1)%nat) by (unfold all_scores; rewrite fmap_length; apply others_length; exact Hi).
  rewrite decide_False by lia. rewrite Nat2Z.id.
  set (T := take k (ps k (all_scores n i))).
  assert (HT : forall j, j ∈ (snd <$> T) <-> near i j).
  { intros j. rewrite elem_of_list_fmap. split.
    - intros (x & -> & Hx). apply (nearest n i k x Hi) in Hx. exact (proj2 Hx).
    - intros Hj. exists (gap score i j, j). split; [reflexivity|]. apply (nearest n i k _ Hi). auto. }
  assert (HTi : forall s, s ∈ T -> s.2 <> i).
  { intros s Hs. assert (near i s.2) as H by (apply HT, elem_of_list_fmap; eauto). unfold neighbor in H. clear -H. destruct H as (_ & _ & H & _). congruence. }
  assert (HTn : NoDup (snd <$> T)).
  { unfold T. rewrite fmap_take. apply (NoDup_app _ (drop k (snd <$> ps k (all_scores n i)))). rewrite take_drop.
    rewrite (ps_perm ps k (all_scores n i)). unfold all_scores. rewrite <- list_fmap_compose.
    replace ((snd ∘ (fun x => (gap score i x, x))) <$> others n i) with (others n i).
    - unfold others. apply NoDup_app. split; [apply NoDup_seq|]. split; [|apply NoDup_seq]. intros x. rewrite !elem_of_seq. lia.
    - rewrite <- (list_fmap_id (others n i)) at 1. apply list_fmap_ext. reflexivity. }
  assert (HNS : forall x y, (y ∈ ranked (foldl (neighbor_step oi i) m T) x <-> y ∈ ranked m x \/ (x = i /\ y ∈ (snd <$> T)) \/ (y = i /\ x ∈ (snd <$> T))) /\
  (y ∈ expanded (foldl (neighbor_step oi i) m T) x <-> y ∈ expanded m x \/ (y = i /\ exists s, s ∈ (snd <$> T) /\ x ∈ ranked m s)))
    by (intros x y; apply neighbors_sets; assumption).
  clear HTi HTn. clearbody T. eexists. split; [reflexivity|]. split; cbn [fst snd].
  - intros r Hr. rewrite list_lookup_insert_ne by lia. rewrite (HR r _ (L1 r ltac:(lia))).
    rewrite decide_False by lia. rewrite decide_True by lia. f_equal. rewrite seq_S, fmap_app. cbn. unfold gap. rewrite Nat.min_r, Nat.max_l by lia. reflexivity.
  - rewrite insert_length. exact Hlen'.
  - intros x y. rewrite (proj1 (HNS x y)), L3, !HT. clear -Hi. split.
    + intros [[[H1 H2]|[H1 H2]]|[[-> H]|[-> H]]]; [left|right|left|right]; split; auto; lia.
    + intros [[H1 H2]|[H1 H2]].
      * destruct (decide (x = i)) as [->|]; [right; left; auto|left; left; split; [lia|exact H2]].
      * destruct (decide (y = i)) as [->|]; [right; right; auto|left; right; split; [lia|exact H2]].
  - intros x y. rewrite (proj2 (HNS x y)), L4. clear -Hi HT L3. split.
    + intros [(H1 & s & H2 & H3)|(-> & s & H1 & H2)]; [split; [lia|]; exists s; auto|].
      split; [lia|]. exists s. split; [apply HT, H1|]. apply L3. exact H2.
    + intros (H1 & s & H2 & H3). destruct (decide (y = i)) as [->|].
      * right. split; [reflexivity|]. exists s. split; [apply HT, H2|]. apply L3. exact H3.
      * left. split; [lia|]. exists s. auto.
Qed.

Lemma loop_run i c st : (i + c <= n)%nat -> loop_ok i st ->
  exists st', run_steps (image_step ps oi score n (Z.of_nat k)) st (seq i c) = Ok st' /\ loop_ok (i + c) st'.
Proof.
  revert i st. induction c as [|c IH]; intros i st Hi Hl; cbn [seq run_steps].
  - exists st. rewrite Nat.add_0_r. auto.
  - destruct (loop_step i st ltac:(lia) Hl) as (st' & E & Hl'). rewrite E. cbn [mbind outcome_bind].
    replace (i + S c)%nat with (S i + c)%nat by lia. apply IH; [lia|exact Hl'].
Qed.
Lemma loop_start : loop_ok 0 (replicate n [], ∅).
Proof.
  split; cbn [fst snd].
  - intros r Hr. rewrite lookup_replicate_2 by lia. reflexivity.
  - apply replicate_length.
  - intros x y. unfold ranked. rewrite lookup_empty. cbn. split; [set_solver|]. lia.
  - intros x y. unfold expanded. rewrite lookup_empty. cbn. split; [set_solver|]. lia.
Qed.
End loop.

(** * Collecting the pairs *)
Lemma collect_list names a (l : list (string * string)) (bs : list nat) : (a < length names)%nat -> (forall b, b ∈ bs -> (b < length names)%nat) ->
  exists l', run_steps (collect_step names a) l bs = Ok l' /\
    forall p, p ∈ l' <-> p ∈ l \/ exists b, b ∈ bs /\ (a < b)%nat /\ names !! a = Some p.1 /\ names !! b = Some p.2.
Proof.
  intros Ha. revert l. induction bs as [|b bs IH]; intros l Hb; cbn [run_steps].
  - exists l. split; [reflexivity|]. intros p. split; [auto|]. intros [H|(b & H & _)]; [exact H|inversion H].
  - assert (exists l1, collect_step names a l b = Ok l1 /\
      forall p, p ∈ l1 <-> p ∈ l \/ ((a < b)%nat /\ names !! a = Some p.1 /\ names !! b = Some p.2)) as (l1 & E1 & H1).
    { unfold collect_step. destruct (decide (a < b)%nat) as [H|H]; [|exists l; split; [reflexivity|]; intros p; split; [auto|]; intros [Q|[Q _]]; [exact Q|lia]].
      destruct (lookup_lt_is_Some_2 names a Ha) as [x Ex]. destruct (lookup_lt_is_Some_2 names b (Hb b ltac:(left))) as [y Ey].
      rewrite Ex, Ey. cbn [or_ub mbind outcome_bind]. eexists. split; [reflexivity|]. intros [p1 p2]. rewrite elem_of_app, elem_of_list_singleton. cbn [fst snd].
      split; [intros [Q|[= -> ->]]; auto|]. intros [Q|(_ & [= ->] & [= ->])]; auto. }
    rewrite E1. cbn [mbind outcome_bind].
    destruct (IH l1 ltac:(intros c Hc; apply Hb; right; exact Hc)) as (l' & E & Hl'). exists l'. split; [exact E|].
    intros p. rewrite Hl', H1. split.
    + intros [[H|H]|(c & Hc & H)]; [auto|right; exists b; split; [left|exact H]|right; exists c; split; [right; exact Hc|exact H]].
    + intros [H|(c & Hc & H)]; [auto|]. apply elem_of_cons in Hc as [->|Hc]; [auto|]. right. exists c. auto.
Qed.
Lemma collect_all names (l : list (string * string)) (ms : list (nat * (gset nat * gset nat))) :
  (forall a R E, (a, (R, E)) ∈ ms -> (forall b, b ∈ R ∪ E -> (a < length names)%nat /\ (b < length names)%nat)) ->
  exists l', run_steps (collect_image oi names) l ms = Ok l' /\
    forall p, p ∈ l' <-> p ∈ l \/ exists a R E b, (a, (R, E)) ∈ ms /\ b ∈ R ∪ E /\ (a < b)%nat /\ names !! a = Some p.1 /\ names !! b = Some p.2.
Proof.
  revert l. induction ms as [|[a [R E]] ms IH]; intros l Hm; cbn [run_steps].
  - exists l. split; [reflexivity|]. intros p. split; [auto|]. intros [H|(a & R & E & b & H & _)]; [exact H|inversion H].
  - assert (exists l1, collect_image oi names l (a, (R, E)) = Ok l1 /\
      forall p, p ∈ l1 <-> p ∈ l \/ exists b, b ∈ R ∪ E /\ (a < b)%nat /\ names !! a = Some p.1 /\ names !! b = Some p.2) as (l1 & E1 & H1).
    { unfold collect_image. cbn [fst snd].
      assert (HR : forall b, b ∈ oi (elements R) <-> b ∈ R) by (intros b; rewrite ord_perm, elem_of_elements; reflexivity).
      assert (HE : forall b, b ∈ oi (elements E) <-> b ∈ E) by (intros b; rewrite ord_perm, elem_of_elements; reflexivity).
      pose proof (Hm a R E ltac:(left)) as Hb.
      destruct (decide (R ∪ E = ∅)) as [H0|H0].
      - assert (oi (elements R) = []) as -> by (apply elem_of_nil_inv; intros b; rewrite HR; set_solver).
        assert (oi (elements E) = []) as -> by (apply elem_of_nil_inv; intros b; rewrite HE; set_solver).
        exists l. split; [reflexivity|]. intros p. split; [auto|]. intros [H|(b & H & _)]; [exact H|]. rewrite H0 in H. set_solver.
      - apply set_choose_L in H0 as [b0 Hb0]. pose proof (proj1 (Hb b0 Hb0)) as Ha.
        destruct (collect_list names a l (oi (elements R)) Ha) as (l2 & E2 & H2).
        { intros b Hb'. apply HR in Hb'. apply (Hb b). set_solver. }
        rewrite E2. cbn [mbind outcome_bind].
        destruct (collect_list names a l2 (oi (elements E)) Ha) as (l3 & E3 & H3).
        { intros b Hb'. apply HE in Hb'. apply (Hb b). set_solver. }
        exists l3. split; [exact E3|]. intros p. rewrite H3, H2. clear -HR HE. split.
        + intros [[H|(b & H1 & H2)]|(b & H1 & H2)]; [auto|right; exists b; split; [apply HR in H1; set_solver|exact H2]|right; exists b; split; [apply HE in H1; set_solver|exact H2]].
        + intros [H|(b & H1 & H2)]; [auto|]. apply elem_of_union in H1 as [H1|H1]; [left; right; exists b; split; [apply HR, H1|exact H2]|right; exists b; split; [apply HE, H1|exact H2]]. }
    rewrite E1. cbn [mbind outcome_bind].
    destruct (IH l1 ltac:(intros a' R' E' H; apply Hm; right; exact H)) as (l' & E' & Hl'). exists l'. split; [exact E'|].
    intros p. rewrite Hl', H1. split.
    + intros [[H|(b & H)]|(a' & R' & E'' & b & Hc & H)]; [auto|right; exists a, R, E, b; split; [left|exact H]|right; exists a', R', E'', b; split; [right; exact Hc|exact H]].
    + intros [H|(a' & R' & E'' & b & Hc & H)]; [auto|]. apply elem_of_cons in Hc as [[= -> -> ->]|Hc]; [left; right; exists b; exact H|].
      right. exists a', R', E'', b. auto.
Qed.

(** * std::sort and std::unique *)
Lemma unique_elem l p : p ∈ unique l <-> p ∈ l.
Proof.
  induction l as [|x [|y l] IH]; [reflexivity|reflexivity|].
  change (unique (x :: y :: l)) with (if decide (x = y) then unique (y :: l) else x :: unique (y :: l)).
  destruct (decide (x = y)) as [->|H]; rewrite ?(elem_of_cons (unique _)), IH, (elem_of_cons (y :: l)); [|reflexivity].
  split; [auto|]. intros [->|H]; [left|exact H].
Qed.
Lemma unique_nodup (le : string * string -> string * string -> Prop) l : (forall x y, le x y -> le y x -> x = y) ->
  (forall i j x y, (i < j)%nat -> l !! i = Some x -> l !! j = Some y -> le x y) -> NoDup (unique l).
Proof.
  intros Hanti. induction l as [|x [|y l] IH]; intros Hs; [constructor|apply NoDup_singleton|].
  change (unique (x :: y :: l)) with (if decide (x = y) then unique (y :: l) else x :: unique (y :: l)).
  specialize (IH ltac:(intros i j a b Hij Hi Hj; apply (Hs (S i) (S j) a b); [lia|exact Hi|exact Hj])).
  destruct (decide (x = y)) as [->|H]; [exact IH|]. apply NoDup_cons. split; [|exact IH].
  rewrite unique_elem. intros Hx. apply elem_of_cons in Hx as [Hx|Hx]; [exact (H Hx)|].
  apply elem_of_list_lookup_1 in Hx as [j Hj]. apply H, Hanti; [apply (Hs 0 1 x y)%nat; [lia|reflexivity..]|apply (Hs 1 (S (S j)) y x)%nat; [lia|reflexivity|exact Hj]].
Qed.

Lemma select_pairs_ok names neighbors : NoDup names -> (0 <= neighbors)%Z -> (Z.of_nat (length names) < 2 ^ 31)%Z ->
  exists l, select_pairs ps ns om oi score names neighbors = Ok l /\ NoDup l /\
    forall x y, (x, y) ∈ l <-> exists a b, (a < b)%nat /\ names !! a = Some x /\ names !! b = Some y /\
      selected (length names) score (Z.to_nat neighbors) a b.
Proof.
  intros Hnd H0 H31. unfold select_pairs. set (n := length names) in *.
  destruct (decide (n = 0%nat)) as [En|En].
  - assert (names = []) as -> by (apply nil_length_inv; exact En). subst n. cbn [length seq run_steps replicate mbind outcome_bind].
    rewrite map_to_list_empty.
    assert (om [] = []) as -> by (apply Permutation_nil; symmetry; apply ord_perm).
    cbn [run_steps mbind outcome_bind]. assert (ns [] = []) as -> by (apply Permutation_nil; symmetry; apply ns_perm).
    exists []. split; [reflexivity|]. split; [constructor|]. intros x y. split; [intros H; inversion H|]. intros (a & b & _ & H & _). discriminate.
  - assert (Ek : Z.min (to_int ((Z.of_nat n - 1) mod 2 ^ 64)) neighbors = Z.of_nat (Nat.min (n - 1) (Z.to_nat neighbors))).
    { rewrite Z.mod_small by lia. rewrite to_int_small by lia. lia. }
    rewrite Ek. set (k := Nat.min (n - 1) (Z.to_nat neighbors)).
    assert (Hkn : (k <= n - 1)%nat) by (unfold k; lia).
    destruct (loop_run n k Hkn 0 n (replicate n [], ∅) ltac:(lia) (loop_start n k Hkn)) as ([rows m] & E & L). rewrite E. cbn [mbind outcome_bind].
    cbn [Nat.add] in L. destruct L as [_ _ L3 L4]. cbn [snd] in L3, L4.
    assert (Hin : forall a R E, (a, (R, E)) ∈ om (map_to_list m) <-> m !! a = Some (R, E)) by (intros a R E0; rewrite ord_perm; apply elem_of_map_to_list).
    assert (HRE : forall a R E, m !! a = Some (R, E) -> R = ranked m a /\ E = expanded m a) by (intros a R E0 H; unfold ranked, expanded; rewrite H; auto).
    assert (Hlt : forall i j, neighbor n score k i j -> (i < n)%nat /\ (j < n)%nat) by (intros i j H; unfold neighbor in H; clear -H; tauto).
    destruct (collect_all names [] (om (map_to_list m))) as (l & El & Hl).
    { intros a R E0 H b Hb. apply Hin, HRE in H as [-> ->]. fold n. clear -Hb L3 L4 Hlt. apply elem_of_union in Hb as [Hb|Hb].
      - apply L3 in Hb as [[_ Hb]|[_ Hb]]; apply Hlt in Hb; tauto.
      - apply L4 in Hb as (_ & s & H1 & H2). apply Hlt in H1. destruct H2 as [[_ H2]|[_ H2]]; apply Hlt in H2; tauto. }
    rewrite El. cbn [mbind outcome_bind]. eexists. split; [reflexivity|].
    split; [apply (unique_nodup (ns_le ns)); [apply ns_antisym|apply ns_sorted]|].
    assert (Hnk : forall i j, neighbor n score k i j <-> neighbor n score (Z.to_nat neighbors) i j).
    { intros i j. unfold neighbor. split; [intros (H1 & H2 & H3 & H4); repeat split; auto; lia|]. intros (H1 & H2 & H3 & H4). repeat split; auto.
      apply Nat.min_glb_lt; [|exact H4].
      assert (Hs : filter (fun y => y <> i /\ nearer score i y j) (seq 0 n) ⊆+ filter (fun y => y <> j) (others n i)).
      { apply NoDup_submseteq; [apply NoDup_filter, NoDup_seq|]. intros y. rewrite !elem_of_list_filter, elem_of_others, elem_of_seq by exact H1.
        intros [[Hy1 Hy2] Hy3]. split; [|lia]. intros ->. unfold nearer in Hy2. destruct Hy2 as [Hy2|[_ Hy2]]; [exact (Qclt_not_eq _ _ Hy2 eq_refl)|lia]. }
      apply submseteq_length in Hs.
      assert (Hl2 : (length (filter (fun y => y <> j) (others n i)) < length (others n i))%nat).
      { apply (filter_length_lt (fun y => y <> j) (others n i) j); [apply elem_of_others; [exact H1|]; split; [exact H2|congruence]|]. intros H; exact (H eq_refl). }
      rewrite others_length in Hl2 by exact H1. lia. }
    intros x y. rewrite unique_elem, (ns_perm ns l), Hl. cbn [fst snd]. clear -L3 L4 Hin HRE Hnk Hlt. split.
    + intros [H|(a & R & E & b & H & Hb & Hab & Hx & Hy)]; [inversion H|]. exists a, b. split; [exact Hab|]. split; [exact Hx|]. split; [exact Hy|].
      apply Hin, HRE in H as [-> ->]. unfold selected. apply elem_of_union in Hb as [Hb|Hb].
      * apply L3 in Hb as [[_ Hb]|[_ Hb]]; apply Hnk in Hb; auto.
      * apply L4 in Hb as (_ & s & H1 & H2). apply Hnk in H1. right; right. exists s. split; [exact H1|].
        destruct H2 as [[H2 H3]|[_ H3]]; apply Hnk in H3; auto.
    + intros (a & b & Hab & Hx & Hy & Hs). right.
      assert (Hb : b ∈ ranked m a ∪ expanded m a).
      { apply elem_of_union. destruct Hs as [H|[H|(s & H1 & [H2|[H2 H3]])]].
        - left. apply L3. apply Hnk in H. left. split; [apply (Hlt _ _ H)|exact H].
        - left. apply L3. apply Hnk in H. right. split; [apply (Hlt _ _ H)|exact H].
        - right. apply L4. apply Hnk in H1, H2. split; [apply (Hlt _ _ H1)|]. exists s. auto.
        - right. apply L4. apply Hnk in H1, H3. split; [apply (Hlt _ _ H1)|]. exists s. auto. }
      destruct (m !! a) as [[R E]|] eqn:Em.
      * exists a, R, E, b. split; [apply Hin; exact Em|]. destruct (HRE a R E Em) as [-> ->]. auto.
      * exfalso. unfold ranked, expanded in Hb. rewrite Em in Hb. cbn in Hb. set_solver.
Qed.
End sel.
