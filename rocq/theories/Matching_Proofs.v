(** Proofs about matching. *)
From stdpp Require Import gmap sorting.
From Verif Require Import Base Matching_Model Matching_Spec.

(** ** IntersectMatches *)

Section intersect.
Context {D : Type}.
Implicit Types (m : fmatch D) (l : list (fmatch D)).

Notation ins := (fun (im : gmap Z Z) m => match im !! feature1 m with
    | Some _ => CheckFail | None => Ok (<[feature1 m := feature2 m]> im) end).

Lemma index_run l (im : gmap Z Z) :
  (NoDup (feature1 <$> l) /\ (forall m, m ∈ l -> im !! feature1 m = None) /\
    exists im', run_steps ins im l = Ok im' /\
      (forall i j, im' !! i = Some j <-> im !! i = Some j \/ exists m, m ∈ l /\ feature1 m = i /\ feature2 m = j)) \/
  (~ (NoDup (feature1 <$> l) /\ forall m, m ∈ l -> im !! feature1 m = None) /\
   run_steps ins im l = CheckFail).
Proof.
  revert im. induction l as [|m l IH]; intros im.
  { left. split; [constructor|]. split; [by intros m Hm; apply elem_of_nil in Hm|].
    exists im. split; [done|]. intros i j. split; [by left|]. intros [?|(m & Hm & _)]; [done|].
    by apply elem_of_nil in Hm. }
  cbn [run_steps]. rewrite fmap_cons. destruct (im !! feature1 m) as [x|] eqn:E.
  { right. split; [|done]. intros [_ Hn]. specialize (Hn m ltac:(by left)). congruence. }
  cbn [mbind outcome_bind].
  destruct (IH (<[feature1 m := feature2 m]> im)) as [(Hnd & Hf & im' & E' & Him)|[Hno E']].
  - left. split; [|split].
    + constructor; [|done]. intros (m0 & Hm0 & Hin)%elem_of_list_fmap. specialize (Hf m0 Hin).
      rewrite <-Hm0, lookup_insert in Hf. done.
    + intros m0 [->|Hm0]%elem_of_cons; [done|]. specialize (Hf m0 Hm0).
      by apply lookup_insert_None in Hf as [? _].
    + exists im'. split; [done|]. intros i j. rewrite Him.
      rewrite lookup_insert_Some. setoid_rewrite elem_of_cons. split.
      * intros [[[<- <-]|[_ ?]]|(m0 & ? & ? & ?)]; eauto 10.
      * intros [?|(m0 & [->|?] & <- & <-)]; eauto 10. left. right. split; [congruence|done].
  - right. split; [|done]. intros [[Hm Hnd]%NoDup_cons Hf]. apply Hno. split; [done|].
    intros m0 Hm0. rewrite lookup_insert_ne; [apply Hf; by right|]. intros Heq. apply Hm.
    apply elem_of_list_fmap. exists m0. done.
Qed.

Lemma intersect_lemma (backward forward : list (fmatch D)) : NoDup (feature1 <$> backward) ->
  (forall m, m ∈ forward -> feature1 m ≠ (-1)%Z) ->
  intersect_matches backward forward =
  Ok (filter (fun m => Exists (fun b => feature1 b = feature2 m /\ feature2 b = feature1 m) backward) forward).
Proof.
  intros Hnd Hf. unfold intersect_matches, index_matches.
  destruct (index_run backward ∅) as [(_ & _ & im & -> & Him)|[Hno _]].
  2:{ exfalso. apply Hno. split; [done|]. intros. apply lookup_empty. } cbn [mbind outcome_bind]. f_equal.
  assert (Hiff : forall m, m ∈ forward -> feature1 m = default (-1)%Z (im !! feature2 m) <->
    Exists (fun b => feature1 b = feature2 m /\ feature2 b = feature1 m) backward).
  { intros m Hm. rewrite Exists_exists. split.
    - intros E. destruct (im !! feature2 m) as [z|] eqn:E'; simpl in E; [|by apply Hf in Hm].
      apply Him in E' as [E'|(b & Hb & H1 & H2)]; [by rewrite lookup_empty in E'|].
      exists b. split; [done|]. split; congruence.
    - intros (b & Hb & H1 & H2).
      assert (im !! feature2 m = Some (feature1 m)) as ->; [|done]. apply Him. right. eauto. }
  clear -Hiff. induction forward as [|m l IH]; [done|]. rewrite !filter_cons.
  specialize (IH ltac:(intros; apply Hiff; by right)). pose proof (Hiff m ltac:(by left)) as Hm.
  destruct (decide (feature1 m = _)), (decide (Exists _ backward)); try tauto; by rewrite IH.
Qed.

Lemma intersect_dup (backward forward : list (fmatch D)) : ~ NoDup (feature1 <$> backward) ->
  intersect_matches backward forward = CheckFail.
Proof.
  intros Hnd. unfold intersect_matches, index_matches. 
  destruct (index_run backward ∅) as [(? & _)|[_ ->]]; [done|]. done.
Qed.
End intersect.

(** ** Brute force *)

Section brute.
Context {Desc D : Type} (lt : D -> D -> bool) (P : partial_sort lt)
  (dist : Desc -> Desc -> D) (ratio : D -> D -> bool) (opt : options).
Hypothesis Hlt : total_order lt.

Lemma le_antisym x y : lt x y = false -> lt y x = false -> x = y.
Proof. intros H1 H2. destruct Hlt as (_ & _ & Ht). destruct (Ht x y) as [?|[?|?]]; congruence. Qed.
Lemma le_trans x y z : lt y x = false -> lt z y = false -> lt z x = false.
Proof.
  intros H1 H2. destruct Hlt as (Hi & Htr & Ht). destruct (lt z x) eqn:E; [|done].
  destruct (Ht x y) as [Hxy|[->|?]]; [|congruence|congruence].
  pose proof (Htr z x y E Hxy). congruence.
Qed.
Lemma le_refl x : lt x x = false.
Proof. apply Hlt. Qed.

Lemma elem_of_candidates i d others m : m ∈ candidates dist i d others <->
  exists j dj, others !! j = Some dj /\ m = FMatch (Z.of_nat i) (Z.of_nat j) (dist d dj).
Proof.
  unfold candidates. rewrite elem_of_lookup_imap. split; intros (j & dj & ? & ?); eauto.
Qed.

Lemma candidates_NoDup i d others : NoDup (candidates dist i d others).
Proof.
  apply NoDup_alt. intros j k m. unfold candidates. rewrite !list_lookup_imap_Some.
  intros (dj & _ & ->) (dk & _ & E). injection E. lia.
Qed.

(** What the sorted candidates say. *)
Lemma sorted_candidates i d others : (2 <= length others)%nat ->
  exists j dj k dk rest, psort lt P (candidates dist i d others) =
      FMatch (Z.of_nat i) (Z.of_nat j) (dist d dj) :: FMatch (Z.of_nat i) (Z.of_nat k) (dist d dk) :: rest /\
    others !! j = Some dj /\ others !! k = Some dk /\ k ≠ j /\
    (forall l dl, others !! l = Some dl -> lt (dist d dl) (dist d dj) = false) /\
    (forall l dl, l ≠ j -> others !! l = Some dl -> lt (dist d dl) (dist d dk) = false).
Proof.
  intros Hlen. pose proof (psort_perm lt P (candidates dist i d others)) as Hp.
  assert (Hl : length (psort lt P (candidates dist i d others)) = length others).
  { rewrite Hp. unfold candidates. apply imap_length. }
  destruct (psort lt P (candidates dist i d others)) as [|a [|b rest]] eqn:E; simpl in Hl; [lia|lia|].
  destruct (psort_first lt P _ a b rest E) as [Hab Hrest].
  pose proof (candidates_NoDup i d others) as Hnd. rewrite <-Hp in Hnd.
  apply NoDup_cons in Hnd as [Ha Hnd]. apply NoDup_cons in Hnd as [Hb _].
  destruct (proj1 (elem_of_candidates i d others a)) as (j & dj & Hj & ->); [rewrite <-Hp; by left|].
  destruct (proj1 (elem_of_candidates i d others b)) as (k & dk & Hk & ->); [rewrite <-Hp; right; by left|].
  exists j, dj, k, dk, rest. simpl in Hab.
  assert (Hne : k ≠ j). { intros ->. apply Ha. rewrite Hj in Hk. injection Hk as ->. by left. }
  assert (Hothers : forall l dl, l ≠ j -> others !! l = Some dl -> lt (dist d dl) (dist d dk) = false).
  { intros l dl Hl' Hdl.
    assert (Hin : FMatch (Z.of_nat i) (Z.of_nat l) (dist d dl) ∈ candidates dist i d others).
    { apply elem_of_candidates. eauto. }
    rewrite <-Hp in Hin. apply elem_of_cons in Hin as [[= ? _]|Hin]; [lia|].
    apply elem_of_cons in Hin as [[= _ ->]|Hin]; [apply le_refl|].
    rewrite Forall_forall in Hrest. apply (Hrest _ Hin). }
  split_and!; try done.
  intros l dl Hdl. destruct (decide (l = j)) as [->|Hl'].
  - rewrite Hj in Hdl. injection Hdl as ->. apply le_refl.
  - apply (le_trans _ (dist d dk)); [done|]. by eapply Hothers.
Qed.

Notation acceptable := (acceptable lt dist ratio opt).

Lemma match_one_spec others i d : (2 <= length others)%nat ->
  exists r, match_one lt P dist ratio opt others i d = Ok r /\
    (forall m, m ∈ r -> exists j dj, others !! j = Some dj /\
       m = FMatch (Z.of_nat i) (Z.of_nat j) (dist d dj) /\ acceptable d others j) /\
    (length r <= 1)%nat /\
    (forall j, acceptable d others j -> r ≠ []).
Proof.
  intros Hlen. destruct (sorted_candidates i d others Hlen) as (j & dj & k & dk & rest & E & Hj & Hk & Hne & Hmin & Hmin2).
  unfold match_one. rewrite E. cbn [fdist]. eexists. split; [done|].
  destruct (negb (use_lowes_ratio opt) || ratio (dist d dj) (dist d dk)) eqn:Et.
  - split_and!; [|simpl; lia|done]. intros m ->%elem_of_list_singleton. exists j, dj. split; [done|]. split; [done|].
    split; [by exists dj|]. intros Hu. rewrite Hu in Et. simpl in Et. by exists dj, k, dk.
  - split_and!; [|simpl; lia|].
    + intros m Hm. by apply elem_of_nil in Hm.
    + intros j' [(dj' & Hj' & Hm') Hr] _. apply orb_false_elim in Et as [Hu Et]. apply negb_false_iff in Hu.
      destruct (Hr Hu) as (dj2 & k' & dk' & Hj2 & Hne' & Hk' & Hm2 & Hrat).
      assert (dj2 = dj') as -> by congruence.
      assert (Edj : dist d dj' = dist d dj).
      { apply le_antisym; [by eapply Hmin|by eapply Hm']. }
      assert (Edk : dist d dk' = dist d dk); [|congruence].
      destruct (decide (j' = j)) as [->|Hjj].
      * apply le_antisym; [exact (Hmin2 k' dk' Hne' Hk')|exact (Hm2 k dk Hne Hk)].
      * assert (lt (dist d dj) (dist d dk') = false) as H1 by exact (Hm2 j dj (not_eq_sym Hjj) Hj).
        assert (lt (dist d dk') (dist d dj) = false) as H2 by exact (Hmin k' dk' Hk').
        assert (dist d dk' = dist d dj) as -> by by apply le_antisym.
        apply le_antisym.
        -- rewrite <-Edj. exact (Hmin2 j' dj' Hjj Hj').
        -- exact (Hmin k dk Hk).
Qed.

(** [ms] holds the matches of the features from number [i] on. *)
Definition good_matches (descs others : list Desc) (i : nat) (ms : list (fmatch D)) : Prop :=
  (forall m, m ∈ ms -> exists n d j dj, descs !! n = Some d /\ others !! j = Some dj /\
     m = FMatch (Z.of_nat (i + n)) (Z.of_nat j) (dist d dj) /\ acceptable d others j) /\
  StronglySorted Z.lt (feature1 <$> ms) /\
  (forall n d j, descs !! n = Some d -> acceptable d others j ->
     exists m, m ∈ ms /\ feature1 m = Z.of_nat (i + n)).

Lemma match_loop_spec others descs i : (2 <= length others)%nat ->
  exists ms, match_loop lt P dist ratio opt others i descs = Ok ms /\ good_matches descs others i ms.
Proof.
  intros Hlen. revert i. induction descs as [|d descs IH]; intros i.
  { exists []. split; [done|]. split_and!.
    - intros m Hm. by apply elem_of_nil in Hm.
    - constructor.
    - intros n d j Hn. by rewrite lookup_nil in Hn. }
  cbn [match_loop]. destruct (match_one_spec others i d Hlen) as (r & -> & Hr & Hr1 & Hr2).
  cbn [mbind outcome_bind]. destruct (IH (S i)) as (ms & -> & Hms & Hsort & Hcomp). cbn [mbind outcome_bind].
  eexists. split; [done|]. split_and!.
  - intros m [Hm|Hm]%elem_of_app.
    + destruct (Hr m Hm) as (j & dj & ? & -> & ?). exists 0, d, j, dj. rewrite Nat.add_0_r. done.
    + destruct (Hms m Hm) as (n & d' & j & dj & ? & ? & -> & ?). exists (S n), d', j, dj.
      split_and!; try done. f_equal. lia.
  - rewrite fmap_app. destruct r as [|m r]; [done|]. destruct r; simpl in Hr1; [|lia]. simpl. constructor; [done|].
    apply Forall_forall. intros z (m' & -> & Hm')%elem_of_list_fmap.
    destruct (Hr m ltac:(by left)) as (? & ? & _ & -> & _).
    destruct (Hms m' Hm') as (n & ? & ? & ? & _ & _ & -> & _). simpl. lia.
  - intros [|n] d' j Hn Hacc.
    + injection Hn as <-. destruct r as [|m r]; [by apply Hr2 in Hacc|].
      exists m. split; [apply elem_of_app; left; by left|].
      destruct (Hr m ltac:(by left)) as (? & ? & _ & -> & _). simpl. lia.
    + simpl in Hn. destruct (Hcomp n d' j Hn Hacc) as (m & Hm & E). exists m.
      split; [apply elem_of_app; by right|]. rewrite E. lia.
Qed.

Lemma match_loop_ub others d descs i : (length others < 2)%nat ->
  match_loop lt P dist ratio opt others i (d :: descs) = UB.
Proof.
  intros Hlen. cbn [match_loop]. unfold match_one.
  assert (Hl : length (psort lt P (candidates dist i d others)) = length others).
  { rewrite (psort_perm lt P). unfold candidates. apply imap_length. }
  destruct (psort lt P _) as [|a [|b rest]]; simpl in Hl; [done|done|lia].
Qed.

Notation only_nearest := (only_nearest lt dist).

Lemma good_unique descs others ms n d j dj : good_matches descs others 0 ms ->
  descs !! n = Some d -> others !! j = Some dj -> only_nearest d others j -> acceptable d others j ->
  FMatch (Z.of_nat n) (Z.of_nat j) (dist d dj) ∈ ms.
Proof.
  intros (Hs & _ & Hc) Hn Hj [_ Hu] Hacc. destruct (Hc n d j Hn Hacc) as (m & Hm & E).
  destruct (Hs m Hm) as (n' & d' & j' & dj' & Hn' & Hj' & -> & [Hnear _]). simpl in E.
  assert (n' = n) as -> by lia. assert (d' = d) as -> by congruence.
  apply Hu in Hnear as ->. assert (dj' = dj) as -> by congruence. done.
Qed.

Lemma fewer_iff n : (0 <= min_num_feature_matches opt < 2 ^ 64)%Z ->
  fewer_than_min opt n = true <-> (Z.of_nat n < min_num_feature_matches opt)%Z.
Proof. intros Hm. unfold fewer_than_min. rewrite bool_decide_eq_true, Z.mod_small by lia. done. Qed.

Lemma brute_lemma descs1 descs2 :
  (2 <= length descs1)%nat -> (2 <= length descs2)%nat -> (0 <= min_num_feature_matches opt < 2 ^ 64)%Z ->
  exists ok ms, match_image_pair lt P dist ratio opt descs1 descs2 = Ok (ok, ms) /\
    (ok = true <-> (min_num_feature_matches opt <= Z.of_nat (length ms))%Z) /\
    StronglySorted Z.lt (feature1 <$> ms) /\
    (forall m, m ∈ ms -> exists i di j dj, descs1 !! i = Some di /\ descs2 !! j = Some dj /\
       m = FMatch (Z.of_nat i) (Z.of_nat j) (dist di dj) /\ acceptable di descs2 j /\
       (ok = true -> keep_only_symmetric_matches opt = true -> acceptable dj descs1 i)) /\
    (keep_only_symmetric_matches opt = false -> forall i di j, descs1 !! i = Some di -> acceptable di descs2 j ->
       exists m, m ∈ ms /\ feature1 m = Z.of_nat i) /\
    (forall i di j dj, descs1 !! i = Some di -> descs2 !! j = Some dj ->
       acceptable di descs2 j -> only_nearest di descs2 j ->
       acceptable dj descs1 i -> only_nearest dj descs1 i ->
       FMatch (Z.of_nat i) (Z.of_nat j) (dist di dj) ∈ ms).
Proof.
  intros H1 H2 Hmin. unfold match_image_pair.
  destruct (match_loop_spec descs2 descs1 0 H2) as (ms & -> & Hg). cbn [mbind outcome_bind].
  destruct (fewer_than_min opt (length ms)) eqn:Ef.
  { exists false, ms. split; [done|]. apply (fewer_iff _ Hmin) in Ef. split_and!.
    - split; [done|lia].
    - apply Hg.
    - intros m Hm. destruct Hg as (Hs & _). destruct (Hs m Hm) as (n & d & j & dj & ? & ? & -> & ?).
      exists n, d, j, dj. done.
    - intros _ i di j Hi Hacc. destruct Hg as (_ & _ & Hc). by eapply Hc.
    - intros i di j dj Hi Hj Ha Hu _ _. by eapply good_unique. }
  destruct (keep_only_symmetric_matches opt) eqn:Ek; cbn [mbind outcome_bind].
  2:{ exists (negb (fewer_than_min opt (length ms))), ms. split; [done|].
      assert (Hnf : ~ (Z.of_nat (length ms) < min_num_feature_matches opt)%Z).
      { rewrite <-(fewer_iff _ Hmin). by rewrite Ef. }
      rewrite Ef. split_and!.
      - split; [lia|done].
      - apply Hg.
      - intros m Hm. destruct Hg as (Hs & _). destruct (Hs m Hm) as (n & d & j & dj & ? & ? & -> & ?).
        exists n, d, j, dj. done.
      - intros _ i di j Hi Hacc. destruct Hg as (_ & _ & Hc). by eapply Hc.
      - intros i di j dj Hi Hj Ha Hu _ _. by eapply good_unique. }
  destruct (match_loop_spec descs1 descs2 0 H1) as (rv & -> & Hrv). cbn [mbind outcome_bind].
  rewrite intersect_lemma.
  2:{ destruct Hrv as (_ & Hsorted & _). clear -Hsorted.
      induction Hsorted as [|z l _ IH Hz]; constructor; [|done]. rewrite Forall_forall in Hz. intros Hin.
      apply Hz in Hin. lia. }
  2:{ destruct Hg as (Hs & _). intros m Hm. destruct (Hs m Hm) as (? & ? & ? & ? & _ & _ & -> & _). simpl. lia. }
  cbn [mbind outcome_bind].
  set (ms' := filter _ ms). exists (negb (fewer_than_min opt (length ms'))), ms'. split; [done|]. split_and!.
  - rewrite negb_true_iff. rewrite <-not_true_iff_false, (fewer_iff _ Hmin). lia.
  - destruct Hg as (_ & Hsorted & _). unfold ms'. clear -Hsorted.
    induction ms as [|m l IH]; [constructor|]. rewrite fmap_cons in Hsorted.
    apply StronglySorted_inv in Hsorted as [Hsorted Hall]. specialize (IH Hsorted).
    rewrite filter_cons. destruct (decide _); [|done]. rewrite fmap_cons. constructor; [done|].
    apply Forall_forall. intros z (m' & -> & Hm')%elem_of_list_fmap. apply elem_of_list_filter in Hm' as [_ Hm'].
    rewrite Forall_forall in Hall. apply Hall. by apply elem_of_list_fmap_1.
  - intros m [Hex Hm]%elem_of_list_filter. destruct Hg as (Hs & _).
    destruct (Hs m Hm) as (i & di & j & dj & Hi & Hj & -> & Hacc). exists i, di, j, dj.
    split_and!; try done. intros _ _. apply Exists_exists in Hex as (b & Hb & E1 & E2).
    destruct Hrv as (Hr & _). destruct (Hr b Hb) as (n & d & k & dk & Hn & Hk & -> & Hacc'). simpl in *.
    assert (n = j) as -> by lia. assert (k = i) as -> by lia. by assert (d = dj) as -> by congruence.
  - done.
  - intros i di j dj Hi Hj Ha Hu Ha' Hu'. apply elem_of_list_filter. split; [|by eapply good_unique].
    apply Exists_exists. exists (FMatch (Z.of_nat j) (Z.of_nat i) (dist dj di)).
    split; [by eapply good_unique|]. done.
Qed.

End brute.

(** ** An instance of std::partial_sort, for examples: sorting *)

Definition fle (a b : fmatch Z) : Prop := (fdist a <= fdist b)%Z.
Global Instance fle_dec : RelDecision fle.
Proof. intros a b. unfold fle. apply _. Defined.
Global Instance fle_total : Total fle.
Proof. intros a b. unfold fle. lia. Qed.
Global Instance fle_trans : Transitive fle.
Proof. intros a b c. unfold fle. lia. Qed.

Definition sort_all : partial_sort Z.ltb.
Proof.
  refine (PartialSort Z.ltb (merge_sort fle) (merge_sort_Permutation fle) _).
  intros l a b rest E.
  pose proof (StronglySorted_merge_sort fle l) as Hs. rewrite E in Hs.
  apply StronglySorted_inv in Hs as [Hs Ha]. apply StronglySorted_inv in Hs as [_ Hb].
  apply Forall_cons in Ha as [Ha _]. unfold fle in *. split; [apply Z.ltb_ge; lia|].
  eapply Forall_impl; [exact Hb|]. intros x Hx. apply Z.ltb_ge. exact Hx.
Defined.
