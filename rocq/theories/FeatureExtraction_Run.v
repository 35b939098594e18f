(** Feature extraction under every schedule of its tasks. *)
From stdpp Require Import gmap strings.
From Coq Require Import Reals QArith_base Qcanon.
From Verif Require Import Base Priors_Model FeatureDb_Model FeatureMatcher_Model FeatureMatcher_Proofs FeatureExtraction_Model FeatureExtraction_Spec
  FeatureExtraction_Tasks.

Lemma mjoin_insert {A B} (f : A -> list B) (l : list A) i x y t : l !! i = Some x -> f y = f x ++ t ->
  mjoin (f <$> <[i := y]> l) ≡ₚ mjoin (f <$> l) ++ t.
Proof.
  revert i. induction l as [|z l IH]; intros i Hi Hf; [discriminate|].
  destruct i as [|i]; cbn in *.
  - injection Hi as ->. rewrite Hf. rewrite <- !app_assoc. apply Permutation_app_head, Permutation_app_comm.
  - rewrite (IH i Hi Hf). rewrite app_assoc. reflexivity.
Qed.
Lemma sum_insert {A} (f : A -> nat) (l : list A) i x y : l !! i = Some x -> (f y < f x)%nat ->
  (sum_list (f <$> <[i := y]> l) < sum_list (f <$> l))%nat.
Proof.
  revert i. induction l as [|z l IH]; intros i Hi Hf; [discriminate|].
  destruct i as [|i].
  - injection Hi as ->. cbn. lia.
  - pose proof (IH i Hi Hf) as H. change (<[S i := y]> (z :: l)) with (z :: <[i := y]> l). rewrite !fmap_cons. cbn [sum_list]. lia.
Qed.
Lemma active_insert {A} (P : A -> Prop) `{forall x, Decision (P x)} (l : list A) i x y : l !! i = Some x ->
  (P x -> length (filter P (<[i := y]> l)) <= length (filter P l))%nat /\
  (length (filter P (<[i := y]> l)) <= S (length (filter P l)))%nat /\
  (~ P y -> length (filter P (<[i := y]> l)) <= length (filter P l))%nat.
Proof.
  revert i. induction l as [|z l IH]; intros i Hi; [discriminate|].
  destruct i as [|i].
  - injection Hi as ->. cbn [insert list_insert]. rewrite !filter_cons. destruct (decide (P x)), (decide (P y)); cbn [length]; repeat split; intros; try lia; contradiction.
  - cbn in Hi. destruct (IH i Hi) as (H1 & H2 & H3). change (<[S i := y]> (z :: l)) with (z :: <[i := y]> l).
    rewrite !filter_cons. destruct (decide (P z)); cbn [length]; repeat split; intros; try specialize (H1 ltac:(assumption)); try specialize (H3 ltac:(assumption)); lia.
Qed.

Section run.
Context {K De M : Type} (ou : outside K De) (opts : fe_options) (masks : gmap string string).
Notation features := (list K * list De)%type.
Notation database := (db prior features M).
Context (paths : list string) (d : database) (HP : provided ou opts masks paths d).

Record state_ok (s : state K De M) : Prop := StateOk {
  so_tasks : fst <$> st_tasks s = images ou paths;
  so_task : forall i p ph n, st_tasks s !! i = Some (p, ph) -> ou_name ou p = Some n -> task_ok ou opts masks d p n ph (st_shared s);
  so_other : forall n, (forall p, p ∈ images ou paths -> ou_name ou p <> Some n) ->
    db_priors (sh_db (st_shared s)) !! n = db_priors d !! n /\ db_features (sh_db (st_shared s)) !! n = db_features d !! n;
  so_matches : db_matches (sh_db (st_shared s)) = db_matches d;
  so_training : sh_training (st_shared s) ≡ₚ mjoin ((fun t => trained ou opts masks d t.1 t.2) <$> st_tasks s);
  so_names : sh_names (st_shared s) ≡ₚ mjoin ((fun t => named ou t.1 t.2) <$> st_tasks s) }.

Lemma first_ok : state_ok (first_state ou paths d []).
Proof.
  unfold first_state. fold (images ou paths). split; cbn [st_tasks st_shared sh_db sh_training sh_names].
  - rewrite <- list_fmap_compose. rewrite <- (list_fmap_id (images ou paths)) at 2. apply list_fmap_ext. reflexivity.
  - intros i p ph n Hi Hn. rewrite list_lookup_fmap in Hi. destruct (images ou paths !! i); [|discriminate].
    injection Hi as <- <-. cbn. auto.
  - auto.
  - reflexivity.
  - induction (images ou paths) as [|p l IH]; [reflexivity|]. cbn. unfold trained at 1. destruct (ou_name ou p); exact IH.
  - induction (images ou paths) as [|p l IH]; [reflexivity|]. cbn. unfold named at 1. destruct (ou_name ou p); exact IH.
Qed.

Lemma task_image s i p ph : state_ok s -> st_tasks s !! i = Some (p, ph) -> images ou paths !! i = Some p.
Proof. intros Hs Hi. rewrite <- (so_tasks s Hs), list_lookup_fmap, Hi. reflexivity. Qed.

Lemma extract_ok p : p ∈ images ou paths -> extract_features ou opts p (default "" (masks !! p)) = Ok (image_features ou opts masks p).
Proof.
  intros Hp. destruct (pv_detect _ _ _ _ _ HP p Hp) as [H1 H2].
  apply extract_features_ok; [exact H1|exact H2|intros mask; apply (pv_masks _ _ _ _ _ HP)|apply (pv_limit _ _ _ _ _ HP)].
Qed.

(** A step of a task that may run. *)
Lemma task_runs s i p ph : state_ok s -> st_tasks s !! i = Some (p, ph) ->
  exists ph' sh, task_step ou opts masks p ph (st_shared s) = Ok (ph', sh) /\
    state_ok (State (<[i := (p, ph')]> (st_tasks s)) sh) /\ (rank ph' < rank ph \/ (rank ph' = 0 /\ rank ph = 0))%nat /\ is_waiting ph' = false.
Proof.
  intros Hs Hi. pose proof (task_image s i p ph Hs Hi) as Hpi.
  assert (Hp : p ∈ images ou paths) by (eapply elem_of_list_lookup_2; exact Hpi).
  destruct (pv_names _ _ _ _ _ HP p Hp) as [n Hn].
  destruct (task_step_ok ou opts masks d p n ph (st_shared s) Hn (extract_ok p Hp) (pv_stored _ _ _ _ _ HP) (so_task s Hs i p ph n Hi Hn))
    as (ph' & sh & E & Hok & Hoth & Hm & (t & Ht1 & Ht2) & (u & Hu1 & Hu2) & Hr & Hw).
  exists ph', sh. split; [exact E|]. split; [|split; assumption].
  split; cbn [st_tasks st_shared].
  - rewrite list_fmap_insert, (so_tasks s Hs). cbn [fst]. apply list_insert_id. exact Hpi.
  - intros j q phq m Hj Hq.
    destruct (decide (j = i)) as [->|Hji].
    + rewrite list_lookup_insert in Hj by (eapply lookup_lt_Some; exact Hi). injection Hj as <- <-.
      rewrite Hn in Hq. injection Hq as <-. exact Hok.
    + rewrite list_lookup_insert_ne in Hj by congruence.
      assert (Hmn : m <> n).
      { intros ->. apply Hji. apply (pv_distinct _ _ _ _ _ HP j i q p (task_image s j q phq Hs Hj) Hpi). rewrite Hq, Hn. reflexivity. }
      destruct (Hoth m Hmn) as [O1 O2]. pose proof (so_task s Hs j q phq m Hj Hq) as T.
      clear -T O1 O2. destruct phq; cbn [task_ok] in *; rewrite ?O1, ?O2; exact T.
  - intros m Hm'. assert (m <> n) as Hne by (intros ->; exact (Hm' p Hp Hn)).
    destruct (Hoth m Hne) as [-> ->]. exact (so_other s Hs m Hm').
  - rewrite Hm. exact (so_matches s Hs).
  - rewrite Ht2, (so_training s Hs). symmetry. eapply (mjoin_insert (fun t => trained ou opts masks d t.1 t.2)); [exact Hi|exact Ht1].
  - rewrite Hu2, (so_names s Hs). symmetry. eapply (mjoin_insert (fun t => named ou t.1 t.2)); [exact Hi|exact Hu1].
Qed.

Lemma step_ok threads s i : state_ok s -> exists s', step ou opts masks threads s i = Ok s' /\ state_ok s'.
Proof.
  intros Hs. unfold step. destruct (st_tasks s !! i) as [[p ph]|] eqn:Hi; [|eauto].
  destruct (is_waiting ph && (threads <=? active s)%nat); [eauto|].
  destruct (task_runs s i p ph Hs Hi) as (ph' & sh & E & Hok & _). rewrite E. cbn [mbind outcome_bind]. eauto.
Qed.
Lemma run_ok threads sched s : state_ok s -> exists s', run_steps (step ou opts masks threads) s sched = Ok s' /\ state_ok s'.
Proof.
  revert s. induction sched as [|i sched IH]; intros s Hs; cbn [run_steps]; [eauto|].
  destruct (step_ok threads s i Hs) as (s' & E & Hs'). rewrite E. cbn [mbind outcome_bind]. exact (IH s' Hs').
Qed.

(** While a task has not returned, some task can make a step. *)
Definition left_over (s : state K De M) : nat := sum_list ((fun t : string * phase K De => rank t.2) <$> st_tasks s).
Lemma step_progress threads s : (1 <= threads)%nat -> state_ok s -> finished s = false ->
  exists i s', step ou opts masks threads s i = Ok s' /\ state_ok s' /\ (left_over s' < left_over s)%nat.
Proof.
  intros Hth Hs Hf.
  assert (exists i p ph, st_tasks s !! i = Some (p, ph) /\ (rank ph <> 0)%nat /\ is_waiting ph && (threads <=? active s)%nat = false)
    as (i & p & ph & Hi & Hr & Hw).
  { destruct (decide (active s = 0%nat)) as [Ha|Ha].
    - unfold finished in Hf.
      assert (exists t, t ∈ st_tasks s /\ (rank t.2 <> 0)%nat) as ([p ph] & Ht & Hr).
      { clear -Hf. induction (st_tasks s) as [|[p ph] l IH]; [discriminate|]. cbn in Hf.
        destruct ph; try (eexists; split; [left|cbn; lia]).
        destruct (IH Hf) as (t & H1 & H2). exists t. split; [right; exact H1|exact H2]. }
      apply elem_of_list_lookup_1 in Ht as [i Hi]. exists i, p, ph. split; [exact Hi|]. split; [exact Hr|].
      rewrite Ha. apply andb_false_iff. right. apply Nat.leb_gt. lia.
    - unfold active in Ha.
      destruct (filter (fun t : string * phase K De => is_active t.2 = true) (st_tasks s)) as [|[p ph] l] eqn:E; [cbn in Ha; lia|].
      assert (Ht : (p, ph) ∈ filter (fun t : string * phase K De => is_active t.2 = true) (st_tasks s)) by (rewrite E; left).
      apply elem_of_list_filter in Ht as [H1 H2]. apply elem_of_list_lookup_1 in H2 as [i Hi].
      exists i, p, ph. split; [exact Hi|]. clear -H1. destruct ph; cbn in *; try discriminate; split; lia || reflexivity. }
  destruct (task_runs s i p ph Hs Hi) as (ph' & sh & E & Hok & Hrk & _).
  exists i, (State (<[i := (p, ph')]> (st_tasks s)) sh). split; [|split; [exact Hok|]].
  - unfold step. rewrite Hi, Hw, E. reflexivity.
  - unfold left_over. cbn [st_tasks]. eapply (sum_insert (fun t : string * phase K De => rank t.2)); [exact Hi|]. cbn [snd]. lia.
Qed.
Lemma can_finish threads s : (1 <= threads)%nat -> state_ok s ->
  exists sched s', run_steps (step ou opts masks threads) s sched = Ok s' /\ finished s' = true.
Proof.
  intros Hth. remember (left_over s) as m eqn:Em. revert s Em. induction m as [m IH] using lt_wf_ind. intros s -> Hs.
  destruct (finished s) eqn:Hf; [exists [], s; auto|].
  destruct (step_progress threads s Hth Hs Hf) as (i & s1 & E & Hs1 & Hlt).
  destruct (IH _ Hlt s1 eq_refl Hs1) as (sched & s' & E' & Hf').
  exists (i :: sched), s'. cbn [run_steps]. rewrite E. cbn [mbind outcome_bind]. auto.
Qed.

Lemma finished_phase (s : state K De M) t : finished s = true -> t ∈ st_tasks s -> exists b, t.2 = Returned b.
Proof.
  unfold finished. rewrite forallb_forall. intros H Ht. specialize (H t ltac:(apply elem_of_list_In; exact Ht)). destruct (t.2); try discriminate. eauto.
Qed.

Lemma finished_extracted s : state_ok s -> finished s = true -> extracted ou opts masks paths d (st_shared s).
Proof.
  intros Hs Hf.
  assert (HT : forall i p ph n, st_tasks s !! i = Some (p, ph) -> ou_name ou p = Some n -> ph = Returned (goes_on ou opts masks d p n) /\
    db_priors (sh_db (st_shared s)) !! n = prior_then ou opts d p n /\ db_features (sh_db (st_shared s)) !! n = features_then ou opts masks d p n).
  { intros i p ph n Hi Hn. pose proof (so_task s Hs i p ph n Hi Hn) as T.
    destruct (finished_phase s (p, ph) Hf ltac:(eapply elem_of_list_lookup_2; exact Hi)) as [b Hb]. cbn in Hb. subst ph.
    destruct T as (-> & T1 & T2). auto. }
  assert (HI : forall p, p ∈ images ou paths -> exists i ph, st_tasks s !! i = Some (p, ph)).
  { intros p Hp. rewrite <- (so_tasks s Hs) in Hp. apply elem_of_list_fmap in Hp as ([q ph] & -> & Hp). apply elem_of_list_lookup_1 in Hp as [i Hi]. eauto. }
  assert (HN : forall n, n ∈ sh_names (st_shared s) <-> exists p, p ∈ images ou paths /\ ou_name ou p = Some n /\ goes_on ou opts masks d p n = true).
  { intros n. rewrite (so_names s Hs), elem_of_list_join. split.
    - intros (l & Hn & Hl). apply elem_of_list_fmap in Hl as ([p ph] & -> & Hl). cbn [fst snd] in Hn.
      apply elem_of_list_lookup_1 in Hl as [i Hi]. unfold named in Hn.
      destruct (ou_name ou p) as [m|] eqn:Em; [|inversion Hn].
      destruct (HT i p ph m Hi Em) as (-> & _).
      destruct (goes_on ou opts masks d p m) eqn:Eg; [|inversion Hn].
      apply elem_of_list_singleton in Hn as ->.
      exists p. split; [eapply elem_of_list_lookup_2; exact (task_image s i _ _ Hs Hi)|]. auto.
    - intros (p & Hp & Hn & Hg). destruct (HI p Hp) as (i & ph & Hi). destruct (HT i p ph n Hi Hn) as (-> & _). rewrite Hg in Hi.
      exists [n]. split; [left|]. apply elem_of_list_fmap. exists (p, Returned true). split; [unfold named; cbn; rewrite Hn; reflexivity|].
      eapply elem_of_list_lookup_2; exact Hi. }
  split.
  - intros p n Hp Hn. destruct (HI p Hp) as (i & ph & Hi). destruct (HT i p ph n Hi Hn) as (_ & H). exact H.
  - exact (so_other s Hs).
  - exact (so_matches s Hs).
  - rewrite (so_names s Hs).
    assert (HD : forall i j p q n, (fst <$> st_tasks s) !! i = Some p -> (fst <$> st_tasks s) !! j = Some q -> ou_name ou p = Some n -> ou_name ou q = Some n -> i = j).
    { intros i j p q n. rewrite (so_tasks s Hs). intros Hi Hj H1 H2. apply (pv_distinct _ _ _ _ _ HP i j p q Hi Hj). rewrite H1, H2. reflexivity. }
    clear -HD. induction (st_tasks s) as [|[p ph] l IH]; [constructor|]. cbn.
    apply NoDup_app. split; [|split].
    + unfold named. destruct (ou_name ou p); [|constructor]. destruct ph as [| | | | | | |[]]; try constructor; try constructor; inversion 1.
    + intros n Hn Hn'. unfold named in Hn. destruct (ou_name ou p) as [m|] eqn:Em; [|inversion Hn].
      destruct ph as [| | | | | | |[]]; try (inversion Hn; fail). apply elem_of_list_singleton in Hn as ->.
      apply elem_of_list_join in Hn' as (l' & Hn & Hl). apply elem_of_list_fmap in Hl as ([q phq] & -> & Hl). cbn [fst snd] in Hn.
      apply elem_of_list_lookup_1 in Hl as [j Hj]. unfold named in Hn.
      destruct (ou_name ou q) as [m'|] eqn:Eq; [|inversion Hn]. destruct phq as [| | | | | | |[]]; try (inversion Hn; fail).
      apply elem_of_list_singleton in Hn as ->.
      assert (Hjq : (fst <$> (p, Returned true) :: l) !! S j = Some q) by (rewrite list_lookup_fmap; change (((p, Returned true) :: l) !! S j) with (l !! j); rewrite Hj; reflexivity).
      specialize (HD 0%nat (S j) p q m' eq_refl Hjq Em Eq). discriminate.
    + apply IH. intros i j q q' n Hi Hj H1 H2. specialize (HD (S i) (S j) q q' n Hi Hj H1 H2). lia.
  - exact HN.
  - rewrite (so_training s Hs), <- (so_tasks s Hs), <- list_fmap_compose.
    assert (HT' : forall p ph n, (p, ph) ∈ st_tasks s -> ou_name ou p = Some n -> ph = Returned (goes_on ou opts masks d p n)).
    { intros p ph n H Hn. apply elem_of_list_lookup_1 in H as [i Hi]. exact (proj1 (HT i p ph n Hi Hn)). }
    clear -HT'. induction (st_tasks s) as [|[p ph] l IH]; [destruct (fo_global opts); reflexivity|].
    specialize (IH ltac:(intros q phq n Hq; apply HT'; right; exact Hq)).
    cbn. unfold trained at 1. cbn [fst snd].
    destruct (ou_name ou p) as [n|] eqn:En.
    + rewrite (HT' p ph n ltac:(left) En). cbn.
      destruct (goes_on ou opts masks d p n); destruct (fo_global opts); rewrite IH; reflexivity.
    + destruct (fo_global opts); exact IH.
Qed.

Lemma extract_all_ok sched : (1 <= fo_threads opts)%Z -> (1 <= length paths)%nat -> (Z.of_nat (length paths) < 2 ^ 31)%Z ->
  (extract_all ou opts masks paths sched d [] = Hang \/
   exists s, extract_all ou opts masks paths sched d [] = Ok s /\ extracted ou opts masks paths d s) /\
  exists sched' s, extract_all ou opts masks paths (sched ++ sched') d [] = Ok s.
Proof.
  intros H1 H2 H3. unfold extract_all. rewrite to_int_small by lia.
  rewrite bool_decide_eq_true_2 by lia. cbn [check mbind outcome_bind].
  set (th := Z.to_nat (Z.min (fo_threads opts) (Z.of_nat (length paths)))).
  destruct (run_ok th sched _ first_ok) as (s & E & Hs). split.
  - rewrite E. cbn [mbind outcome_bind]. destruct (finished s) eqn:Hf; [right|left; reflexivity].
    exists (st_shared s). split; [reflexivity|]. exact (finished_extracted s Hs Hf).
  - destruct (can_finish th s ltac:(subst th; lia) Hs) as (sched' & s' & E' & Hf).
    exists sched', (st_shared s'). rewrite run_steps_app, E. cbn [mbind outcome_bind]. rewrite E'. cbn [mbind outcome_bind]. rewrite Hf. reflexivity.
Qed.

(** No more tasks than threads are active. *)
Lemma step_active threads (s : state K De M) i s' : (active s <= threads)%nat -> step ou opts masks threads s i = Ok s' -> (active s' <= threads)%nat.
Proof.
  intros Ha. unfold step. destruct (st_tasks s !! i) as [[p ph]|] eqn:Hi; [|intros [= <-]; exact Ha].
  destruct (is_waiting ph && (threads <=? active s)%nat) eqn:Ew; [intros [= <-]; exact Ha|].
  destruct (task_step ou opts masks p ph (st_shared s)) as [[ph' sh]| | |] eqn:E; try discriminate. cbn [mbind outcome_bind]. intros [= <-].
  unfold active in *. cbn [st_tasks].
  destruct (active_insert (fun t : string * phase K De => is_active t.2 = true) (st_tasks s) i (p, ph) (p, ph') Hi) as (A1 & A2 & A3).
  cbn [snd] in *. destruct ph; cbn [is_waiting is_active andb] in *; try (specialize (A1 eq_refl); lia).
  - apply Nat.leb_gt in Ew. lia.
  - unfold task_step in E. destruct (ou_name ou p); [|discriminate]. injection E as <- <-. specialize (A3 ltac:(discriminate)). lia.
Qed.
End run.
