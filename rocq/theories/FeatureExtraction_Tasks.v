(** Feature extraction: the removal of masked features, and what the concurrent tasks keep invariant. *)
From stdpp Require Import gmap strings.
From Coq Require Import Reals QArith_base Qcanon.
From Verif Require Import Base Priors_Model FeatureDb_Model FeatureMatcher_Model FeatureMatcher_Proofs FeatureExtraction_Model FeatureExtraction_Spec.

Section tasks.
Context {K De M : Type} (ou : outside K De) (opts : fe_options) (masks : gmap string string).
Notation features := (list K * list De)%type.
Notation database := (db prior features M).

Definition white (mask : string) (kd : K * De) : Prop := (Q2Qc (1 # 2) <= ou_mask ou mask kd.1)%Qc.
Local Instance white_dec mask kd : Decision (white mask kd).
Proof. unfold white. apply _. Defined.

Lemma mask_loop mask (l1 l2 : list (K * De)) :
  run_steps (mask_step ou mask) (fst <$> l1 ++ l2, snd <$> l1 ++ l2) (reverse (seq 0 (length l1))) =
  Ok (fst <$> filter (white mask) l1 ++ l2, snd <$> filter (white mask) l1 ++ l2).
Proof.
  revert l2. induction l1 as [|x l1 IH] using rev_ind; intros l2; [reflexivity|].
  rewrite app_length. cbn [length]. rewrite Nat.add_1_r, seq_S, reverse_app, reverse_singleton. cbn [app run_steps].
  unfold mask_step at 2. cbn [fst snd]. rewrite <- !app_assoc. cbn [app].
  rewrite !fmap_app, !fmap_cons. cbn [Nat.add].
  assert (E1 : ((fst <$> l1) ++ x.1 :: (fst <$> l2)) !! length l1 = Some x.1)
    by (apply list_lookup_middle; rewrite fmap_length; reflexivity).
  assert (E2 : ((snd <$> l1) ++ x.2 :: (snd <$> l2)) !! length l1 = Some x.2)
    by (apply list_lookup_middle; rewrite fmap_length; reflexivity).
  rewrite filter_app.
  rewrite E1. cbn [or_die mbind outcome_bind].
  destruct (decide (ou_mask ou mask x.1 < Q2Qc (1 # 2))%Qc) as [Hd|Hd].
  - rewrite E2. cbn [or_ub mbind outcome_bind].
    assert (E3 : delete (length l1) ((fst <$> l1) ++ x.1 :: (fst <$> l2)) = fst <$> l1 ++ l2)
      by (rewrite fmap_app, <- (fmap_length fst l1); apply delete_middle).
    assert (E4 : delete (length l1) ((snd <$> l1) ++ x.2 :: (snd <$> l2)) = snd <$> l1 ++ l2)
      by (rewrite fmap_app, <- (fmap_length snd l1); apply delete_middle).
    rewrite E3, E4, IH.
    rewrite (filter_cons_False _ x []) by (unfold white; apply Qclt_not_le; exact Hd). rewrite filter_nil, app_nil_r, !fmap_app. reflexivity.
  - cbn [mbind outcome_bind]. pose proof (IH (x :: l2)) as IH'. rewrite !fmap_app, !fmap_cons in IH'. rewrite IH'.
    rewrite (filter_cons_True _ x []) by (unfold white; apply Qcnot_lt_le; exact Hd). rewrite filter_nil, !fmap_app, <- !app_assoc. reflexivity.
Qed.

Lemma zip_parts (f : features) : length f.1 = length f.2 -> f = (fst <$> zip f.1 f.2, snd <$> zip f.1 f.2).
Proof. intros H. destruct f as [a b]. cbn [fst snd] in *. rewrite fst_zip, snd_zip by lia. reflexivity. Qed.

Lemma filter_all {A} (P : A -> Prop) `{forall x, Decision (P x)} (l : list A) : (forall x, P x) -> filter P l = l.
Proof. intros HP. induction l as [|x l IH]; [reflexivity|]. rewrite filter_cons_True by apply HP. f_equal. exact IH. Qed.

Lemma extract_features_ok path :
  length (ou_detect ou path).2.1 = length (ou_detect ou path).2.2 -> (Z.of_nat (length (ou_detect ou path).2.1) < 2 ^ 63)%Z ->
  (forall mask, masks !! path = Some mask -> mask <> "" -> ou_mask_fits ou path mask = true) ->
  (- 2 ^ 31 <= fo_max_features opts < 2 ^ 31)%Z ->
  extract_features ou opts path (default "" (masks !! path)) = Ok (image_features ou opts masks path).
Proof.
  intros Hl H63 Hm Hopt. unfold extract_features, image_features.
  destruct (ou_detect ou path) as [ok f]. cbn [fst snd] in *.
  destruct ok; cbn [negb]; [|reflexivity].
  set (l := filter (fun kd : K * De => in_white ou masks path kd.1) (zip f.1 f.2)).
  assert (E : (if decide (default "" (masks !! path) = "") then Ok f
     else _ ← check (ou_mask_fits ou path (default "" (masks !! path)));
          run_steps (mask_step ou (default "" (masks !! path))) f (reverse (seq 0 (length f.1)))) = Ok (fst <$> l, snd <$> l)).
  { destruct (masks !! path) as [mask|] eqn:Em.
    - change (default "" (Some mask)) with mask. destruct (decide (mask = "")) as [->|Hne].
      + unfold l. rewrite filter_all; [rewrite <- (zip_parts f Hl); reflexivity|].
        intros [k d]. unfold in_white. rewrite Em. intros H; destruct (H eq_refl).
      + rewrite (Hm mask eq_refl Hne). cbn [check mbind outcome_bind].
        pose proof (mask_loop mask (zip f.1 f.2) []) as L. rewrite !app_nil_r, <- (zip_parts f Hl) in L.
        replace (length f.1) with (length (zip f.1 f.2)) by (rewrite zip_with_length; lia).
        rewrite L. f_equal.
        replace l with (filter (white mask) (zip f.1 f.2)); [reflexivity|].
        apply list_filter_iff. intros [k d]. unfold white, in_white. rewrite Em. cbn [fst]. clear -Hne. tauto.
    - change (default "" None) with "". destruct (decide ("" = "")) as [_|H]; [|destruct (H eq_refl)].
      unfold l. rewrite filter_all; [rewrite <- (zip_parts f Hl); reflexivity|].
      intros [k d]. unfold in_white. rewrite Em. exact I. }
  rewrite E. cbn [mbind outcome_bind fst snd]. rewrite fmap_length.
  assert (Hll : (length l <= length f.1)%nat).
  { unfold l. etransitivity; [apply filter_length|]. rewrite zip_with_length. lia. }
  destruct (decide (0 <= fo_max_features opts)%Z) as [H0|H0].
  - rewrite Z.mod_small by lia.
    destruct (decide (fo_max_features opts < Z.of_nat (length l))%Z) as [H1|H1].
    + rewrite !firstn_map. reflexivity.
    + rewrite take_ge by lia. reflexivity.
  - rewrite decide_False; [reflexivity|].
    rewrite <- (Z_mod_plus_full _ 1), Z.mod_small by lia. lia.
Qed.

(** * One task *)
Context (d : database).

Definition done_phase (p n : string) (ph : phase K De) : bool := match ph with Returned b => b | _ => false end.
(** What a task at phase [ph] knows about the entries of its image. *)
Definition task_ok (p n : string) (ph : phase K De) (s : shared K De M) : Prop :=
  let pr := db_priors (sh_db s) !! n in
  let fe := db_features (sh_db s) !! n in
  match ph with
  | Waiting | ReadPrior => pr = db_priors d !! n /\ fe = db_features d !! n
  | StorePrior q => q = default no_prior (db_priors d !! n) /\ pr = db_priors d !! n /\ fe = db_features d !! n
  | LookFeatures => exists e, image_prior ou opts p (db_priors d !! n) = Some e /\ pr = Some e /\ fe = db_features d !! n
  | StoreFeatures f => exists e, image_prior ou opts p (db_priors d !! n) = Some e /\ pr = Some e /\ fe = db_features d !! n /\
      db_features d !! n = None /\ f = image_features ou opts masks p /\ length f.2 <> 0%nat
  | Train | AddName => goes_on ou opts masks d p n = true /\ pr = prior_then ou opts d p n /\ fe = features_then ou opts masks d p n
  | Returned b => b = goes_on ou opts masks d p n /\ pr = prior_then ou opts d p n /\ fe = features_then ou opts masks d p n
  end.

(** What a task has added to the training features and to the names. *)
Definition trained (p : string) (ph : phase K De) : list De :=
  match ou_name ou p with
  | None => []
  | Some n =>
      match ph with
      | AddName | Returned true =>
          if fo_global opts then match features_then ou opts masks d p n with Some f => f.2 | None => [] end else []
      | _ => []
      end
  end.
Definition named (p : string) (ph : phase K De) : list string :=
  match ou_name ou p, ph with Some n, Returned true => [n] | _, _ => [] end.
Definition rank (ph : phase K De) : nat :=
  match ph with Waiting => 7 | ReadPrior => 6 | StorePrior _ => 5 | LookFeatures => 4 | StoreFeatures _ => 3 | Train => 2 | AddName => 1 | Returned _ => 0 end.

Lemma complete_prior_some given p e : image_prior ou opts p given = Some e ->
  complete_prior (fo_only_calibrated opts) (ou_exif ou p) (default no_prior given) = e /\ has_focal e = true.
Proof.
  unfold image_prior, complete_prior, has_focal, read_exif, with_focal. set (q := default no_prior given).
  destruct (p_focal q) as [f|] eqn:E1; [intros [= <-]; rewrite E1; auto|].
  destruct (ex_focal (ou_exif ou p)) as [f|] eqn:E2.
  - intros [= <-]. cbn. rewrite andb_false_r. auto.
  - destruct (fo_only_calibrated opts); [discriminate|]. intros [= <-]. cbn. auto.
Qed.
Lemma complete_prior_none given p : image_prior ou opts p given = None ->
  fo_only_calibrated opts = true /\ has_focal (complete_prior (fo_only_calibrated opts) (ou_exif ou p) (default no_prior given)) = false.
Proof.
  unfold image_prior, complete_prior, has_focal, read_exif, with_focal. set (q := default no_prior given).
  destruct (p_focal q) as [f|] eqn:E1; [discriminate|].
  destruct (ex_focal (ou_exif ou p)) as [f|] eqn:E2; [discriminate|].
  destruct (fo_only_calibrated opts); [|discriminate]. intros _. cbn. auto.
Qed.

Lemma task_step_ok p n ph s :
  ou_name ou p = Some n ->
  extract_features ou opts p (default "" (masks !! p)) = Ok (image_features ou opts masks p) ->
  (fo_global opts = true -> forall n f, db_features d !! n = Some f -> length f.2 <> 0%nat) ->
  task_ok p n ph s ->
  exists ph' s', task_step ou opts masks p ph s = Ok (ph', s') /\ task_ok p n ph' s' /\
    (forall n', n' <> n -> db_priors (sh_db s') !! n' = db_priors (sh_db s) !! n' /\ db_features (sh_db s') !! n' = db_features (sh_db s) !! n') /\
    db_matches (sh_db s') = db_matches (sh_db s) /\
    (exists t, trained p ph' = trained p ph ++ t /\ sh_training s' = sh_training s ++ t) /\
    (exists t, named p ph' = named p ph ++ t /\ sh_names s' = sh_names s ++ t) /\
    (rank ph' < rank ph \/ (rank ph' = 0 /\ rank ph = 0))%nat /\ is_waiting ph' = false.
Proof.
  intros Hn Hx Hst Hok. unfold task_step. rewrite Hn. cbn [or_die mbind outcome_bind].
  unfold trained, named. rewrite Hn.
  destruct ph as [| |q| |f| | |b]; cbn [task_ok] in Hok.
  - exists ReadPrior, s. repeat split; try exact (proj1 Hok); try exact (proj2 Hok); try (exists []; rewrite ?app_nil_r; split; reflexivity).
    left. cbn. lia.
  - destruct Hok as [H1 H2]. exists (StorePrior (default no_prior (db_priors (sh_db s) !! n))), s.
    repeat split; try (rewrite H1; reflexivity); try exact H1; try exact H2; try (exists []; rewrite ?app_nil_r; split; reflexivity).
    left. cbn. lia.
  - destruct Hok as (-> & H1 & H2).
    destruct (image_prior ou opts p (db_priors d !! n)) as [e|] eqn:Ee.
    + destruct (complete_prior_some _ _ _ Ee) as [-> Hf]. rewrite Hf, andb_false_r.
      eexists LookFeatures, _. split; [reflexivity|]. cbn [task_ok sh_db sh_training sh_names put_prior db_priors db_features db_matches].
      split; [exists e; rewrite lookup_insert; auto|].
      split; [intros n' Hne; rewrite lookup_insert_ne by congruence; auto|].
      split; [reflexivity|]. split; [exists []; rewrite !app_nil_r; auto|]. split; [exists []; rewrite !app_nil_r; auto|].
      split; [left; cbn; lia|reflexivity].
    + destruct (complete_prior_none _ _ Ee) as [Ho Hf]. rewrite Hf, Ho. cbn [andb negb].
      exists (Returned false), s. split; [reflexivity|]. cbn [task_ok].
      unfold goes_on, prior_then, features_then. rewrite Ee.
      split; [split; [reflexivity|]; split; [exact H1|]; rewrite H2; destruct (db_features d !! n); reflexivity|].
      repeat split; try (exists []; rewrite ?app_nil_r; split; reflexivity). left. cbn. lia.
  - destruct Hok as (e & Ee & H1 & H2). unfold contains_features.
    destruct (db_features d !! n) as [f|] eqn:Ef.
    + rewrite bool_decide_eq_true_2 by (rewrite H2; eauto).
      exists Train, s. split; [reflexivity|]. cbn [task_ok]. unfold goes_on, prior_then, features_then. rewrite Ee, Ef.
      repeat split; try exact H1; try exact H2; try (exists []; rewrite ?app_nil_r; split; reflexivity). left. cbn. lia.
    + rewrite bool_decide_eq_false_2 by (rewrite H2; intros [? [=]]).
      rewrite Hx. cbn [mbind outcome_bind].
      destruct (decide (length (image_features ou opts masks p).2 = 0%nat)) as [H0|H0].
      * rewrite bool_decide_eq_true_2 by exact H0. exists (Returned false), s. split; [reflexivity|]. cbn [task_ok].
        unfold goes_on, prior_then, features_then. rewrite Ee, Ef.
        rewrite decide_True by exact H0.
        repeat split; try exact H1; try exact H2; try (exists []; rewrite ?app_nil_r; split; reflexivity). left. cbn. lia.
      * rewrite bool_decide_eq_false_2 by exact H0. exists (StoreFeatures (image_features ou opts masks p)), s. split; [reflexivity|]. cbn [task_ok].
        split; [exists e; rewrite Ef; repeat split; auto|].
        repeat split; try (exists []; rewrite ?app_nil_r; split; reflexivity). left. cbn. lia.
  - destruct Hok as (e & Ee & H1 & H2 & Ef & -> & H0).
    eexists Train, _. split; [reflexivity|]. cbn [task_ok sh_db sh_training sh_names put_features db_priors db_features db_matches].
    unfold goes_on, prior_then, features_then. rewrite Ee, Ef, decide_False by exact H0.
    split; [split; [reflexivity|]; split; [exact H1|]; apply lookup_insert|].
    split; [intros n' Hne; rewrite lookup_insert_ne by congruence; auto|].
    split; [reflexivity|]. split; [exists []; rewrite !app_nil_r; auto|]. split; [exists []; rewrite !app_nil_r; auto|].
    split; [left; cbn; lia|reflexivity].
  - destruct Hok as (Hg & H1 & H2).
    destruct (fo_global opts) eqn:Eg.
    + assert (exists f, features_then ou opts masks d p n = Some f /\ length f.2 <> 0%nat) as (f & Ef & H0).
      { clear -Hg Hst. specialize (Hst eq_refl n). unfold goes_on in Hg. unfold features_then in *.
        destruct (image_prior ou opts p (db_priors d !! n)) as [e|]; [|discriminate].
        destruct (db_features d !! n) as [f|]; [exists f; auto|].
        destruct (decide (length (image_features ou opts masks p).2 = 0%nat)); [discriminate|]. eauto. }
      unfold get_features. rewrite H2, Ef. cbn [or_die mbind outcome_bind].
      rewrite bool_decide_eq_true_2 by exact H0. cbn [check mbind outcome_bind].
      eexists AddName, _. split; [reflexivity|]. cbn [task_ok sh_db sh_training sh_names].
      split; [auto|]. split; [auto|]. split; [reflexivity|]. split; [exists f.2; auto|].
      split; [exists []; rewrite !app_nil_r; auto|]. split; [left; cbn; lia|reflexivity].
    + exists AddName, s. split; [reflexivity|]. cbn [task_ok]. split; [auto|].
      repeat split; try (exists []; rewrite ?app_nil_r; split; reflexivity). left. cbn. lia.
  - destruct Hok as (Hg & H1 & H2).
    eexists (Returned true), _. split; [reflexivity|]. cbn [task_ok sh_db sh_training sh_names]. rewrite Hg.
    split; [auto|]. split; [auto|]. split; [reflexivity|]. split; [exists []; rewrite !app_nil_r; auto|].
    split; [exists [n]; auto|]. split; [left; cbn; lia|reflexivity].
  - exists (Returned b), s. split; [reflexivity|]. cbn [task_ok]. split; [exact Hok|].
    repeat split; try (exists []; rewrite ?app_nil_r; split; reflexivity). right. cbn. lia.
Qed.
End tasks.
