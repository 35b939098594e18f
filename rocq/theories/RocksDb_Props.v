(** Properties of the database of features and matches that is kept in a directory. *)
From Coq Require Import Ascii.
From stdpp Require Import gmap strings.
From Verif Require Import Base RocksDb_Model RocksDb_Spec RocksDb_Proofs.
Local Open Scope string_scope.

(** C146, the part that holds.  Whatever a program does with a database and whenever it is killed, no call
    aborts and none is undefined, and the object is there exactly when the program has constructed it,
    provided that the process does not die, and no creation fails, between the making of a new database and
    the creation of its last column family, or between the two halves of a removal of the matches.
    Missing: those two windows, where it is false (the three theorems below). *)
Theorem rocksdb_usable_partial : forall (P F M B : Type) (cp : codec P B) (cf : codec F B) (cm : codec M B)
    (h : list (event P F M)) (b : bool),
  lifecycle false h = Some b -> well_made false h -> Forall removal_done h ->
  exists w, run cp cf cm h = Ok w /\ (is_Some (w_obj w) <-> b = true).
Proof.
  intros P F M B cp cf cm h b HL HW HR.
  destruct (run_ok cp cf cm h world_new b) as (w & K & A).
  - intros s. exists (contents cp cf cm s []). apply Inv_new.
  - exact HW.
  - exact HR.
  - exact HL.
  - exists w. split; [exact K|]. unfold alive in A. rewrite <- A. symmetry. apply bool_decide_eq_true.
Qed.
Print Assumptions rocksdb_usable_partial.

(** The process dies while it makes a new database, after the first of the three column families.  Every
    later constructor succeeds, and the first match that is written, or the first prior that is asked for, is
    undefined behaviour: opening the directory again never repairs it. *)
Theorem rocksdb_interrupted_constructor_refuted :
  forall (P F M B : Type) (cp : codec P B) (cf : codec F B) (cm : codec M B)
    (lo lo' : order string) (x y x' y' z' : bool) (m : M) (n1 n2 : string),
  exists w, run cp cf cm [Die (Construct lo true x y) 2; Call (Construct lo' x' y' z')] = Ok w /\
    step cp cf cm w (Call (PutMatch n1 n2 m)) = UB /\
    (forall n, contains_prior w n = UB) /\
    (forall f, exists w', step cp cf cm w (Call (PutFeatures n1 f)) = Ok w').
Proof.
  intros P F M B cp cf cm lo lo' x y x' y' z' m n1 n2.
  set (d := <["keypoints_and_descriptors" := []]> {["default" := []]} : gmap string (list (string * B))).
  assert (E1 : run cp cf cm [Die (Construct lo true x y) 2] = Ok (World (Some d) None)) by reflexivity.
  set (w := World (Some d) (Some (foldl attach no_handles (lo' ((map_to_list d).*1))))).
  assert (E2 : step cp cf cm (World (Some d) None) (Call (Construct lo' x' y' z')) = Ok w) by reflexivity.
  exists w. split.
  { change (run cp cf cm [Die (Construct lo true x y) 2; Call (Construct lo' x' y' z')]) with
      (run_steps (step cp cf cm) world_new
         ([Die (Construct lo true x y) 2] ++ [Call (Construct lo' x' y' z')])).
    rewrite run_steps_app.
    change (run_steps (step cp cf cm) world_new [Die (Construct lo true x y) 2]) with
      (run cp cf cm [Die (Construct lo true x y) 2]).
    rewrite E1. cbn [mbind outcome_bind run_steps]. rewrite E2. reflexivity. }
  assert (Hn : forall s, handle s (foldl attach no_handles (lo' ((map_to_list d).*1))) =
    if decide (s = SFeatures) then Some (slot_name s) else None).
  { intros s. rewrite handle_foldl.
    assert (Q : slot_name s ∈ lo' ((map_to_list d).*1) <-> s = SFeatures).
    { rewrite (ord_perm lo'), elem_of_list_fmap. split.
      - intros ([k l] & E & Hk%elem_of_map_to_list). cbn in E. subst k.
        destruct s; [reflexivity|vm_compute in Hk; discriminate..].
      - intros ->. exists ("keypoints_and_descriptors", []). split; [reflexivity|].
        by apply elem_of_map_to_list. }
    destruct (decide (s = SFeatures)) as [->|N].
    - by rewrite decide_True by by apply Q.
    - rewrite decide_False by (by rewrite Q). by destruct s. }
  split; [|split].
  - cbn [step steps]. unfold run_list. cbn [run_steps]. unfold put. cbn [w_disk w_obj w or_ub mbind outcome_bind].
    rewrite Hn. reflexivity.
  - intros n. unfold contains_prior, the_log. cbn [w_disk w_obj w or_ub mbind outcome_bind].
    rewrite Hn. reflexivity.
  - intros f. cbn [step steps]. unfold run_list. cbn [run_steps]. unfold put.
    cbn [w_disk w_obj w or_ub mbind outcome_bind]. rewrite Hn. cbn. eauto.
Qed.
Print Assumptions rocksdb_interrupted_constructor_refuted.

(** The process dies in RemoveAllMatches, between the removal of the column family and its creation: as
    above, for every later object on this directory the matches are undefined behaviour. *)
Theorem rocksdb_interrupted_removal_refuted :
  forall (P F M B : Type) (cp : codec P B) (cf : codec F B) (cm : codec M B)
    (ok : bool) (m : M) (n1 n2 : string),
  let open := Construct ord_id true true true in
  let h := [Call open; Call (PutMatch "a" "b" m); Die (RemoveAllMatches ok) 1; Call open] in
  lifecycle false h = Some true /\
  exists w, run cp cf cm h = Ok w /\
    step cp cf cm w (Call (PutMatch n1 n2 m)) = UB /\
    step cp cf cm w (Call (RemoveAllMatches true)) = UB /\
    get_match cm w n1 n2 = UB.
Proof.
  intros P F M B cp cf cm ok m n1 n2 open h. split; [reflexivity|].
  eexists. split; [vm_compute; reflexivity|]. split; [reflexivity|]. split; reflexivity.
Qed.
Print Assumptions rocksdb_interrupted_removal_refuted.

(** The status of a creation is not looked at: a constructor whose creation of the matches failed returns,
    and so does a removal whose creation failed; the next call that needs the matches is undefined. *)
Theorem rocksdb_creation_failure_refuted :
  forall (P F M B : Type) (cp : codec P B) (cf : codec F B) (cm : codec M B) (m : M) (n1 n2 : string),
  let good := Construct ord_id true true true in
  let bad := Construct ord_id true false true in
  (exists w, run cp cf cm [Call bad] = Ok w /\ step cp cf cm w (Call (PutMatch n1 n2 m)) = UB) /\
  (exists w, run cp cf cm [Call good; Call (RemoveAllMatches false)] = Ok w /\
     step cp cf cm w (Call (PutMatch n1 n2 m)) = UB).
Proof.
  intros P F M B cp cf cm m n1 n2 good bad.
  split; (eexists; split; [vm_compute; reflexivity|reflexivity]).
Qed.
Print Assumptions rocksdb_creation_failure_refuted.

(** C147.  Priors and features outlive the process: after every history (closings, deaths in the middle of
    calls, even of removals of matches, reopenings, compactions) of a database that was made without
    interruption, every Get returns the value that was last written under the name, before or after any
    reopening, and aborts if there is none; the list of names holds exactly the written ones, once each. *)
Theorem rocksdb_last_write : forall (P F M B : Type) (cp : codec P B) (cf : codec F B) (cm : codec M B)
    (h : list (event P F M)) (w : world B),
  well_made false h -> run cp cf cm h = Ok w -> is_Some (w_obj w) ->
  (forall n, get_prior cp w n = or_die (last_prior (reverse h) n)) /\
  (forall n, contains_prior w n = Ok (bool_decide (is_Some (last_prior (reverse h) n)))) /\
  (forall n, get_features cf w n = or_die (last_features (reverse h) n)) /\
  (forall n, contains_features w n = Ok (bool_decide (is_Some (last_features (reverse h) n)))) /\
  (forall o, exists l, prior_names o w = Ok l /\ NoDup l /\
     forall n, n ∈ l <-> is_Some (last_prior (reverse h) n)) /\
  (forall o, exists l, feature_names o w = Ok l /\ NoDup l /\
     forall n, n ∈ l <-> is_Some (last_features (reverse h) n)).
Proof.
  intros P F M B cp cf cm h w HW K Ho.
  destruct (run_St cp cf cm SPriors h w HW ltac:(discriminate) K Ho) as (lp & Ep & Gp).
  destruct (run_St cp cf cm SFeatures h w HW ltac:(discriminate) K Ho) as (lf & Ef & Gf).
  unfold get_prior, contains_prior, get_features, contains_features, prior_names, feature_names.
  rewrite Ep, Ef. cbn [mbind outcome_bind].
  split; [|split; [|split; [|split; [|split]]]].
  - intros n. rewrite Gp, contents_prior. destruct (last_prior (reverse h) n); [|reflexivity].
    cbn. by rewrite dec_enc.
  - intros n. rewrite Gp, contents_prior. f_equal. apply bool_decide_ext. by rewrite fmap_is_Some.
  - intros n. rewrite Gf, contents_features. destruct (last_features (reverse h) n); [|reflexivity].
    cbn. by rewrite dec_enc.
  - intros n. rewrite Gf, contents_features. f_equal. apply bool_decide_ext. by rewrite fmap_is_Some.
  - intros o. eexists. split; [reflexivity|]. split; [apply log_keys_NoDup|]. intros n.
    by rewrite log_keys_elem, Gp, contents_prior, fmap_is_Some.
  - intros o. eexists. split; [reflexivity|]. split; [apply log_keys_NoDup|]. intros n.
    by rewrite log_keys_elem, Gf, contents_features, fmap_is_Some.
Qed.
Print Assumptions rocksdb_last_write.

(** C148, the part that holds: the same for the matches, when no first name of a pair contains a slash and no
    removal was interrupted half way.
    Missing: names with a slash, where it is false (below). *)
Theorem rocksdb_matches_partial : forall (P F M B : Type) (cp : codec P B) (cf : codec F B) (cm : codec M B)
    (h : list (event P F M)) (w : world B),
  well_made false h -> Forall removal_done h -> Forall plain_pairs h ->
  run cp cf cm h = Ok w -> is_Some (w_obj w) ->
  (forall n1 n2, no_slash n1 -> get_match cm w n1 n2 = or_die (last_match (reverse h) n1 n2)) /\
  (forall o, exists l, match_names o w = Ok l /\ NoDup l /\
     forall n1 n2, (n1, n2) ∈ l <-> (no_slash n1 /\ is_Some (last_match (reverse h) n1 n2))).
Proof.
  intros P F M B cp cf cm h w HW HR HP K Ho.
  destruct (run_St cp cf cm SMatches h w HW (fun _ => HR) K Ho) as (l & E & G).
  assert (HP' : Forall plain_pairs (reverse h)) by by apply Forall_reverse.
  unfold get_match, match_names. rewrite E. cbn [mbind outcome_bind]. split.
  - intros n1 n2 H1. rewrite G, contents_match by done. destruct (last_match (reverse h) n1 n2); [|reflexivity].
    cbn. by rewrite dec_enc.
  - intros o. eexists. split; [reflexivity|].
    assert (Q : forall k, k ∈ log_keys o l -> exists n1 n2, no_slash n1 /\ k = compose n1 n2).
    { intros k Hk. apply log_keys_elem in Hk. rewrite G in Hk. by eapply contents_match_keys. }
    split.
    + apply NoDup_fmap_2_strong; [|apply log_keys_NoDup].
      intros k k' (a & b & Ha & ->)%Q (a' & b' & Ha' & ->)%Q. rewrite !decompose_compose by done.
      by intros [= -> ->].
    + intros n1 n2. rewrite elem_of_list_fmap. split.
      * intros (k & Ek & Hk). destruct (Q k Hk) as (a & b & Ha & ->). rewrite decompose_compose in Ek by done.
        injection Ek as -> ->. split; [done|]. apply log_keys_elem in Hk.
        rewrite G, contents_match in Hk by done. by rewrite fmap_is_Some in Hk.
      * intros [H1 H2]. exists (compose n1 n2). split; [by rewrite decompose_compose|].
        apply log_keys_elem. rewrite G, contents_match by done. by rewrite fmap_is_Some.
Qed.
Print Assumptions rocksdb_matches_partial.

(** With slashes two pairs share one entry: the match of ("a", "b/c") replaces that of ("a/b", "c"), and the
    list of names does not contain the pair that was written. *)
Theorem rocksdb_slash_refuted : forall (P F M B : Type) (cp : codec P B) (cf : codec F B) (cm : codec M B)
    (m1 m2 : M),
  let h := [Call (Construct ord_id true true true); Call (PutMatch "a/b" "c" m1);
            Call (PutMatch "a" "b/c" m2)] in
  last_match (reverse h) "a/b" "c" = Some m1 /\
  exists w, run cp cf cm h = Ok w /\ get_match cm w "a/b" "c" = Ok m2 /\
    match_names ord_id w = Ok [("a", "b/c")].
Proof.
  intros P F M B cp cf [e d H] m1 m2 h. split; [reflexivity|].
  eexists. split; [vm_compute; reflexivity|]. split; [|reflexivity].
  unfold get_match, the_log. vm_compute. by rewrite H.
Qed.
Print Assumptions rocksdb_slash_refuted.

(** C149, the part that holds.  The numbers of priors, images and matches are never below the lengths of
    the lists of names, and equal to them directly after a compaction.
    Missing: equality at all times, which is false (below). *)
Theorem rocksdb_counts_partial : forall (P F M B : Type) (cp : codec P B) (cf : codec F B) (cm : codec M B)
    (h : list (event P F M)) (w : world B) (o : order string),
  well_made false h -> Forall removal_done h -> run cp cf cm h = Ok w -> is_Some (w_obj w) ->
  (exists i l, num_images w = Ok i /\ feature_names o w = Ok l /\ length l <= i) /\
  (exists i l, num_priors w = Ok i /\ prior_names o w = Ok l /\ length l <= i) /\
  (exists i l, num_matches w = Ok i /\ match_names o w = Ok l /\ length l <= i) /\
  (forall w', step cp cf cm w (Compact SFeatures) = Ok w' ->
     exists l, feature_names o w' = Ok l /\ num_images w' = Ok (length l)) /\
  (forall w', step cp cf cm w (Compact SPriors) = Ok w' ->
     exists l, prior_names o w' = Ok l /\ num_priors w' = Ok (length l)) /\
  (forall w', step cp cf cm w (Compact SMatches) = Ok w' ->
     exists l, match_names o w' = Ok l /\ num_matches w' = Ok (length l)).
Proof.
  intros P F M B cp cf cm h w o HW HR K Ho.
  destruct (run_St cp cf cm SPriors h w HW (fun _ => HR) K Ho) as (lp & Ep & _).
  destruct (run_St cp cf cm SFeatures h w HW (fun _ => HR) K Ho) as (lf & Ef & _).
  destruct (run_St cp cf cm SMatches h w HW (fun _ => HR) K Ho) as (lm & Em & _).
  assert (C : forall s l w', the_log s w = Ok l -> step cp cf cm w (Compact s) = Ok w' ->
    the_log s w' = Ok (log_compact l)).
  { intros s l w'. unfold the_log. intros (d & Hd%or_ub_Ok & Q)%bind_Ok.
    apply bind_Ok in Q as (hs & Hh%or_ub_Ok & Q). apply bind_Ok in Q as (n & Hn%or_ub_Ok & Q).
    cbn [step]. intros W. injection W as <-. cbn [w_disk w_obj]. rewrite Hd, Hh.
    cbn [fmap option_fmap option_map or_ub mbind outcome_bind]. rewrite Hn. cbn [or_ub mbind outcome_bind].
    assert (N : n = slot_name s).
    { pose proof (run_Inv cp cf cm s h [] world_new w (Inv_new cp cf cm s) HW (fun _ => HR) K) as
        [(_ & X & _)|(N & _)]; [congruence|]. by eapply N. }
    subst n. injection Q as <-. rewrite lookup_alter. by destruct (d !! slot_name s). }
  unfold num_images, num_priors, num_matches, feature_names, prior_names, match_names.
  rewrite Ep, Ef, Em. cbn [mbind outcome_bind].
  split; [|split; [|split; [|split; [|split]]]].
  - eexists _, _. split; [reflexivity|]. split; [reflexivity|]. apply log_keys_length.
  - eexists _, _. split; [reflexivity|]. split; [reflexivity|]. apply log_keys_length.
  - eexists _, _. split; [reflexivity|]. split; [reflexivity|]. rewrite fmap_length. apply log_keys_length.
  - intros w' Q. rewrite (C _ _ _ Ef Q). eexists. split; [reflexivity|]. cbn. by rewrite log_keys_compact.
  - intros w' Q. rewrite (C _ _ _ Ep Q). eexists. split; [reflexivity|]. cbn. by rewrite log_keys_compact.
  - intros w' Q. rewrite (C _ _ _ Em Q). eexists. split; [reflexivity|]. cbn.
    by rewrite fmap_length, log_keys_compact.
Qed.
Print Assumptions rocksdb_counts_partial.

(** Features that are written twice under one name are counted twice. *)
Theorem rocksdb_counts_refuted : forall (P F M B : Type) (cp : codec P B) (cf : codec F B) (cm : codec M B)
    (f : F),
  exists w, run cp cf cm [Call (Construct ord_id true true true); Call (PutFeatures "a" f);
                          Call (PutFeatures "a" f)] = Ok w /\
    feature_names ord_id w = Ok ["a"] /\ num_images w = Ok 2.
Proof.
  intros P F M B cp cf cm f. eexists. split; [vm_compute; reflexivity|]. split; reflexivity.
Qed.
Print Assumptions rocksdb_counts_refuted.

(** Non-vacuity: numbers as values; a history with a death in the middle of a write, one before it, an
    interrupted second constructor, a finished removal, and its results. *)
Definition nat_codec : codec nat nat := Codec nat nat (fun n => S n) (fun n => Some (pred n)) (fun _ => eq_refl).
Definition rocksdb_sample : list (event nat nat nat) :=
  let open := Construct ord_rev true true true in
  [Die open 0; Call open; Call (PutPrior "a" 1); Call (PutFeatures "a" 5); Call (PutMatch "a" "b/c" 7);
   Die (PutFeatures "b" 6) 1; Die open 1; Call open; Die (PutFeatures "b" 8) 0; Call open;
   Call (RemoveAllMatches true); Call (PutMatch "a" "c" 9); Compact SFeatures; Close; Call open;
   Call (PutPrior "a" 2)].
Example rocksdb_sample_meets :
  lifecycle false rocksdb_sample = Some true /\ well_made false rocksdb_sample /\
  Forall removal_done rocksdb_sample /\ Forall plain_pairs rocksdb_sample.
Proof.
  split; [reflexivity|]. split; [cbn; tauto|]. split; repeat constructor; discriminate.
Qed.
Example rocksdb_sample_results :
  match run nat_codec nat_codec nat_codec rocksdb_sample with
  | Ok w => is_Some (w_obj w) /\ get_prior nat_codec w "a" = Ok 2 /\ get_features nat_codec w "b" = Ok 6 /\
            get_match nat_codec w "a" "c" = Ok 9 /\ get_match nat_codec w "a" "b/c" = CheckFail /\
            num_priors w = Ok 2 /\ num_images w = Ok 2
  | _ => False
  end.
Proof. vm_compute. repeat split. eexists. reflexivity. Qed.
