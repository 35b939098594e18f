(** Properties of the in-memory features-and-matches database. *)
From stdpp Require Import gmap strings.
From Verif Require Import Base FeatureDb_Model FeatureDb_Proofs.

(** C45 (last write wins).  After every history of calls on a new database, every Get returns the value
    of the most recent Put with that key (and aborts if there is none). *)
Theorem feature_db_last_write : forall (P F M : Type) (ops : list (db_op P F M)),
  let d := foldl db_apply db_new ops in
  (forall n, get_prior d n = or_die (last_prior (reverse ops) n)) /\
  (forall n, contains_prior d n = true <-> is_Some (last_prior (reverse ops) n)) /\
  (forall n, get_features d n = or_die (last_features (reverse ops) n)) /\
  (forall n, contains_features d n = true <-> is_Some (last_features (reverse ops) n)) /\
  (forall n1 n2, get_match d n1 n2 = or_die (last_match (reverse ops) n1 n2)).
Proof. exact @history_lemma. Qed.
Print Assumptions feature_db_last_write.

(** C45 (file), for databases whose matches are stored under their own image names: a file read into a
    new database gives the same priors and matches, whatever the iteration orders.
    Missing: matches stored under other names, where it is false (below). *)
Theorem feature_db_roundtrip_partial : forall (P F M : Type) (image1 image2 : M -> string)
    (op : order (string * P)) (om : order ((string * string) * M)) (d : db P F M),
  (forall n1 n2 m, db_matches d !! (n1, n2) = Some m -> image1 m = n1 /\ image2 m = n2) ->
  read_file image1 image2 (write_file op om d) (db_new : db P F M) =
  Ok (Db (db_priors d) ∅ (db_matches d)).
Proof.
  intros P F M image1 image2 op om d Hk. rewrite (roundtrip_lemma image1 image2 op om d db_new Hk).
  simpl. by rewrite !(right_id_L ∅ (∪)).
Qed.
Print Assumptions feature_db_roundtrip_partial.

(** Reading into a database that is not empty adds to it: the entries of the file win. *)
Theorem feature_db_merge_partial : forall (P F M : Type) (image1 image2 : M -> string)
    (op : order (string * P)) (om : order ((string * string) * M)) (d d0 : db P F M),
  (forall n1 n2 m, db_matches d !! (n1, n2) = Some m -> image1 m = n1 /\ image2 m = n2) ->
  read_file image1 image2 (write_file op om d) d0 =
  Ok (Db (db_priors d ∪ db_priors d0) (db_features d0) (db_matches d ∪ db_matches d0)).
Proof. intros P F M image1 image2 op om d d0 Hk. by apply roundtrip_lemma. Qed.
Print Assumptions feature_db_merge_partial.

(** The full claim is false: a match put under ("x", "y") whose members say ("a", "b") is found under
    ("a", "b") after saving and loading. *)
Theorem feature_db_roundtrip_refuted : exists (d d' : db unit unit (string * string)),
  d = put_match db_new "x" "y" ("a", "b") /\
  read_file fst snd (write_file ord_id ord_id d) db_new = Ok d' /\
  get_match d "x" "y" = Ok ("a", "b") /\
  get_match d' "x" "y" = CheckFail /\ get_match d' "a" "b" = Ok ("a", "b").
Proof.
  eexists _, _. split; [done|]. split; [|split].
  - unfold read_file, write_file, put_match. cbn [db_priors db_features db_matches db_new].
    rewrite map_to_list_empty, insert_empty, map_to_list_singleton. cbn. reflexivity.
  - reflexivity.
  - split; reflexivity.
Qed.
Print Assumptions feature_db_roundtrip_refuted.

(** Non-vacuity: a history, and a database that meets the hypothesis of the round trip. *)
Example feature_db_sample :
  let ops := [PutPrior "a" 1; PutFeatures "a" 5; PutMatch "a" "b" ("a", "b"); RemoveAllMatches;
              PutMatch "b" "c" ("b", "c"); PutPrior "a" 2] in
  get_prior (foldl db_apply db_new ops) "a" = Ok 2 /\
  get_match (foldl db_apply db_new ops) "a" "b" = CheckFail /\
  (forall n1 n2 m, db_matches (foldl db_apply db_new ops) !! (n1, n2) = Some m -> fst m = n1 /\ snd m = n2) /\
  num_matches (foldl db_apply db_new ops) = 1.
Proof.
  cbn [foldl db_apply put_prior put_features put_match remove_all_matches db_priors db_features db_matches].
  split; [reflexivity|]. split; [reflexivity|]. split.
  - intros n1 n2 m. rewrite lookup_insert_Some, lookup_empty. intros [[[= <- <-] <-]|[_ ?]]; done.
  - reflexivity.
Qed.
