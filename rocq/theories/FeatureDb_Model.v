(** Model of /repo/src/theia/matching/in_memory_features_and_matches_database.cc.

    The values are abstract: [P] camera intrinsics priors, [F] keypoints and descriptors, [M] image pair
    matches, of which only the members image1 and image2 matter here.  What cereal writes for three vectors
    is read back as the same three vectors (an assumption about the library: a file is a triple of lists). *)
From stdpp Require Import gmap strings.
From Verif Require Import Base.

Section db.
Context {P F M : Type} (image1 image2 : M -> string).
Notation key := (string * string)%type.

(** in_memory_features_and_matches_database.h:109-112. *)
Record db := Db {
  db_priors : gmap string P;
  db_features : gmap string F;
  db_matches : gmap key M }.

Definition db_new : db := Db ∅ ∅ ∅.

(** cc:55-58, 61-65, 68-71, 84-86. *)
Definition contains_prior (d : db) (n : string) : bool := bool_decide (is_Some (db_priors d !! n)).
Definition get_prior (d : db) (n : string) : outcome P := or_die (db_priors d !! n).
Definition put_prior (d : db) (n : string) (p : P) : db :=
  Db (<[n := p]> (db_priors d)) (db_features d) (db_matches d).
Definition num_priors (d : db) : nat := size (db_priors d).

(** cc:88-91, 94-97, 100-103, 115-117. *)
Definition contains_features (d : db) (n : string) : bool := bool_decide (is_Some (db_features d !! n)).
Definition get_features (d : db) (n : string) : outcome F := or_die (db_features d !! n).
Definition put_features (d : db) (n : string) (f : F) : db :=
  Db (db_priors d) (<[n := f]> (db_features d)) (db_matches d).
Definition num_images (d : db) : nat := size (db_features d).

(** cc:120-123, 126-132, 144-146, 213-215. *)
Definition get_match (d : db) (n1 n2 : string) : outcome M := or_die (db_matches d !! (n1, n2)).
Definition put_match (d : db) (n1 n2 : string) (m : M) : db :=
  Db (db_priors d) (db_features d) (<[(n1, n2) := m]> (db_matches d)).
Definition num_matches (d : db) : nat := size (db_matches d).
Definition remove_all_matches (d : db) : db := Db (db_priors d) (db_features d) ∅.

(** The three vectors in a file. *)
Definition file := (list string * list P * list M)%type.

(** cc:180-211, WriteToFile; [op], [om] are the iteration orders of the two maps. *)
Definition write_file (op : order (string * P)) (om : order (key * M)) (d : db) : file :=
  let priors := op (map_to_list (db_priors d)) in
  (fst <$> priors, snd <$> priors, snd <$> om (map_to_list (db_matches d))).

(** cc:148-179, ReadFromFile into an existing database. *)
Definition read_file (f : file) (d : db) : outcome db :=
  let '(names, priors, matches) := f in
  _ ← check (bool_decide (length names = length priors));
  Ok (Db (foldl (fun m np => <[np.1 := np.2]> m) (db_priors d) (zip names priors))
         (db_features d)
         (foldl (fun (m : gmap key M) x => <[(image1 x, image2 x) := x]> m) (db_matches d) matches)).

(** The calls that change a database. *)
Inductive db_op :=
| PutPrior (n : string) (p : P)
| PutFeatures (n : string) (f : F)
| PutMatch (n1 n2 : string) (m : M)
| RemoveAllMatches.
Definition db_apply (d : db) (o : db_op) : db :=
  match o with
  | PutPrior n p => put_prior d n p
  | PutFeatures n f => put_features d n f
  | PutMatch n1 n2 m => put_match d n1 n2 m
  | RemoveAllMatches => remove_all_matches d
  end.

End db.
Arguments db : clear implicits.
Arguments db_op : clear implicits.
