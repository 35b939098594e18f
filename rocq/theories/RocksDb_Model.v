(** Model of /repo/src/theia/matching/rocksdb_features_and_matches_database.cc and .h: the database of
    features and matches that the applications keep in a directory between runs.

    RocksDB itself is a library.  What is assumed about it:
    - a database is a set of named column families, each of them a log of (key, value) entries of which the
      newest for a key is the one that Get returns (cc:198, 239-241, 273, 313-315, 382-384);
    - ListColumnFamilies fails if and only if the directory holds no database (cc:135-136), Open with
      create_if_missing then makes one whose only column family is "default" (cc:144-158);
    - every call is atomic, and what it wrote is still there after the process has died (the write-ahead log
      of the default WriteOptions; a failure of the machine, which may lose the newest writes, is not
      modelled);
    - a Put or an Open that fails ends the process (the CHECKs of cc:159, 242, 316, 385) before it changes
      anything: this is the death of a process in a call after 0 steps, below;
    - CreateColumnFamily may fail, which leaves the null handle (cc:81-87, status ignored);
    - "rocksdb.estimate-num-keys" is the number of entries, overwritten ones included until a compaction
      removes them.
    cereal is the [codec] argument: reading back what was written gives the same value.  A null handle is
    dereferenced by RocksDB: undefined behaviour. *)
From Coq Require Import Ascii.
From stdpp Require Import gmap strings.
From Verif Require Import Base.
Local Open Scope string_scope.

(** cc:216-223, 232-237 and the like. *)
Record codec (A B : Type) := Codec {
  enc : A -> B;
  dec : B -> option A;
  dec_enc : forall a, dec (enc a) = Some a }.
Arguments enc {A B} _ _.
Arguments dec {A B} _ _.
Arguments dec_enc {A B} _ _.

(** cc:63-68: the three column families and the separator. *)
Inductive slot := SFeatures | SMatches | SPriors.
Definition slot_name (s : slot) : string :=
  match s with
  | SFeatures => "keypoints_and_descriptors"
  | SMatches => "image_pair_matches"
  | SPriors => "camera_intrinsics_prior"
  end.
Definition separator : ascii := "/"%char.

(** cc:89-92, ComposeImageNamePair. *)
Definition compose (image1 image2 : string) : string := image1 +:+ String separator image2.

(** cc:95, find: what stands before and after the first separator. *)
Fixpoint split_separator (s : string) : option (string * string) :=
  match s with
  | EmptyString => None
  | String c s' =>
      if bool_decide (c = separator) then Some (EmptyString, s')
      else '(a, b) ← split_separator s'; Some (String c a, b)
  end.

(** cc:94-98, DecomposeImageNamePair; without a separator find gives npos, npos + 1 = 0, and both halves are
    the whole string. *)
Definition decompose (s : string) : string * string :=
  match split_separator s with Some ab => ab | None => (s, s) end.

(** The log of a column family, newest entry first. *)
Section log.
Context {B : Type}.
Notation log := (list (string * B)).

Fixpoint log_get (k : string) (l : log) : option B :=
  match l with
  | [] => None
  | (k', v) :: l' => if bool_decide (k' = k) then Some v else log_get k l'
  end.

(** A compaction in the background: overwritten entries disappear. *)
Fixpoint log_compact (l : log) : log :=
  match l with
  | [] => []
  | (k, v) :: l' => (k, v) :: filter (fun e => e.1 <> k) (log_compact l')
  end.

(** What an iterator from SeekToFirst visits (cc:250-255): every key once, here in any order. *)
Definition log_keys (o : order string) (l : log) : list string := o (remove_dups (l.*1)).
End log.

(** .h:117-122: the handles of an object; [None] is the null pointer. *)
Record handles := Handles {
  h_priors : option string;
  h_features : option string;
  h_matches : option string }.
Definition no_handles : handles := Handles None None None.
Definition handle (s : slot) (h : handles) : option string :=
  match s with SFeatures => h_features h | SMatches => h_matches h | SPriors => h_priors h end.
Definition set_handle (s : slot) (x : option string) (h : handles) : handles :=
  match s with
  | SFeatures => Handles (h_priors h) x (h_matches h)
  | SMatches => Handles (h_priors h) (h_features h) x
  | SPriors => Handles x (h_features h) (h_matches h)
  end.

(** cc:175-187: the handles of the column families found in the database. *)
Definition attach (h : handles) (name : string) : handles :=
  if bool_decide (name = slot_name SFeatures) then set_handle SFeatures (Some name) h
  else if bool_decide (name = slot_name SMatches) then set_handle SMatches (Some name) h
  else if bool_decide (name = slot_name SPriors) then set_handle SPriors (Some name) h
  else h.

Section rocksdb.
Context {P F M B : Type} (cp : codec P B) (cf : codec F B) (cm : codec M B).
Notation log := (list (string * B)).

(** The directory ([None]: no database in it) and the object of the running process, if there is one. *)
Record world := World {
  w_disk : option (gmap string log);
  w_obj : option handles }.
Definition world_new : world := World None None.

(** cc:80-87, CreateColumnFamily, into the handle of [s]; [ok] is false when the call fails. *)
Definition create (s : slot) (ok : bool) (w : world) : outcome world :=
  d ← or_ub (w_disk w);
  h ← or_ub (w_obj w);
  if ok && negb (bool_decide (is_Some (d !! slot_name s))) then
    Ok (World (Some (<[slot_name s := []]> d)) (Some (set_handle s (Some (slot_name s)) h)))
  else Ok (World (Some d) (Some (set_handle s None h))).

(** cc:129-165, 175-187: Open, and the handles when there was a database; [lo] is the order in which
    ListColumnFamilies gives the names.  A database that is open already is locked: Open fails. *)
Definition open (lo : order string) (w : world) : outcome world :=
  match w_obj w with
  | Some _ => CheckFail
  | None =>
      match w_disk w with
      | None => Ok (World (Some {["default" := []]}) (Some no_handles))
      | Some d => Ok (World (Some d) (Some (foldl attach no_handles (lo ((map_to_list d).*1)))))
      end
  end.

(** database_->Put in the column family of [s]. *)
Definition put (s : slot) (k : string) (v : B) (w : world) : outcome world :=
  d ← or_ub (w_disk w);
  h ← or_ub (w_obj w);
  name ← or_ub (handle s h);
  Ok (World (Some (alter (cons (k, v)) name d)) (Some h)).

(** cc:411: DropColumnFamily of the matches. *)
Definition drop_matches (w : world) : outcome world :=
  d ← or_ub (w_disk w);
  h ← or_ub (w_obj w);
  name ← or_ub (h_matches h);
  Ok (World (Some (delete name d)) (Some h)).

(** The calls that change a database.  Construct: cc:101-188; PutPrior: cc:231-244; PutFeatures: cc:303-318;
    PutMatch: cc:368-386; RemoveAllMatches: cc:408-416. *)
Inductive call :=
| Construct (lo : order string) (ok_features ok_matches ok_priors : bool)
| PutPrior (n : string) (p : P)
| PutFeatures (n : string) (f : F)
| PutMatch (n1 n2 : string) (m : M)
| RemoveAllMatches (ok : bool).

(** The steps of a call, in the order in which the code takes them; each of them is atomic.  A new database
    has its column families created (cc:168-174), in an old one they are looked up (cc:175-187). *)
Definition steps (c : call) (w : world) : list (world -> outcome world) :=
  match c with
  | Construct lo okf okm okp =>
      match w_disk w with
      | None => [open lo; create SFeatures okf; create SMatches okm; create SPriors okp]
      | Some _ => [open lo]
      end
  | PutPrior n p => [put SPriors n (enc cp p)]
  | PutFeatures n f => [put SFeatures n (enc cf f)]
  | PutMatch n1 n2 m => [put SMatches (compose n1 n2) (enc cm m)]
  | RemoveAllMatches ok => [drop_matches; create SMatches ok]
  end.

Definition run_list (l : list (world -> outcome world)) (w : world) : outcome world :=
  run_steps (fun w f => f w) w l.

(** What can happen: a call that returns, the end of the object's life between two calls (its destructor,
    cc:190, or the death of the process), the death of the process in a call after [k] steps, a compaction. *)
Inductive event :=
| Call (c : call)
| Close
| Die (c : call) (k : nat)
| Compact (s : slot).

Definition step (w : world) (e : event) : outcome world :=
  match e with
  | Call c => run_list (steps c w) w
  | Close => Ok (World (w_disk w) None)
  | Die c k => w' ← run_list (take k (steps c w)) w; Ok (World (w_disk w') None)
  | Compact s => Ok (World (alter log_compact (slot_name s) <$> w_disk w) (w_obj w))
  end.

Definition run (h : list event) : outcome world := run_steps step world_new h.

(** The log that a handle stands for. *)
Definition the_log (s : slot) (w : world) : outcome log :=
  d ← or_ub (w_disk w);
  h ← or_ub (w_obj w);
  name ← or_ub (handle s h);
  Ok (default [] (d !! name)).

(** cc:192-200, 267-275: Contains. *)
Definition contains_prior (w : world) (n : string) : outcome bool :=
  l ← the_log SPriors w; Ok (bool_decide (is_Some (log_get n l))).
Definition contains_features (w : world) (n : string) : outcome bool :=
  l ← the_log SFeatures w; Ok (bool_decide (is_Some (log_get n l))).

(** cc:203-228, 278-300, 341-365: Get.  An archive that cannot be read throws, which is not caught. *)
Definition get_prior (w : world) (n : string) : outcome P :=
  l ← the_log SPriors w; v ← or_die (log_get n l); or_die (dec cp v).
Definition get_features (w : world) (n : string) : outcome F :=
  l ← the_log SFeatures w; v ← or_die (log_get n l); or_die (dec cf v).
Definition get_match (w : world) (n1 n2 : string) : outcome M :=
  l ← the_log SMatches w; v ← or_die (log_get (compose n1 n2) l); or_die (dec cm v).

(** cc:246-258, 320-331, 388-399: the names. *)
Definition prior_names (o : order string) (w : world) : outcome (list string) :=
  l ← the_log SPriors w; Ok (log_keys o l).
Definition feature_names (o : order string) (w : world) : outcome (list string) :=
  l ← the_log SFeatures w; Ok (log_keys o l).
Definition match_names (o : order string) (w : world) : outcome (list (string * string)) :=
  l ← the_log SMatches w; Ok (decompose <$> log_keys o l).

(** cc:260-265, 333-338, 401-406: the numbers. *)
Definition num_priors (w : world) : outcome nat := l ← the_log SPriors w; Ok (length l).
Definition num_images (w : world) : outcome nat := l ← the_log SFeatures w; Ok (length l).
Definition num_matches (w : world) : outcome nat := l ← the_log SMatches w; Ok (length l).

End rocksdb.
Arguments world : clear implicits.
Arguments call : clear implicits.
Arguments event : clear implicits.
