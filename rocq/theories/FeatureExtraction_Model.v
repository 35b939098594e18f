(** Model of /repo/src/theia/sfm/feature_extractor_and_matcher.{h,cc}, on top of the models of the in-memory database, of the
    feature matcher and of the camera intrinsics priors; and of exif_reader.cc:121-150, ExtractEXIFMetadata, as far as it
    sets members of the prior that are modelled.

    The tasks of the thread pool interleave: one step of a task is the part of ProcessImage between two accesses to data that
    the tasks share.  What the file system, the detectors, the masks, the EXIF tags and the global image descriptors say are
    arguments. *)
From stdpp Require Import gmap strings.
From Coq Require Import Reals QArith_base Qcanon.
From Verif Require Import Base Priors_Model FeatureDb_Model FeatureMatcher_Model.

(** feature_extractor_and_matcher.h:57-97, the options that are read here. *)
Record fe_options := FeOptions {
  fo_threads : Z; fo_only_calibrated : bool; fo_max_features : Z; fo_global : bool; fo_neighbors : Z }.

(** The sizes and the focal length that the EXIF reader finds. *)
Record exif := Exif { ex_width : Z; ex_height : Z; ex_focal : option R }.

(** camera_intrinsics_prior.h:68-97, a new CameraIntrinsicsPrior. *)
Definition no_prior : prior := Prior 0 0 "PINHOLE" None None None None None None.
(** exif_reader.cc:121-150. *)
Definition read_exif (x : exif) (p : prior) : prior :=
  Prior (ex_width x) (ex_height x) (p_model p) (match ex_focal x with Some f => Some f | None => p_focal p end)
    (Some (IZR (ex_width x) / 2, IZR (ex_height x) / 2)%R) (p_aspect p) (p_skew p) (p_radial p) (p_tangential p).
Definition with_focal (f : R) (p : prior) : prior :=
  Prior (p_width p) (p_height p) (p_model p) (Some f) (p_point p) (p_aspect p) (p_skew p) (p_radial p) (p_tangential p).
Definition has_focal (p : prior) : bool := match p_focal p with Some _ => true | None => false end.

(** feature_extractor_and_matcher.cc:263-276: the prior of an image. *)
Definition complete_prior (only_calibrated : bool) (x : exif) (p : prior) : prior :=
  if has_focal p then p
  else
    let p := read_exif x p in
    if negb only_calibrated && negb (has_focal p) then with_focal (6 / 5 * IZR (Z.max (p_width p) (p_height p)))%R p else p.

Section model.
Context {K De M : Type}.
Notation features := (list K * list De)%type.
Notation database := (db prior features M).

(** What is outside: whether a file exists, the name in a path (GetFilenameFromFilepath), the EXIF data, what
    DetectAndExtractDescriptors returns and puts into its two vectors, whether a mask has the size of the image, and the
    grey value of a mask at a keypoint. *)
Record outside := Outside {
  ou_exists : string -> bool; ou_name : string -> option string; ou_exif : string -> exif;
  ou_detect : string -> bool * features; ou_mask_fits : string -> string -> bool; ou_mask : string -> K -> Qc }.

Context (ou : outside) (opts : fe_options) (masks : gmap string string).

(** feature_extractor_and_matcher.cc:112-118: the removal of masked keypoints, one index. *)
Definition mask_step (mask : string) (f : features) (i : nat) : outcome features :=
  k ← or_die (f.1 !! i);
  if decide (ou_mask ou mask k < Q2Qc (1 # 2))%Qc then
    _ ← or_ub (f.2 !! i); Ok (delete i f.1, delete i f.2)
  else Ok f.
(** feature_extractor_and_matcher.cc:72-134, ExtractFeatures.  A negative limit becomes a huge one in the comparison with a size_t.  There are as many
    descriptors as keypoints when the vectors are cut. *)
Definition extract_features (path mask : string) : outcome features :=
  let '(ok, f) := ou_detect ou path in
  if negb ok then Ok f
  else
    f ← (if decide (mask = "") then Ok f
         else _ ← check (ou_mask_fits ou path mask); run_steps (mask_step mask) f (reverse (seq 0 (length f.1))));
    if decide (fo_max_features opts mod 2 ^ 64 < Z.of_nat (length f.1))%Z
    then Ok (take (Z.to_nat (fo_max_features opts)) f.1, take (Z.to_nat (fo_max_features opts)) f.2)
    else Ok f.

(** Where a task is in ProcessImage (feature_extractor_and_matcher.cc:244-330): it waits for a thread; reads the prior; stores the prior; looks for features;
    stores them; gives them to the global descriptor extractor; adds the image to the matcher; has returned. *)
Inductive phase :=
| Waiting | ReadPrior | StorePrior (p : prior) | LookFeatures | StoreFeatures (f : features) | Train | AddName | Returned (added : bool).
(** What the tasks share: the database, the training features and the names given to the matcher. *)
Record shared := Shared { sh_db : database; sh_training : list De; sh_names : list string }.
Record state := State { st_tasks : list (string * phase); st_shared : shared }.

Definition is_active (ph : phase) : bool := match ph with Waiting | Returned _ => false | _ => true end.
Definition is_waiting (ph : phase) : bool := match ph with Waiting => true | _ => false end.
Definition active (s : state) : nat := length (filter (fun t : string * phase => is_active t.2 = true) (st_tasks s)).

(** feature_extractor_and_matcher.cc:244-330: one step of the task for the image [path]. *)
Definition task_step (path : string) (ph : phase) (s : shared) : outcome (phase * shared) :=
  name ← or_die (ou_name ou path);
  match ph with
  | Waiting => Ok (ReadPrior, s)
  | ReadPrior => Ok (StorePrior (default no_prior (db_priors (sh_db s) !! name)), s)
  | StorePrior p =>
      let p := complete_prior (fo_only_calibrated opts) (ou_exif ou path) p in
      if fo_only_calibrated opts && negb (has_focal p) then Ok (Returned false, s)
      else Ok (LookFeatures, Shared (put_prior (sh_db s) name p) (sh_training s) (sh_names s))
  | LookFeatures =>
      if contains_features (sh_db s) name then Ok (Train, s)
      else
        f ← extract_features path (default "" (masks !! path));
        if bool_decide (length f.2 = 0%nat) then Ok (Returned false, s) else Ok (StoreFeatures f, s)
  | StoreFeatures f => Ok (Train, Shared (put_features (sh_db s) name f) (sh_training s) (sh_names s))
  | Train =>
      if fo_global opts then
        f ← get_features (sh_db s) name;
        _ ← check (bool_decide (length f.2 <> 0%nat));
        Ok (AddName, Shared (sh_db s) (sh_training s ++ f.2) (sh_names s))
      else Ok (AddName, s)
  | AddName => Ok (Returned true, Shared (sh_db s) (sh_training s) (sh_names s ++ [name]))
  | Returned b => Ok (Returned b, s)
  end.
(** The scheduler runs a step of task [i]; a waiting task starts if a thread of the [threads] is free. *)
Definition step (threads : nat) (s : state) (i : nat) : outcome state :=
  match st_tasks s !! i with
  | None => Ok s
  | Some (path, ph) =>
      if is_waiting ph && (threads <=? active s)%nat then Ok s
      else '(ph, sh) ← task_step path ph (st_shared s); Ok (State (<[i := (path, ph)]> (st_tasks s)) sh)
  end.

(** feature_extractor_and_matcher.cc:224-231: the tasks; a file that does not exist is skipped. *)
Definition first_state (paths : list string) (d : database) (names : list string) : state :=
  State ((fun p => (p, Waiting)) <$> filter (fun p => ou_exists ou p = true) paths) (Shared d [] names).
Definition finished (s : state) : bool := forallb (fun t => match t.2 with Returned _ => true | _ => false end) (st_tasks s).
(** feature_extractor_and_matcher.cc:220-233: feature extraction under the schedule [sched]; the destructor of the pool waits until all tasks have returned. *)
Definition extract_all (paths : list string) (sched : list nat) (d : database) (names : list string) : outcome shared :=
  let threads := Z.min (fo_threads opts) (to_int (Z.of_nat (length paths))) in
  _ ← check (bool_decide (1 <= threads)%Z);
  s ← run_steps (step (Z.to_nat threads)) (first_state paths d names) sched;
  if finished s then Ok (st_shared s) else Hang.
End model.
Arguments outside : clear implicits.
Arguments phase : clear implicits.
Arguments state : clear implicits.
Arguments shared : clear implicits.

(** * feature_extractor_and_matcher.cc:352-440, SelectImagePairsWithGlobalDescriptorMatching *)
Notation scored := (Qc * nat)%type.
(** The order of std::pair (scores and indices, 380). *)
Definition scored_lt (x y : scored) : Prop := (x.1 < y.1)%Qc \/ (x.1 = y.1 /\ (x.2 < y.2)%nat).
Global Instance scored_lt_dec x y : Decision (scored_lt x y).
Proof. unfold scored_lt. apply _. Defined.
(** std::partial_sort: the first [k] elements are the smallest ones in order. *)
Record partial_sort := PartialSort {
  ps_sort :> nat -> list scored -> list scored;
  ps_perm : forall k l, ps_sort k l ≡ₚ l;
  ps_first : forall k l i j x y, (i < j)%nat -> (i < k)%nat -> ps_sort k l !! i = Some x -> ps_sort k l !! j = Some y -> ~ scored_lt y x }.
(** std::sort of pairs of names by operator<, which is a total order. *)
Record name_sort := NameSort {
  ns_le : string * string -> string * string -> Prop;
  ns_sort :> list (string * string) -> list (string * string);
  ns_antisym : forall x y, ns_le x y -> ns_le y x -> x = y;
  ns_perm : forall l, ns_sort l ≡ₚ l;
  ns_sorted : forall l i j x y, (i < j)%nat -> ns_sort l !! i = Some x -> ns_sort l !! j = Some y -> ns_le x y }.
(** std::unique: of equal consecutive elements the first stays. *)
Fixpoint unique (l : list (string * string)) : list (string * string) :=
  match l with
  | [] => []
  | x :: rest => match rest with y :: _ => if decide (x = y) then unique rest else x :: unique rest | [] => [x] end
  end.

Section select.
Context (ps : partial_sort) (ns : name_sort) (om : order (nat * (gset nat * gset nat))) (oi : order nat) (score : nat -> nat -> Qc).

(** feature_extractor_and_matcher.cc:67-70: the ranked and the expanded matches of an image. *)
Notation matched := (gmap nat (gset nat * gset nat)).
Definition ranked (m : matched) (i : nat) : gset nat := (default (∅, ∅) (m !! i)).1.
Definition expanded (m : matched) (i : nat) : gset nat := (default (∅, ∅) (m !! i)).2.
Definition add_ranked (m : matched) (i x : nat) : matched := <[i := ({[x]} ∪ ranked m i, expanded m i)]> m.
Definition add_expanded (m : matched) (i x : nat) : matched := <[i := (ranked m i, {[x]} ∪ expanded m i)]> m.

(** feature_extractor_and_matcher.cc:383-389: the scores of image [i] with the later images. *)
Definition score_step (i : nat) (scores : list (list scored)) (j : nat) : list (list scored) :=
  let s := score i j in
  alter (fun l => l ++ [(s, i)]) j (alter (fun l => l ++ [(s, j)]) i scores).
(** feature_extractor_and_matcher.cc:397-409: one neighbour of image [i].  [pairs_to_match\[second_id\]] makes an entry. *)
Definition neighbor_step (i : nat) (m : matched) (x : scored) : matched :=
  let second := x.2 in
  let m := <[second := (ranked m second, expanded m second)]> m in
  let m := foldl (fun m nb => add_expanded m nb i) m (oi (elements (ranked m second))) in
  add_ranked (add_ranked m i second) second i.
(** feature_extractor_and_matcher.cc:381-414: image [i]. *)
Definition image_step (n : nat) (k : Z) (st : list (list scored) * matched) (i : nat) : outcome (list (list scored) * matched) :=
  let scores := foldl (score_step i) st.1 (seq (S i) (n - S i)) in
  mine ← or_ub (scores !! i);
  if decide (k < 0 \/ Z.of_nat (length mine) < k)%Z then UB
  else
    let mine := ps (Z.to_nat k) mine in
    Ok (<[i := []]> scores, foldl (neighbor_step i) st.2 (take (Z.to_nat k) mine)).
(** feature_extractor_and_matcher.cc:420-432: the pairs of one image. *)
Definition collect_step (names : list string) (a : nat) (l : list (string * string)) (b : nat) : outcome (list (string * string)) :=
  if decide (a < b)%nat then
    x ← or_ub (names !! a); y ← or_ub (names !! b); Ok (l ++ [(x, y)])
  else Ok l.
Definition collect_image (names : list string) (l : list (string * string)) (am : nat * (gset nat * gset nat)) : outcome (list (string * string)) :=
  l ← run_steps (collect_step names am.1) l (oi (elements am.2.1));
  run_steps (collect_step names am.1) l (oi (elements am.2.2)).
(** feature_extractor_and_matcher.cc:370-436, for the images [names] and [neighbors] wanted neighbours. *)
Definition select_pairs (names : list string) (neighbors : Z) : outcome (list (string * string)) :=
  let n := length names in
  let k := Z.min (to_int ((Z.of_nat n - 1) mod 2 ^ 64)) neighbors in
  '(_, m) ← run_steps (image_step n k) (replicate n [], ∅) (seq 0 n);
  l ← run_steps (collect_image names) [] (om (map_to_list m));
  Ok (unique (ns l)).
End select.

Section top.
Context {K De M : Type}.
Notation features := (list K * list De)%type.
Notation database := (db prior features M).
Context (ou : outside K De) (opts : fe_options) (masks : gmap string string).
Context (ps : partial_sort) (ns : name_sort) (om : order (nat * (gset nat * gset nat))) (oi : order nat) (on : order string).
(** Whether the training succeeds, and the squared distance of the global descriptors of two sets of descriptors. *)
Context (train : list De -> bool) (distance : list De -> list De -> Qc).

(** feature_extractor_and_matcher.cc:332-350: the descriptors of the [i]-th image. *)
Definition descriptors_at (d : database) (names : list string) (i : nat) : list De :=
  match names !! i with Some x => match db_features d !! x with Some f => f.2 | None => [] end | None => [] end.
(** feature_extractor_and_matcher.cc:352-440.  Without the option there is no global descriptor extractor: the pointer is null (155-163). *)
Definition select_images (s : shared K De M) (m : matcher) : outcome matcher :=
  if negb (fo_global opts) then UB
  else
    _ ← check (train (sh_training s));
    let names := on (elements (dom (db_features (sh_db s)))) in
    pairs ← select_pairs ps ns om oi (fun i j => distance (descriptors_at (sh_db s) names i) (descriptors_at (sh_db s) names j)) names (fo_neighbors opts);
    Ok (set_pairs m pairs).

(** feature_extractor_and_matcher.cc:217-242, ExtractAndMatchFeatures; [asked] are the pairs of SetPairsToMatch (196-211).  [sched] and [sched'] are the
    schedules of the two thread pools; [result] is what matching two images gives. *)
Definition extract_and_match (paths : list string) (asked : list (string * string)) (sched : list nat) (sched' : list nat -> list nat)
    (result : database -> string * string -> option M) (d : database) : outcome database :=
  s ← extract_all ou opts masks paths sched d [];
  m ← select_images s (Matcher (sh_names s) asked);
  let d := sh_db s in
  let pairs := match fm_pairs m with [] => all_pairs (fm_names m) | l => l end in
  '(m', matches) ← match_images (fo_threads opts) sched' (dom (db_features d)) (fun i => pairs !! i ≫= result d) m (db_matches d);
  Ok (Db (db_priors d) (db_features d) matches).
End top.

(** * Accesses to shared data *)
(** The containers of the in-memory database that hold the priors and the features
    (in_memory_features_and_matches_database.cc:55-103; none of these methods takes the mutex), the sampler of the training
    features (fisher_vector_extractor.cc:104-110, reservoir_sampler.h), and the names in the matcher.  matcher_mutex_ is held
    for the last (feature_extractor_and_matcher.cc:326-328). *)
Inductive location := Priors | Features | Sampler | Names.
Record access := Access { ac_location : location; ac_write : bool; ac_locked : bool }.
(** What the next step of a task reads and writes. *)
Definition accesses {K De : Type} (ou : outside K De) (opts : fe_options) (path : string) (ph : phase K De) : list access :=
  match ph with
  | Waiting | Returned _ => []
  | ReadPrior => [Access Priors false false]
  | StorePrior p =>
      let p := complete_prior (fo_only_calibrated opts) (ou_exif ou path) p in
      if fo_only_calibrated opts && negb (has_focal p) then [] else [Access Priors true false]
  | LookFeatures => [Access Features false false]
  | StoreFeatures _ => [Access Features true false]
  | Train => if fo_global opts then [Access Features false false; Access Sampler true false] else []
  | AddName => [Access Names true true]
  end.
