(** C134-C139: feature extraction and the selection of image pairs. *)
From stdpp Require Import gmap strings.
From Coq Require Import Reals QArith_base Qcanon.
From Verif Require Import Base Priors_Model FeatureDb_Model FeatureMatcher_Model FeatureExtraction_Model FeatureExtraction_Spec
  FeatureExtraction_Tasks FeatureExtraction_Run FeatureExtraction_Select FeatureExtraction_Top.

(** * A sample *)
(** A path is a directory of one letter, a slash and a name; the keypoints are numbers; the descriptor of an image is where
    it is on a line. *)
Definition spot (name : string) : Z :=
  if decide (name = "a") then 0 else if decide (name = "b") then 1 else if decide (name = "c") then 10 else 11.
Definition sample_name (path : string) : option string := Some (String.substring 2 (String.length path) path).
Definition sample_outside (focal : option R) : outside Z Z := Outside
  (fun p => negb (bool_decide (p = "x/z"))) sample_name (fun _ => Exif 640 480 focal)
  (fun p => match sample_name p with
            | Some "e" => (true, ([], []))
            | Some n => (true, ([1; 2; 3; 4]%Z, [spot n; spot n + 100; spot n + 200; spot n + 300]%Z))
            | None => (false, ([], []))
            end)
  (fun _ _ => true) (fun _ k => if decide (k = 2%Z) then Q2Qc (1 # 4) else Q2Qc (3 # 4)).
Definition sample_options (only global : bool) (neighbors : Z) : fe_options := FeOptions 2 only 2 global neighbors.
Definition sample_distance (l m : list Z) : Qc :=
  match l, m with x :: _, y :: _ => Q2Qc (inject_Z ((x - y) * (x - y))) | _, _ => Q2Qc 0 end.
Definition sample_db : db prior (list Z * list Z) Z := Db ∅ ∅ ∅.
Definition round_robin (tasks rounds : nat) : list nat := mjoin (replicate rounds (seq 0 tasks)).
Definition all_match (d : db prior (list Z * list Z) Z) (p : string * string) : option Z := Some 7%Z.
Definition sample_run (only : bool) (focal : option R) (neighbors : Z) (paths : list string) (asked : list (string * string)) d :=
  extract_and_match (sample_outside focal) (sample_options only true neighbors) {[ "p/a" := "mask" ]} sample_ps sample_ns ord_id ord_id ord_id
    (fun _ => true) sample_distance paths asked (round_robin 5 20) (fun l => l) all_match d.

(** * C134 *)
(** Feature extraction, for every schedule of the threads: it never aborts or goes wrong; when all tasks have returned, the
    database, the training features and the names given to the matcher are those of the specification; and from every state
    the tasks can go on until they all have returned. *)
Theorem extraction_result : forall (K De M : Type) (ou : outside K De) (opts : fe_options) (masks : gmap string string)
    (paths : list string) (d : db prior (list K * list De) M) (sched : list nat),
  provided ou opts masks paths d ->
  (1 <= fo_threads opts)%Z -> (1 <= length paths)%nat -> (Z.of_nat (length paths) < 2 ^ 31)%Z ->
  (extract_all ou opts masks paths sched d [] = Hang \/
   exists s, extract_all ou opts masks paths sched d [] = Ok s /\ extracted ou opts masks paths d s) /\
  exists sched' s, extract_all ou opts masks paths (sched ++ sched') d [] = Ok s.
Proof. intros. apply extract_all_ok; assumption. Qed.
Print Assumptions extraction_result.

Lemma sample_provided focal only global neighbors paths :
  (forall i j p q, images (sample_outside focal) paths !! i = Some p -> images (sample_outside focal) paths !! j = Some q ->
     sample_name p = sample_name q -> i = j) ->
  provided (sample_outside focal) (sample_options only global neighbors) {[ "p/a" := "mask" ]} paths sample_db.
Proof.
  intros H. split.
  - intros p _. cbn. eauto.
  - exact H.
  - intros p _. unfold sample_outside. cbn [ou_detect]. destruct (sample_name p) as [n|]; [|cbn; lia].
    repeat case_match; cbn; lia.
  - reflexivity.
  - cbn. lia.
  - intros _ n f Hf. cbn in Hf. rewrite lookup_empty in Hf. discriminate.
Qed.
Lemma sample_distinct focal : forall i j p q,
  images (sample_outside focal) ["p/a"; "x/z"; "p/b"; "q/c"; "q/e"; "p/d"] !! i = Some p ->
  images (sample_outside focal) ["p/a"; "x/z"; "p/b"; "q/c"; "q/e"; "p/d"] !! j = Some q -> sample_name p = sample_name q -> i = j.
Proof.
  assert (E : images (sample_outside focal) ["p/a"; "x/z"; "p/b"; "q/c"; "q/e"; "p/d"] = ["p/a"; "p/b"; "q/c"; "q/e"; "p/d"]) by (vm_compute; reflexivity).
  rewrite E. intros i j p q Hi Hj.
  do 5 (destruct i as [|i]; [injection Hi as <-; do 5 (destruct j as [|j]; [injection Hj as <-; vm_compute; intros K; first [reflexivity|discriminate K]|]); discriminate Hj|]).
  discriminate Hi.
Qed.
(** Six files, one of which does not exist and one of which has no features; the second keypoint of the first is masked. *)
Example extraction_sample :
  provided (sample_outside None) (sample_options false true 1) {[ "p/a" := "mask" ]} ["p/a"; "x/z"; "p/b"; "q/c"; "q/e"; "p/d"] sample_db /\
  match extract_all (sample_outside None) (sample_options false true 1) {[ "p/a" := "mask" ]}
          ["p/a"; "x/z"; "p/b"; "q/c"; "q/e"; "p/d"] (round_robin 5 20) sample_db [] with
  | Ok s => (forall n, n ∈ sh_names s <-> n ∈ ["a"; "b"; "c"; "d"]) /\
            db_features (sh_db s) !! "a" = Some ([1; 3]%Z, [0; 200]%Z) /\ db_features (sh_db s) !! "b" = Some ([1; 2]%Z, [1; 101]%Z) /\
            db_features (sh_db s) !! "e" = None /\ length (sh_training s) = 8%nat /\ is_Some (db_priors (sh_db s) !! "e")
  | _ => False
  end.
Proof.
  split; [apply sample_provided, sample_distinct|].
  assert (H : match extract_all (sample_outside None) (sample_options false true 1) {[ "p/a" := "mask" ]}
          ["p/a"; "x/z"; "p/b"; "q/c"; "q/e"; "p/d"] (round_robin 5 20) sample_db [] with
  | Ok s => Forall (fun n => n ∈ ["a"; "b"; "c"; "d"]) (sh_names s) /\ Forall (fun n => n ∈ sh_names s) ["a"; "b"; "c"; "d"] /\
            db_features (sh_db s) !! "a" = Some ([1; 3]%Z, [0; 200]%Z) /\ db_features (sh_db s) !! "b" = Some ([1; 2]%Z, [1; 101]%Z) /\
            db_features (sh_db s) !! "e" = None /\ length (sh_training s) = 8%nat /\ bool_decide (is_Some (db_priors (sh_db s) !! "e")) = true
  | _ => False
  end) by (vm_compute; repeat (split || constructor)).
  destruct (extract_all _ _ _ _ _ _ _) as [s| | |]; [|destruct H..].
  destruct H as (H1 & H2 & H3 & H4 & H5 & H6 & H7). rewrite Forall_forall in H1, H2. rewrite bool_decide_eq_true in H7.
  split; [intros n; split; [apply H1|apply H2]|]. auto.
Qed.

(** Without images the process aborts. *)
Theorem extraction_no_images : forall (K De M : Type) (ou : outside K De) (opts : fe_options) masks (d : db prior (list K * list De) M) sched names,
  extract_all ou opts masks [] sched d names = CheckFail.
Proof.
  intros. unfold extract_all. cbn [length].
  rewrite bool_decide_eq_false_2; [reflexivity|]. change (to_int (Z.of_nat 0)) with 0%Z. lia.
Qed.
Print Assumptions extraction_no_images.

(** Two images with the same name in different directories: the features of one of them are lost, and the name is given to
    the matcher twice. *)
Theorem extraction_same_names_refuted :
  exists (ou : outside Z Z) (opts : fe_options) (sched : list nat) (s : shared Z Z Z) f g,
    extract_all ou opts ∅ ["p/a"; "q/a"] sched (Db ∅ ∅ ∅) [] = Ok s /\
    ou_exists ou "p/a" = true /\ ou_exists ou "q/a" = true /\ ou_detect ou "p/a" = (true, f) /\ ou_detect ou "q/a" = (true, g) /\
    f <> g /\ (forall n, db_features (sh_db s) !! n <> Some f) /\ ~ NoDup (sh_names s).
Proof.
  set (ou := Outside (fun _ => true) sample_name (fun _ => Exif 640 480 None)
    (fun p => (true, ([1]%Z, [if decide (p = "p/a") then 5 else 6]%Z))) (fun _ _ => true) (fun _ _ => Q2Qc 1)).
  assert (H : match extract_all ou (sample_options false true 1) ∅ ["p/a"; "q/a"] (round_robin 2 20) (Db ∅ ∅ ∅ : db prior _ Z) [] with
    | Ok s => map_to_list (db_features (sh_db s)) = [("a", ([1]%Z, [6]%Z))] /\ sh_names s = ["a"; "a"]
    | _ => False end) by (vm_compute; repeat split).
  destruct (extract_all ou _ _ _ _ _ _) as [s| | |] eqn:E; [|destruct H..]. destruct H as [H1 H2].
  exists ou, (sample_options false true 1), (round_robin 2 20), s, ([1]%Z, [5]%Z), ([1]%Z, [6]%Z).
  split; [exact E|]. repeat (split; [reflexivity|]). split; [discriminate|]. split.
  - intros n Hn. apply elem_of_map_to_list in Hn. rewrite H1 in Hn. apply elem_of_list_singleton in Hn. discriminate.
  - rewrite H2. intros Hd. apply NoDup_cons in Hd as [Hd _]. apply Hd. left.
Qed.
Print Assumptions extraction_same_names_refuted.

(** * C135 *)
(** The features of an image are the detected features that are in the white part of the mask, in the order of detection
    and each with its own descriptor, up to the limit. *)
Theorem extract_features_result : forall (K De : Type) (ou : outside K De) (opts : fe_options) (masks : gmap string string)
    (path : string) (found : list (K * De)),
  ou_detect ou path = (true, (fst <$> found, snd <$> found)) -> (Z.of_nat (length found) < 2 ^ 63)%Z ->
  (forall mask, masks !! path = Some mask -> mask <> "" -> ou_mask_fits ou path mask = true) ->
  (0 <= fo_max_features opts < 2 ^ 31)%Z ->
  exists kept, extract_features ou opts path (default "" (masks !! path)) = Ok (fst <$> kept, snd <$> kept) /\
    kept = take (Z.to_nat (fo_max_features opts)) (filter (fun kd : K * De => in_white ou masks path kd.1) found).
Proof.
  intros K De ou opts masks path found Hd Hl Hm Ho. eexists. split; [|reflexivity].
  rewrite extract_features_ok; [| |..].
  - unfold image_features. rewrite Hd. cbn [fst snd]. rewrite zip_fst_snd, decide_True by lia. reflexivity.
  - rewrite Hd. cbn [fst snd]. rewrite !fmap_length. reflexivity.
  - rewrite Hd. cbn [fst snd]. rewrite fmap_length. exact Hl.
  - exact Hm.
  - lia.
Qed.
Print Assumptions extract_features_result.

(** A mask of another size than the image aborts the process; a failed detection gives what the detector left, even in the
    black part. *)
Theorem extract_features_else : forall (K De : Type) (ou : outside K De) (opts : fe_options) (path mask : string) (ok : bool) f,
  ou_detect ou path = (ok, f) ->
  (ok = false -> extract_features ou opts path mask = Ok f) /\
  (ok = true -> mask <> "" -> ou_mask_fits ou path mask = false -> extract_features ou opts path mask = CheckFail).
Proof.
  intros K De ou opts path mask ok f Hd. unfold extract_features. rewrite Hd. split; intros ->; [reflexivity|].
  intros Hm Hf. cbn [negb]. rewrite decide_False by exact Hm. rewrite Hf. reflexivity.
Qed.
Print Assumptions extract_features_else.

(** A negative limit is none. *)
Theorem extract_features_negative_refuted : exists (ou : outside Z Z) opts path f,
  (fo_max_features opts < 0)%Z /\ extract_features ou opts path "" = Ok f /\ (Z.of_nat (length f.1) > fo_max_features opts)%Z /\ length f.1 = 4%nat.
Proof.
  exists (sample_outside None), (FeOptions 2 false (-1) true 1), "p/a". eexists. split; [cbn; lia|]. split; [vm_compute; reflexivity|]. split; [cbn; lia|reflexivity].
Qed.
Print Assumptions extract_features_negative_refuted.

Example extract_features_sample :
  extract_features (sample_outside None) (sample_options false true 1) "p/a" (default "" (({[ "p/a" := "mask" ]} : gmap string string) !! "p/a")) =
    Ok ([1; 3]%Z, [0; 200]%Z) /\
  exists found, ou_detect (sample_outside None) "p/a" = (true, (fst <$> found, snd <$> found)) /\ length found = 4%nat.
Proof. split; [vm_compute; reflexivity|]. exists [(1, 0); (2, 100); (3, 200); (4, 300)]%Z. split; reflexivity. Qed.

(** * C136 *)
(** The priors that a user gives: one with a focal length stays as it is, in every schedule (see [extraction_result] and
    [prior_then]). *)
Theorem given_prior_partial : forall (K De M : Type) (ou : outside K De) (opts : fe_options) masks paths
    (d : db prior (list K * list De) M) sched s path name p f,
  provided ou opts masks paths d ->
  (1 <= fo_threads opts)%Z -> (1 <= length paths)%nat -> (Z.of_nat (length paths) < 2 ^ 31)%Z ->
  extract_all ou opts masks paths sched d [] = Ok s ->
  path ∈ images ou paths -> ou_name ou path = Some name -> db_priors d !! name = Some p -> p_focal p = Some f ->
  db_priors (sh_db s) !! name = Some p.
Proof.
  intros K De M ou opts masks paths d sched s path name p f HP H1 H2 H3 E Hp Hn Hpr Hf.
  destruct (extract_all_ok ou opts masks paths d HP sched H1 H2 H3) as [[E'|(s' & E' & Hx)] _]; rewrite E in E'; [discriminate|].
  injection E' as <-. rewrite (proj1 (xt_image _ _ _ _ _ _ Hx path name Hp Hn)). unfold prior_then, image_prior. rewrite Hpr. cbn. rewrite Hf. reflexivity.
Qed.
Print Assumptions given_prior_partial.

(** The principal point and the image size that a user gives without a focal length are replaced. *)
Theorem given_prior_refuted : exists (ou : outside Z Z) opts sched (s : shared Z Z Z) p q,
  p_point p = Some (100%R, 200%R) /\ p_width p = 320%Z /\
  extract_all ou opts ∅ ["p/a"] sched (Db {[ "a" := p ]} ∅ ∅) [] = Ok s /\
  db_priors (sh_db s) !! "a" = Some q /\ p_point q <> p_point p /\ p_width q = 640%Z.
Proof.
  set (p := Prior 320 240 "PINHOLE" None (Some (100%R, 200%R)) None None None None).
  set (ou := sample_outside None). set (opts := sample_options false true 1).
  assert (HP : provided ou opts ∅ ["p/a"] (Db {[ "a" := p ]} ∅ ∅ : db prior (list Z * list Z) Z)).
  { split; [intros q _; cbn; eauto| | |intros q m Hq; rewrite lookup_empty in Hq; discriminate|cbn; lia|intros _ n f Hf; cbn in Hf; rewrite lookup_empty in Hf; discriminate].
    - intros i j a b. assert (images ou ["p/a"] = ["p/a"]) as -> by (vm_compute; reflexivity).
      intros Hi Hj _. apply lookup_lt_Some in Hi, Hj. cbn in Hi, Hj. lia.
    - intros q _. unfold ou, sample_outside. cbn [ou_detect]. destruct (sample_name q) as [n|]; [|cbn; lia]. repeat case_match; cbn; lia. }
  destruct (proj2 (extract_all_ok ou opts ∅ ["p/a"] _ HP [] ltac:(cbn; lia) ltac:(cbn; lia) ltac:(cbn; lia))) as (sched & s & E). cbn [app] in E.
  destruct (extract_all_ok ou opts ∅ ["p/a"] _ HP sched ltac:(cbn; lia) ltac:(cbn; lia) ltac:(cbn; lia)) as [[E'|(s' & E' & Hx)] _]; rewrite E in E'; [discriminate|].
  injection E' as <-.
  destruct (xt_image _ _ _ _ _ _ Hx "p/a" "a") as [H1 _].
  { assert (images ou ["p/a"] = ["p/a"]) as -> by (vm_compute; reflexivity). left. }
  { reflexivity. }
  eexists ou, opts, sched, s, p, _. split; [reflexivity|]. split; [reflexivity|]. split; [exact E|]. split.
  - rewrite H1. unfold prior_then, image_prior. cbn [db_priors]. rewrite lookup_singleton. cbn. reflexivity.
  - split; [|reflexivity]. cbn [p_point p]. intros [= H _]. Lra.lra.
Qed.
Print Assumptions given_prior_refuted.

(** * C137 *)
(** The selection of pairs: whatever the iteration orders of the containers, each selected pair is in the list once, and the
    pairs in the list are those of the specification. *)
Theorem select_pairs_result : forall (ps : partial_sort) (ns : name_sort) om oi (score : nat -> nat -> Qc) (names : list string) (neighbors : Z),
  NoDup names -> (0 <= neighbors)%Z -> (Z.of_nat (length names) < 2 ^ 31)%Z ->
  exists l, select_pairs ps ns om oi score names neighbors = Ok l /\ NoDup l /\
    forall x y, (x, y) ∈ l <-> exists a b, (a < b)%nat /\ names !! a = Some x /\ names !! b = Some y /\
      selected (length names) score (Z.to_nat neighbors) a b.
Proof. exact select_pairs_ok. Qed.
Print Assumptions select_pairs_result.

(** The selection does not depend on the orders of the containers, nor on how ties are sorted. *)
Theorem select_pairs_deterministic : forall ps ps' (ns ns' : name_sort) om om' oi oi' score names neighbors l l',
  NoDup names -> (0 <= neighbors)%Z -> (Z.of_nat (length names) < 2 ^ 31)%Z ->
  select_pairs ps ns om oi score names neighbors = Ok l -> select_pairs ps' ns' om' oi' score names neighbors = Ok l' -> l ≡ₚ l'.
Proof.
  intros ps ps' ns ns' om om' oi oi' score names neighbors l l' Hn H0 H1 E E'.
  destruct (select_pairs_ok ps ns om oi score names neighbors Hn H0 H1) as (m & Em & N & S).
  destruct (select_pairs_ok ps' ns' om' oi' score names neighbors Hn H0 H1) as (m' & Em' & N' & S').
  rewrite E in Em. rewrite E' in Em'. injection Em as <-. injection Em' as <-.
  apply NoDup_Permutation; [exact N|exact N'|]. intros [x y]. rewrite S, S'. reflexivity.
Qed.
Print Assumptions select_pairs_deterministic.

(** A negative number of neighbours is undefined behaviour when there are images. *)
Theorem select_pairs_negative : forall ps ns om oi score (names : list string) neighbors,
  (neighbors < 0)%Z -> (1 <= length names)%nat -> select_pairs ps ns om oi score names neighbors = UB.
Proof.
  intros ps ns om oi score names neighbors Hn Hl. unfold select_pairs. destruct names as [|x names]; [cbn in Hl; lia|].
  cbn [length seq run_steps]. unfold image_step at 2. cbn [fst snd].
  set (rows := foldl _ _ _).
  assert (length rows = S (length names)) as Hr.
  { unfold rows. rewrite <- (replicate_length (S (length names)) ([] : list scored)) at 3. generalize (replicate (S (length names)) ([] : list scored)).
    generalize (seq 1 (S (length names) - 1)). intros l. induction l as [|j l IH]; intros r; [reflexivity|].
    cbn [foldl]. rewrite IH. unfold score_step. rewrite !alter_length. reflexivity. }
  destruct (lookup_lt_is_Some_2 rows 0 ltac:(lia)) as [row ->]. cbn [or_ub mbind outcome_bind].
  rewrite decide_True by lia. reflexivity.
Qed.
Print Assumptions select_pairs_negative.

Definition on_line (l : list Z) (i j : nat) : Qc := Q2Qc (inject_Z ((nth i l 0 - nth j l 0) * (nth i l 0 - nth j l 0)))%Z.
Definition line_pairs (l : list Z) (names : list string) : outcome (list (string * string)) :=
  select_pairs sample_ps sample_ns ord_id ord_id (on_line l) names 1.
(** Query expansion depends on the order of the images in the database: image b has the neighbour a, which has the neighbour
    c, and b and c are matched in one order and not in the other. *)
Theorem query_expansion_refuted : exists l l',
  line_pairs [0; -5; 2; 3]%Z ["a"; "b"; "c"; "d"] = Ok l /\ line_pairs [0; 2; -5; 3]%Z ["a"; "c"; "b"; "d"] = Ok l' /\
  ("a", "b") ∈ l /\ ("a", "c") ∈ l /\ ("b", "c") ∉ l /\ ("c", "b") ∉ l /\ ("c", "b") ∈ l'.
Proof.
  assert (H : match line_pairs [0; -5; 2; 3]%Z ["a"; "b"; "c"; "d"], line_pairs [0; 2; -5; 3]%Z ["a"; "c"; "b"; "d"] with
    | Ok l, Ok l' => bool_decide (("a", "b") ∈ l) = true /\ bool_decide (("a", "c") ∈ l) = true /\
        bool_decide (("b", "c") ∈ l) = false /\ bool_decide (("c", "b") ∈ l) = false /\ bool_decide (("c", "b") ∈ l') = true
    | _, _ => False end) by (vm_compute; repeat split).
  destruct (line_pairs [0; -5; 2; 3]%Z ["a"; "b"; "c"; "d"]) as [l| | |]; [|destruct H..].
  destruct (line_pairs [0; 2; -5; 3]%Z ["a"; "c"; "b"; "d"]) as [l'| | |]; [|destruct H..].
  rewrite !bool_decide_eq_true, !bool_decide_eq_false in H. exists l, l'. split; [reflexivity|]. split; [reflexivity|]. exact H.
Qed.
Print Assumptions query_expansion_refuted.

(** * C138 *)
(** With the global descriptors, ExtractAndMatchFeatures matches the selected pairs of the images that have features in the
    database: every such image is in some pair, the results of the selected pairs are stored, and no other match changes.
    Missing for the documented behaviour: see the refutations below. *)
Theorem extract_and_match_partial : forall (K De M : Type) (ou : outside K De) (opts : fe_options) masks
    (ps : partial_sort) (ns : name_sort) om oi on (train : list De -> bool) (distance : list De -> list De -> Qc)
    paths asked sched sched' (result : db prior (list K * list De) M -> string * string -> option M) (d : db prior (list K * list De) M) s,
  extract_all ou opts masks paths sched d [] = Ok s ->
  fo_global opts = true -> train (sh_training s) = true -> (1 <= fo_threads opts)%Z -> (1 <= fo_neighbors opts)%Z ->
  (2 <= size (db_features (sh_db s)))%nat -> (Z.of_nat (size (db_features (sh_db s)) * size (db_features (sh_db s))) + 20 < 2 ^ 31)%Z ->
  (forall l, sched' l ≡ₚ l) ->
  exists d' imgs pairs,
    extract_and_match ou opts masks ps ns om oi on train distance paths asked sched sched' result d = Ok d' /\
    db_priors d' = db_priors (sh_db s) /\ db_features d' = db_features (sh_db s) /\
    NoDup imgs /\ (forall x, x ∈ imgs <-> is_Some (db_features d' !! x)) /\
    NoDup pairs /\
    (forall x y, (x, y) ∈ pairs <-> exists a b, (a < b)%nat /\ imgs !! a = Some x /\ imgs !! b = Some y /\
       selected (length imgs) (fun i j => distance (descriptors_at d' imgs i) (descriptors_at d' imgs j)) (Z.to_nat (fo_neighbors opts)) a b) /\
    (forall x, x ∈ imgs -> exists y, (x, y) ∈ pairs \/ (y, x) ∈ pairs) /\
    (forall p, p ∈ pairs -> db_matches d' !! p = match result (sh_db s) p with Some r => Some r | None => db_matches (sh_db s) !! p end) /\
    (forall p, p ∉ pairs -> db_matches d' !! p = db_matches (sh_db s) !! p).
Proof. intros. apply extract_and_match_ok; assumption. Qed.
Print Assumptions extract_and_match_partial.

(** Without global descriptors a null pointer is dereferenced, whatever the images. *)
Theorem match_without_global_refuted : forall (K De M : Type) (ou : outside K De) (opts : fe_options) masks
    (ps : partial_sort) (ns : name_sort) om oi on train distance paths asked sched sched' result (d : db prior (list K * list De) M) s,
  extract_all ou opts masks paths sched d [] = Ok s -> fo_global opts = false ->
  extract_and_match ou opts masks ps ns om oi on train distance paths asked sched sched' result d = UB.
Proof. intros. unfold extract_and_match, select_images. rewrite H, H0. reflexivity. Qed.
Print Assumptions match_without_global_refuted.

(** The pairs that the user asks for are ignored: the call does the same for all of them, and there are pairs asked for that
    are not matched. *)
Theorem requested_pairs_refuted :
  (forall (K De M : Type) (ou : outside K De) (opts : fe_options) masks (ps : partial_sort) (ns : name_sort) om oi on train distance
     paths asked asked' sched sched' result (d : db prior (list K * list De) M),
   extract_and_match ou opts masks ps ns om oi on train distance paths asked sched sched' result d =
   extract_and_match ou opts masks ps ns om oi on train distance paths asked' sched sched' result d) /\
  (exists d', sample_run false None 1 ["p/a"; "p/b"; "p/c"; "p/d"] [("a", "c")] sample_db = Ok d' /\
     db_matches d' !! ("b", "a") = Some 7%Z /\ db_matches d' !! ("d", "c") = Some 7%Z /\
     db_matches d' !! ("a", "c") = None /\ db_matches d' !! ("c", "a") = None).
Proof.
  split; [reflexivity|].
  assert (H : match sample_run false None 1 ["p/a"; "p/b"; "p/c"; "p/d"] [("a", "c")] sample_db with
    | Ok d' => db_matches d' !! ("b", "a") = Some 7%Z /\ db_matches d' !! ("d", "c") = Some 7%Z /\
        db_matches d' !! ("a", "c") = None /\ db_matches d' !! ("c", "a") = None
    | _ => False end) by (vm_compute; repeat split).
  destruct (sample_run _ _ _ _ _ _) as [d'| | |]; [|destruct H..]. exists d'. split; [reflexivity|exact H].
Qed.
Print Assumptions requested_pairs_refuted.

(** Only calibrated images are wanted, and an image without a focal length is matched, because its features are in the
    database; it was not given to the matcher. *)
Theorem only_calibrated_refuted : exists (p : prior) (d d' : db prior (list Z * list Z) Z),
  p_focal p <> None /\ db_priors d !! "a" = Some p /\ db_priors d !! "b" = None /\
  sample_run true None 1 ["p/a"; "p/b"] [] d = Ok d' /\ db_priors d' !! "b" = None /\ db_matches d' !! ("b", "a") = Some 7%Z.
Proof.
  set (p := Prior 320 240 "PINHOLE" (Some 1%R) None None None None None).
  set (d := Db {[ "a" := p ]} {[ "b" := ([1]%Z, [1]%Z) ]} ∅ : db prior (list Z * list Z) Z).
  assert (H : match sample_run true None 1 ["p/a"; "p/b"] [] d with
    | Ok d' => db_priors d' !! "b" = None /\ db_matches d' !! ("b", "a") = Some 7%Z
    | _ => False end) by (vm_compute; repeat split).
  destruct (sample_run _ _ _ _ _ _) as [d'| | |] eqn:E; [|destruct H..]. exists p, d, d'. split; [discriminate|].
  split; [reflexivity|]. split; [reflexivity|]. split; [exact E|exact H].
Qed.
Print Assumptions only_calibrated_refuted.

(** With no neighbours wanted every pair is matched. *)
Theorem no_neighbors_refuted : exists d',
  sample_run false None 0 ["p/a"; "p/b"; "p/c"] [] sample_db = Ok d' /\ size (db_matches d') = 3%nat.
Proof.
  assert (H : match sample_run false None 0 ["p/a"; "p/b"; "p/c"] [] sample_db with Ok d' => size (db_matches d') = 3%nat | _ => False end) by (vm_compute; reflexivity).
  destruct (sample_run _ _ _ _ _ _) as [d'| | |]; [|destruct H..]. exists d'. split; [reflexivity|exact H].
Qed.
Print Assumptions no_neighbors_refuted.

(** * C139 *)
(** With two threads and two images there is a schedule with a data race on the priors in the database, which is documented
    to be thread safe. *)
Theorem extraction_race_refuted : forall (K De M : Type) (ou : outside K De) (opts : fe_options) masks threads p q rest paths
    (d : db prior (list K * list De) M) n,
  images ou paths = p :: q :: rest -> (2 <= threads)%nat -> ou_name ou p = Some n -> is_Some (ou_name ou q) ->
  is_Some (image_prior ou opts p (db_priors d !! n)) ->
  exists sched s, run_steps (step ou opts masks threads) (first_state ou paths d []) sched = Ok s /\ race ou opts s.
Proof. intros. eapply two_threads_race; eassumption. Qed.
Print Assumptions extraction_race_refuted.
(** With one thread there is none. *)
Theorem extraction_race_partial : forall (K De M : Type) (ou : outside K De) (opts : fe_options) masks paths (d : db prior (list K * list De) M) sched s,
  run_steps (step ou opts masks 1) (first_state ou paths d []) sched = Ok s -> ~ race ou opts s.
Proof. intros. eapply one_thread_no_race; eassumption. Qed.
Print Assumptions extraction_race_partial.
Example race_sample : exists sched (s : state Z Z Z),
  run_steps (step (sample_outside None) (sample_options false true 1) ∅ 2) (first_state (sample_outside None) ["p/a"; "p/b"] sample_db []) sched = Ok s /\
  race (sample_outside None) (sample_options false true 1) s.
Proof.
  eapply (extraction_race_refuted Z Z Z _ _ ∅ 2 "p/a" "p/b" [] ["p/a"; "p/b"] sample_db "a"); [vm_compute; reflexivity|lia|reflexivity|cbn; eauto|].
  cbn. eauto.
Qed.
