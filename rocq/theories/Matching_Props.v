(** Properties of matching utilities. *)
From stdpp Require Import gmap sorting.
From Verif Require Import Base Matching_Model Matching_Spec Matching_Proofs.

(** C24.  When no feature is the source of two backward matches, IntersectMatches leaves exactly the
    forward matches (i, j) for which (j, i) is a backward match, in their order; otherwise it aborts. *)
Theorem intersect_matches_exact : forall (D : Type) (backward forward : list (fmatch D)),
  NoDup (feature1 <$> backward) -> (forall m, m ∈ forward -> feature1 m ≠ (-1)%Z) ->
  intersect_matches backward forward =
  Ok (filter (fun m => Exists (fun b => feature1 b = feature2 m /\ feature2 b = feature1 m) backward) forward).
Proof. exact @intersect_lemma. Qed.
Print Assumptions intersect_matches_exact.

Theorem intersect_matches_repeated : forall (D : Type) (backward forward : list (fmatch D)),
  ~ NoDup (feature1 <$> backward) -> intersect_matches backward forward = CheckFail.
Proof. exact @intersect_dup. Qed.
Print Assumptions intersect_matches_repeated.

(** The index -1 is not usable: it is the default of the lookup, so a forward match (-1, j) is kept
    although there is no backward match at all. *)
Example intersect_minus_one : intersect_matches [] [FMatch (-1) 5 0%Z] = Ok [FMatch (-1) 5 0%Z].
Proof. done. Qed.

Example intersect_sample :
  intersect_matches [FMatch 1 0 2; FMatch 3 2 1; FMatch 2 7 5]%Z [FMatch 0 1 2; FMatch 7 3 1; FMatch 2 3 1]%Z
  = Ok [FMatch 0 1 2; FMatch 2 3 1]%Z.
Proof. by vm_compute. Qed.

(** C25, for images that both have at least two descriptors.  The returned matches link a descriptor to a
    nearest one that passes the ratio test (if on), with at most one match per feature of the first
    image; with symmetric matching on, a successful call only returns mutual matches.  All such pairs are
    returned (of several equally near features, one).  Success means that there are enough matches.
    Missing: images with fewer descriptors, see the refutation. *)
Theorem brute_force_partial : forall (Desc D : Type) (lt : D -> D -> bool) (P : partial_sort lt)
    (dist : Desc -> Desc -> D) (ratio : D -> D -> bool) (opt : options),
  total_order lt -> forall descs1 descs2 : list Desc,
  (2 <= length descs1)%nat -> (2 <= length descs2)%nat -> (0 <= min_num_feature_matches opt < 2 ^ 64)%Z ->
  exists ok ms, match_image_pair lt P dist ratio opt descs1 descs2 = Ok (ok, ms) /\
    (ok = true <-> (min_num_feature_matches opt <= Z.of_nat (length ms))%Z) /\
    StronglySorted Z.lt (feature1 <$> ms) /\
    (forall m, m ∈ ms -> exists i di j dj, descs1 !! i = Some di /\ descs2 !! j = Some dj /\
       m = FMatch (Z.of_nat i) (Z.of_nat j) (dist di dj) /\ acceptable lt dist ratio opt di descs2 j /\
       (ok = true -> keep_only_symmetric_matches opt = true -> acceptable lt dist ratio opt dj descs1 i)) /\
    (keep_only_symmetric_matches opt = false -> forall i di j,
       descs1 !! i = Some di -> acceptable lt dist ratio opt di descs2 j ->
       exists m, m ∈ ms /\ feature1 m = Z.of_nat i) /\
    (forall i di j dj, descs1 !! i = Some di -> descs2 !! j = Some dj ->
       acceptable lt dist ratio opt di descs2 j -> only_nearest lt dist di descs2 j ->
       acceptable lt dist ratio opt dj descs1 i -> only_nearest lt dist dj descs1 i ->
       FMatch (Z.of_nat i) (Z.of_nat j) (dist di dj) ∈ ms).
Proof. exact @brute_lemma. Qed.
Print Assumptions brute_force_partial.

(** The call is not well defined for all inputs: an image with no or one descriptor, matched against an
    image with some, is undefined behaviour, whatever the options. *)
Theorem brute_force_refuted : forall (Desc D : Type) (lt : D -> D -> bool) (P : partial_sort lt)
    (dist : Desc -> Desc -> D) (ratio : D -> D -> bool) (opt : options) (descs1 descs2 : list Desc),
  descs1 ≠ [] -> (length descs2 < 2)%nat ->
  match_image_pair lt P dist ratio opt descs1 descs2 = UB.
Proof.
  intros Desc D lt P dist ratio opt descs1 descs2 Hne Hlen. unfold match_image_pair.
  destruct descs1 as [|d descs1]; [done|]. by rewrite match_loop_ub.
Qed.
Print Assumptions brute_force_refuted.

(** Non-vacuity: descriptors are numbers, the distance is their difference. *)
Example brute_force_sample :
  total_order Z.ltb /\
  match_image_pair Z.ltb sort_all (fun a b : Z => Z.abs (a - b)) (fun d0 d1 => Z.ltb (10 * d0) (8 * d1))
    (Options true true 2) [0; 100; 203; 55]%Z [201; 7; 101; 300]%Z
  = Ok (true, [FMatch 0 1 7; FMatch 1 2 1; FMatch 2 0 2]%Z).
Proof.
  split; [|by vm_compute]. split_and!.
  - apply Z.ltb_irrefl.
  - intros x y z. rewrite !Z.ltb_lt. lia.
  - intros x y. rewrite !Z.ltb_lt. lia.
Qed.
