(** Model of /repo/src/theia/matching/feature_matcher_utils.cc and brute_force_feature_matcher.cc.

    Descriptors and distances are abstract: [dist] is the functor L2 (distance.h), [lt] the order of float,
    [ratio d0 d1] the test d0 < lowes_ratio^2 * d1.  Feature indices are ints; images have fewer than 2^31
    features, so the loop variables do not overflow. *)
From stdpp Require Import gmap.
From Verif Require Import Base.

Section matching.
Context {Desc D : Type} (lt : D -> D -> bool).

(** indexed_feature_match.h:40-51. *)
Record fmatch := FMatch { feature1 : Z; feature2 : Z; fdist : D }.

(** feature_matcher_utils.cc:50-58: the loop that fills index_map (InsertOrDie aborts on a second value). *)
Definition index_matches (backward : list fmatch) : outcome (gmap Z Z) :=
  run_steps (fun (im : gmap Z Z) m =>
    match im !! feature1 m with
    | Some _ => CheckFail
    | None => Ok (<[feature1 m := feature2 m]> im)
    end) ∅ backward.

(** feature_matcher_utils.cc:48-71, IntersectMatches. *)
Definition intersect_matches (backward forward : list fmatch) : outcome (list fmatch) :=
  im ← index_matches backward;
  Ok (filter (fun m => feature1 m = default (-1)%Z (im !! feature2 m)) forward).

(** std::partial_sort(begin, begin + 2, end, CompareFeaturesByDistance): any function with the effect that
    the C++ standard prescribes for at least two elements; with fewer, begin + 2 is out of range. *)
Record partial_sort := PartialSort {
  psort : list fmatch -> list fmatch;
  psort_perm : forall l, psort l ≡ₚ l;
  psort_first : forall l a b rest, psort l = a :: b :: rest ->
    lt (fdist b) (fdist a) = false /\ Forall (fun x => lt (fdist x) (fdist b) = false) rest }.

Context (P : partial_sort) (dist : Desc -> Desc -> D) (ratio : D -> D -> bool).

(** feature_matcher_options.h. *)
Record options := Options {
  use_lowes_ratio : bool;
  keep_only_symmetric_matches : bool;
  min_num_feature_matches : Z }.
Context (opt : options).

(** brute_force_feature_matcher.cc:66-68 (and 93-96): the candidate matches of feature [i]. *)
Definition candidates (i : nat) (d : Desc) (others : list Desc) : list fmatch :=
  imap (fun j d' => FMatch (Z.of_nat i) (Z.of_nat j) (dist d d')) others.

(** brute_force_feature_matcher.cc:65-83 (and 92-110): the body of the loop, for one feature. *)
Definition match_one (others : list Desc) (i : nat) (d : Desc) : outcome (list fmatch) :=
  match psort P (candidates i d others) with
  | a :: b :: _ => Ok (if negb (use_lowes_ratio opt) || ratio (fdist a) (fdist b) then [a] else [])
  | _ => UB
  end.

(** brute_force_feature_matcher.cc:64-84 (and 91-111): the loop over the features. *)
Fixpoint match_loop (others : list Desc) (i : nat) (descs : list Desc) : outcome (list fmatch) :=
  match descs with
  | [] => Ok []
  | d :: rest =>
      m ← match_one others i d;
      ms ← match_loop others (S i) rest;
      Ok (m ++ ms)
  end.

(** The comparison of a size_t with an int option: the int is converted to unsigned. *)
Definition fewer_than_min (n : nat) : bool :=
  bool_decide (Z.of_nat n < min_num_feature_matches opt mod 2 ^ 64)%Z.

(** brute_force_feature_matcher.cc:49-117, MatchImagePair, on an empty output vector. *)
Definition match_image_pair (descs1 descs2 : list Desc) : outcome (bool * list fmatch) :=
  ms ← match_loop descs2 0 descs1;
  if fewer_than_min (length ms) then Ok (false, ms) else
  ms' ← (if keep_only_symmetric_matches opt then
           rev ← match_loop descs1 0 descs2;
           intersect_matches rev ms
         else Ok ms);
  Ok (negb (fewer_than_min (length ms')), ms').

End matching.
Arguments fmatch : clear implicits.
Arguments FMatch {D} _ _ _.
