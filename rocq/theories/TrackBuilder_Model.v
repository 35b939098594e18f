(** Model of /repo/src/theia/sfm/track_builder.{h,cc}, on top of the models of ConnectedComponents and
    Reconstruction.

    [F] is the feature type (Eigen::Vector2d).  Simplification: features are compared with Leibniz
    equality, which is the C++ operator== for coordinates that are neither NaN nor signed zeros of
    different sign. *)
From stdpp Require Import gmap.
From Verif Require Import Base ConnectedComponents_Model Reconstruction_Model.

Section track_builder.
Context {F : Type} `{Countable F} {C D : Type} (d0 : D).

(** track_builder.h:81-88, the data members. *)
Record tb := TB { tb_min : Z; tb_cc : cc; tb_features : gmap (N * F) N; tb_num : N }.

(** track_builder.cc:53-58. *)
Definition tb_new (min_length max_length : Z) : outcome tb :=
  c ← cc_new max_length;
  Ok (TB min_length c ∅ 0).

(** A uint64_t stored in an int (track_builder.cc:73-74) and converted back to the uint64_t parameter of
    AddEdge. *)
Definition through_int (n : N) : N :=
  let m := (n mod 2 ^ 32)%N in
  if decide (m < 2 ^ 31)%N then m else (2 ^ 64 - 2 ^ 32 + m)%N.

(** track_builder.cc:134-150, FindOrInsert. *)
Definition tb_find_or_insert (b : tb) (k : N * F) : tb * N :=
  match tb_features b !! k with
  | Some i => (b, i)
  | None => (TB (tb_min b) (tb_cc b) (<[k := tb_num b]> (tb_features b)) ((tb_num b + 1) mod 2 ^ 64)%N,
             tb_num b)
  end.

(** track_builder.cc:62-77, AddFeatureCorrespondence. *)
Definition tb_add (b : tb) (e : (N * F) * (N * F)) : outcome tb :=
  let '(k1, k2) := e in
  _ ← check (bool_decide (k1.1 ≠ k2.1));
  let '(b1, i1) := tb_find_or_insert b k1 in
  let '(b2, i2) := tb_find_or_insert b1 k2 in
  c ← cc_add_edge (tb_cc b2) (through_int i1) (through_int i2);
  Ok (TB (tb_min b2) c (tb_features b2) (tb_num b2)).

(** track_builder.cc:83-87: one InsertOrDie of the reverse map. *)
Definition tb_reverse_step (m : gmap N (N * F)) (ki : (N * F) * N) : outcome (gmap N (N * F)) :=
  match m !! ki.2 with
  | Some _ => CheckFail
  | None => Ok (<[ki.2 := ki.1]> m)
  end.

(** track_builder.cc:107-119: one feature of a component; the state is (track, view_ids). *)
Definition tb_collect_step (rev : gmap N (N * F)) (st : list (N * F) * gset N) (i : N)
  : outcome (list (N * F) * gset N) :=
  let '(track, view_ids) := st in
  k ← or_die (rev !! i);
  if decide (k.1 ∈ view_ids) then Ok st
  else Ok (track ++ [k], {[k.1]} ∪ view_ids).

(** track_builder.cc:96-123: one component.  The comparison converts the int to size_t. *)
Definition tb_component_step (on : order N) (min_length : Z) (rev : gmap N (N * F))
    (r : recon F C D) (kX : N * gset N) : outcome (recon F C D) :=
  if decide (N.of_nat (size kX.2) < Z.to_N (min_length mod 2 ^ 64))%N then Ok r
  else
    '(track, _) ← run_steps (tb_collect_step rev) ([], ∅) (on (elements kX.2));
    '(r', id) ← rc_add_track d0 r track;
    _ ← check (bool_decide (id ≠ kInvalidId));
    Ok r'.

(** track_builder.cc:79-131, BuildTracks.  [ofe], [on], [oc] are the iteration orders of the hash tables
    (features, feature ids, components). *)
Definition tb_build (ofe : order ((N * F) * N)) (on : order N) (oc : order (N * gset N))
    (b : tb) (r : recon F C D) : outcome (tb * recon F C D) :=
  rev ← run_steps tb_reverse_step ∅ (ofe (map_to_list (tb_features b)));
  '(c', comps) ← cc_extract (tb_cc b) (on (elements (dom (cc_set (tb_cc b)))));
  r' ← run_steps (tb_component_step on (tb_min b) rev) r (oc (map_to_list comps));
  Ok (TB (tb_min b) c' (tb_features b) (tb_num b), r').

End track_builder.
Arguments tb F {_ _}.
