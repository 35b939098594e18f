(** Model of /repo/src/theia/sfm/reconstruction.{h,cc}, /repo/src/theia/sfm/track.{h,cc},
    /repo/src/theia/sfm/view.{h,cc}, and of the save/load path
    /repo/src/theia/io/reconstruction_writer.cc, /repo/src/theia/io/reconstruction_reader.cc,
    /repo/src/theia/sfm/reconstruction_estimator_utils.cc:190-217.

    [F] is the feature type (Eigen::Vector2d), [C] the remaining per-view data (camera extrinsics,
    intrinsics prior), [D] the remaining per-track data (point, color).  They are only copied.
    The camera intrinsics of a view are a shared_ptr; the model keeps the identity of the object it
    points to ([v_intr], allocated from [rc_next_ptr]).  Reconstruction::Normalize is not modelled
    here. *)
From stdpp Require Import gmap strings sorting.
From Verif Require Import Base.

(** sfm/types.h:47-56. *)
Definition kInvalidId : N := (2 ^ 32 - 1)%N.
Definition wrap32 (n : N) : N := (n mod 2 ^ 32)%N.

Section reconstruction.
Context {F C D : Type}.

(** view.h / view.cc:49-107. *)
Record view := View {
  v_name : string; v_est : bool; v_intr : N; v_data : C; v_feats : gmap N F }.

(** track.h / track.cc:46-90. *)
Record track := Track { t_est : bool; t_data : D; t_views : gset N }.

(** reconstruction.h:169-180, the data members ([rc_next_ptr] is the model's allocator). *)
Record recon := Recon {
  rc_next_track : N; rc_next_view : N; rc_next_group : N;
  rc_names : gmap string N;
  rc_views : gmap N view;
  rc_tracks : gmap N track;
  rc_view_group : gmap N N;
  rc_groups : gmap N (gset N);
  rc_next_ptr : N }.

(** reconstruction.cc:82-85. *)
Definition rc_empty : recon := Recon 0 0 0 ∅ ∅ ∅ ∅ ∅ 0.

(** Field updates. *)
Definition set_views (r : recon) (m : gmap N view) : recon :=
  Recon (rc_next_track r) (rc_next_view r) (rc_next_group r) (rc_names r) m (rc_tracks r)
    (rc_view_group r) (rc_groups r) (rc_next_ptr r).
Definition set_tracks (r : recon) (m : gmap N track) : recon :=
  Recon (rc_next_track r) (rc_next_view r) (rc_next_group r) (rc_names r) (rc_views r) m
    (rc_view_group r) (rc_groups r) (rc_next_ptr r).

(** std::unordered_map::emplace: no effect when the key is present. *)
Definition emplace {K A} `{Countable K} (k : K) (a : A) (m : gmap K A) : gmap K A :=
  match m !! k with Some _ => m | None => <[k := a]> m end.

(** reconstruction.cc:89-91. *)
Definition rc_view_id_from_name (r : recon) (n : string) : N := default kInvalidId (rc_names r !! n).

Context (c0 : C) (d0 : D).

(** reconstruction.cc:99-139.  [o] chooses the element returned by begin() of the group. *)
Definition rc_add_view_group (o : order N) (r : recon) (name : string) (group : N)
  : outcome (recon * N) :=
  match rc_names r !! name with
  | Some _ => Ok (r, kInvalidId)
  | None =>
      if decide (name = EmptyString) then Ok (r, kInvalidId)
      else
        let members := rc_groups r !!! group in
        (* class View new_view(view_name) allocates its own intrinsics object. *)
        ptr ← match o (elements members) with
              | [] => Ok (rc_next_ptr r)
              | u :: _ => v_intr <$> or_die (rc_views r !! u)
              end;
        let id := rc_next_view r in
        let v := View name false ptr c0 ∅ in
        let next := wrap32 (id + 1) in
        Ok (Recon (rc_next_track r) next (rc_next_group r)
              (emplace name id (rc_names r))
              (emplace id v (rc_views r))
              (rc_tracks r)
              (emplace id group (rc_view_group r))
              (<[group := {[id]} ∪ members]> (rc_groups r))
              (rc_next_ptr r + 1),
            wrap32 (next + 2 ^ 32 - 1))
  end.

(** reconstruction.cc:93-97. *)
Definition rc_add_view (o : order N) (r : recon) (name : string) : outcome (recon * N) :=
  '(r', id) ← rc_add_view_group o r name (rc_next_group r);
  Ok (Recon (rc_next_track r') (rc_next_view r') (wrap32 (rc_next_group r' + 1)) (rc_names r')
        (rc_views r') (rc_tracks r') (rc_view_group r') (rc_groups r') (rc_next_ptr r'), id).

(** reconstruction.cc:329-343 with view.cc:103-105, the loop of RemoveTrack. *)
Fixpoint remove_track_loop (r : recon) (t : N) (vs : list N) : recon * bool :=
  match vs with
  | [] => (r, true)
  | u :: vs' =>
      match rc_views r !! u with
      | None => (r, false)
      | Some v =>
          match v_feats v !! t with
          | None => (r, false)
          | Some _ =>
              let v' := View (v_name v) (v_est v) (v_intr v) (v_data v) (delete t (v_feats v)) in
              remove_track_loop (set_views r (<[u := v']> (rc_views r))) t vs'
          end
      end
  end.

(** reconstruction.cc:322-348. *)
Definition rc_remove_track (o : order N) (r : recon) (t : N) : recon * bool :=
  match rc_tracks r !! t with
  | None => (r, false)
  | Some T =>
      let '(r', ok) := remove_track_loop r t (o (elements (t_views T))) in
      if ok then (set_tracks r' (delete t (rc_tracks r')), true) else (r', false)
  end.

(** reconstruction.cc:151-168 with track.cc:84-86, the loop of RemoveView. *)
Fixpoint remove_view_loop (o : order N) (r : recon) (u : N) (ts : list N) : recon * bool :=
  match ts with
  | [] => (r, true)
  | t :: ts' =>
      match rc_tracks r !! t with
      | None => (r, false)
      | Some T =>
          if decide (u ∈ t_views T) then
            let T' := Track (t_est T) (t_data T) (t_views T ∖ {[u]}) in
            let r1 := set_tracks r (<[t := T']> (rc_tracks r)) in
            let r2 := if decide (t_views T' = ∅) then (rc_remove_track o r1 t).1 else r1 in
            remove_view_loop o r2 u ts'
          else (r, false)
      end
  end.

(** reconstruction.cc:141-188. *)
Definition rc_remove_view (o : order N) (r : recon) (u : N) : outcome (recon * bool) :=
  match rc_views r !! u with
  | None => Ok (r, false)
  | Some v =>
      let '(r', ok) := remove_view_loop o r u (o (elements (dom (v_feats v)))) in
      if ok then
        v' ← or_ub (rc_views r' !! u);
        let names := delete (v_name v') (rc_names r') in
        let group : N := default kInvalidId (rc_view_group r' !! u) in
        members ← (or_die (rc_groups r' !! group) : outcome (gset N));
        let members' : gset N := members ∖ {[u]} in
        let groups := if decide (members' = ∅) then delete group (rc_groups r')
                      else <[group := members']> (rc_groups r') in
        Ok (Recon (rc_next_track r') (rc_next_view r') (rc_next_group r') names
              (delete u (rc_views r')) (rc_tracks r') (delete u (rc_view_group r')) groups
              (rc_next_ptr r'), true)
      else Ok (r', false)
  end.

(** reconstruction.cc:239-249. *)
Definition rc_add_empty_track (r : recon) : outcome (recon * N) :=
  let id := rc_next_track r in
  match rc_tracks r !! id with
  | Some _ => CheckFail
  | None =>
      Ok (Recon (wrap32 (id + 1)) (rc_next_view r) (rc_next_group r) (rc_names r) (rc_views r)
            (<[id := Track false d0 ∅]> (rc_tracks r)) (rc_view_group r) (rc_groups r)
            (rc_next_ptr r), id)
  end.

(** view.cc:99-101, AddFeature (overwrites). *)
Definition add_feature (v : view) (t : N) (f : F) : view :=
  View (v_name v) (v_est v) (v_intr v) (v_data v) (<[t := f]> (v_feats v)).

(** reconstruction.cc:251-281. *)
Definition rc_add_observation (r : recon) (u t : N) (f : F) : outcome (recon * bool) :=
  v ← or_die (rc_views r !! u);
  T ← or_die (rc_tracks r !! t);
  match v_feats v !! t with
  | Some _ => Ok (r, false)
  | None =>
      if decide (u ∈ t_views T) then Ok (r, false)
      else
        let r1 := set_views r (<[u := add_feature v t f]> (rc_views r)) in
        Ok (set_tracks r1 (<[t := Track (t_est T) (t_data T) ({[u]} ∪ t_views T)]> (rc_tracks r1)),
            true)
  end.

(** std::adjacent_find(...) != end(). *)
Fixpoint adjacent_dup (l : list N) : bool :=
  match l with
  | a :: (b :: _) as l' => bool_decide (a = b) || adjacent_dup l'
  | _ => false
  end.

(** reconstruction.cc:61-71 (std::sort as a merge sort). *)
Definition duplicate_views (obs : list (N * F)) : bool :=
  adjacent_dup (merge_sort N.le (obs.*1)).

(** reconstruction.cc:303-315, the loop of AddTrack(observations). *)
Fixpoint add_track_loop (r : recon) (t : N) (vs : gset N) (obs : list (N * F))
  : outcome (recon * gset N) :=
  match obs with
  | [] => Ok (r, vs)
  | (u, f) :: obs' =>
      v ← or_die (rc_views r !! u);
      add_track_loop (set_views r (<[u := add_feature v t f]> (rc_views r))) t ({[u]} ∪ vs) obs'
  end.

(** reconstruction.cc:283-320. *)
Definition rc_add_track (r : recon) (obs : list (N * F)) : outcome (recon * N) :=
  if decide (length obs < 2)%nat then Ok (r, kInvalidId)
  else if duplicate_views obs then Ok (r, kInvalidId)
  else
    let id := rc_next_track r in
    match rc_tracks r !! id with
    | Some _ => CheckFail
    | None =>
        '(r', vs) ← add_track_loop r id ∅ obs;
        Ok (Recon (wrap32 (id + 1)) (rc_next_view r') (rc_next_group r') (rc_names r')
              (rc_views r') (<[id := Track false d0 vs]> (rc_tracks r')) (rc_view_group r')
              (rc_groups r') (rc_next_ptr r'), id)
    end.

(** Changes of per-view / per-track data through MutableView / MutableTrack
    (reconstruction.cc:196-198, 356-358; view.cc:58-60, 70-72; track.cc:56-58, 68-78). *)
Definition rc_set_view (r : recon) (u : N) (est : bool) (c : C) : recon :=
  set_views r (alter (fun v => View (v_name v) est (v_intr v) c (v_feats v)) u (rc_views r)).
Definition rc_set_track (r : recon) (t : N) (est : bool) (d : D) : recon :=
  set_tracks r (alter (fun T => Track est d (t_views T)) t (rc_tracks r)).

(** The operations, as one state machine.  Orders are the iteration orders used by that call. *)
Inductive rc_op :=
| OAddView (o : order N) (name : string)
| OAddViewGroup (o : order N) (name : string) (group : N)
| ORemoveView (o : order N) (u : N)
| OAddEmptyTrack
| OAddTrack (obs : list (N * F))
| OAddObservation (u t : N) (f : F)
| ORemoveTrack (o : order N) (t : N)
| OSetView (u : N) (est : bool) (c : C)
| OSetTrack (t : N) (est : bool) (d : D).

Inductive rc_res := RId (n : N) | RBool (b : bool) | RVoid.

Definition rc_step (r : recon) (op : rc_op) : outcome (recon * rc_res) :=
  match op with
  | OAddView o n => '(r', id) ← rc_add_view o r n; Ok (r', RId id)
  | OAddViewGroup o n g => '(r', id) ← rc_add_view_group o r n g; Ok (r', RId id)
  | ORemoveView o u => '(r', b) ← rc_remove_view o r u; Ok (r', RBool b)
  | OAddEmptyTrack => '(r', id) ← rc_add_empty_track r; Ok (r', RId id)
  | OAddTrack obs => '(r', id) ← rc_add_track r obs; Ok (r', RId id)
  | OAddObservation u t f => '(r', b) ← rc_add_observation r u t f; Ok (r', RBool b)
  | ORemoveTrack o t => let '(r', b) := rc_remove_track o r t in Ok (r', RBool b)
  | OSetView u e c => Ok (rc_set_view r u e c, RVoid)
  | OSetTrack t e d => Ok (rc_set_track r t e d, RVoid)
  end.

(** reconstruction.cc:482-505, first loop of GetSubReconstruction. *)
Definition sub_view_step (r : recon) (st : recon * gset N) (u : N) : outcome (recon * gset N) :=
  let '(sub, ts) := st in
  match rc_views r !! u with
  | None => Ok st
  | Some v =>
      group ← or_die (rc_view_group r !! u);
      Ok (Recon (rc_next_track sub) (rc_next_view sub) (rc_next_group sub)
            (<[v_name v := u]> (rc_names sub))
            (<[u := v]> (rc_views sub))
            (rc_tracks sub)
            (<[u := group]> (rc_view_group sub))
            (<[group := {[u]} ∪ (rc_groups sub !!! group)]> (rc_groups sub))
            (rc_next_ptr sub),
          ts ∪ dom (v_feats v))
  end.

(** util/util.h:76-93, ContainerIntersection, as set intersection. *)
(** reconstruction.cc:509-536, second loop of GetSubReconstruction. *)
Definition sub_track_step (r : recon) (views : gset N) (sub : recon) (t : N) : recon :=
  match rc_tracks r !! t with
  | None => sub
  | Some T =>
      set_tracks sub (emplace t (Track (t_est T) (t_data T) (views ∩ t_views T)) (rc_tracks sub))
  end.

(** reconstruction.cc:467-537.  [sub] is the output object (not cleared by the C++). *)
Definition rc_sub (o : order N) (r : recon) (views : gset N) (sub : recon) : outcome recon :=
  let sub0 := Recon (rc_next_track r) (rc_next_view r) (rc_next_group r) (rc_names sub)
                (rc_views sub) (rc_tracks sub) (rc_view_group sub) (rc_groups sub)
                (rc_next_ptr r) in
  '(sub1, ts) ← run_steps (sub_view_step r) (sub0, ∅) (o (elements views));
  Ok (foldl (sub_track_step r views) sub1 (o (elements ts))).

(** reconstruction.h:158-167: what serialize writes (and reads back). *)
Record saved := Saved {
  s_next_track : N; s_next_view : N; s_names : gmap string N; s_views : gmap N view;
  s_tracks : gmap N track; s_view_group : gmap N N; s_groups : gmap N (gset N) }.

Definition rc_save (r : recon) : saved :=
  Saved (rc_next_track r) (rc_next_view r) (rc_names r) (rc_views r) (rc_tracks r)
    (rc_view_group r) (rc_groups r).

(** Reading into a default-constructed Reconstruction (reconstruction_reader.cc:53-76): the members that
    are not archived keep their initial value.  cereal keeps track of shared_ptr identities within one
    archive, so the sharing of intrinsics objects is preserved; the model gives the objects read back the
    numbers of the saved ones ([ptr] continues the numbering). *)
Definition rc_load (s : saved) (ptr : N) : recon :=
  Recon (s_next_track s) (s_next_view s) (rc_next_group rc_empty) (s_names s) (s_views s)
    (s_tracks s) (s_view_group s) (s_groups s) ptr.

(** reconstruction_estimator_utils.cc:195-204, the first loop of CreateEstimatedSubreconstruction. *)
Definition est_view_step (o : order N) (r : recon) (u : N) : outcome recon :=
  match rc_views r !! u with
  | None => Ok r
  | Some v => if v_est v then Ok r
              else '(r', b) ← rc_remove_view o r u; _ ← check b; Ok r'
  end.

(** reconstruction_estimator_utils.cc:207-216, the second loop. *)
Definition est_track_step (o : order N) (r : recon) (t : N) : outcome recon :=
  match rc_tracks r !! t with
  | None => Ok r
  | Some T => if decide (t_est T = false \/ size (t_views T) < 2)%nat
              then let '(r', b) := rc_remove_track o r t in _ ← check b; Ok r'
              else Ok r
  end.

(** reconstruction_estimator_utils.cc:190-217, CreateEstimatedSubreconstruction. *)
Definition rc_estimated (o : order N) (r : recon) : outcome recon :=
  r1 ← run_steps (est_view_step o) r (o (elements (dom (rc_views r))));
  run_steps (est_track_step o) r1 (o (elements (dom (rc_tracks r1)))).

(** reconstruction_writer.cc:52-71 followed by reconstruction_reader.cc:53-76. *)
Definition rc_write_read (o : order N) (r : recon) : outcome recon :=
  e ← rc_estimated o r;
  Ok (rc_load (rc_save e) (rc_next_ptr e)).

End reconstruction.
Arguments view : clear implicits.
Arguments track : clear implicits.
Arguments recon : clear implicits.
Arguments rc_op : clear implicits.
Arguments saved : clear implicits.
