(** Independent specification of a reconstruction: a table of views, a table of tracks and ONE table of
    observations (view id, track id) -> feature. *)
From stdpp Require Import gmap strings.
From Verif Require Import Base Reconstruction_Model.

Section spec.
Context {F C D : Type}.

Record aview := AView { a_name : string; a_group : N; a_vest : bool; a_intr : N; a_vdata : C }.
Record atrack := ATrack { a_test : bool; a_tdata : D }.
Record arecon := ARecon {
  a_views : gmap N aview;
  a_tracks : gmap N atrack;
  a_obs : gmap (N * N) F;
  a_next_view : N; a_next_track : N; a_next_group : N; a_next_ptr : N }.

Definition a_empty : arecon := ARecon ∅ ∅ ∅ 0 0 0 0.

(** The views that observe a track. *)
Definition observers (a : arecon) (t : N) : gset N :=
  set_map fst (filter (fun vt => vt.2 = t) (dom (a_obs a))).
(** The tracks seen by a view. *)
Definition seen (a : arecon) (u : N) : gset N :=
  set_map snd (filter (fun vt => vt.1 = u) (dom (a_obs a))).
(** The members of an intrinsics group. *)
Definition members (a : arecon) (g : N) : gset N :=
  dom (filter (fun kv => a_group kv.2 = g) (a_views a)).

Definition name_taken (a : arecon) (n : string) : Prop :=
  n ∈ (a_name <$> (map_to_list (a_views a)).*2).
Global Instance name_taken_dec a n : Decision (name_taken a n).
Proof. unfold name_taken. apply _. Defined.

Context (c0 : C) (d0 : D).

(** Add a view to group [g]: refused for a used or empty name; otherwise the next id, with the intrinsics
    object shared by the group (a new object for a new group). *)
Definition spec_add_view (a : arecon) (n : string) (g : N) : arecon * N :=
  if decide (name_taken a n \/ n = EmptyString) then (a, kInvalidId)
  else
    let ptr := match (filter (fun kv => a_group kv.2 = g) (map_to_list (a_views a))) with
               | [] => a_next_ptr a
               | (_, v) :: _ => a_intr v end in
    (ARecon (<[a_next_view a := AView n g false ptr c0]> (a_views a)) (a_tracks a) (a_obs a)
       (a_next_view a + 1) (a_next_track a) (a_next_group a) (a_next_ptr a + 1), a_next_view a).

Definition bump_group (a : arecon) : arecon :=
  ARecon (a_views a) (a_tracks a) (a_obs a) (a_next_view a) (a_next_track a)
    (wrap32 (a_next_group a + 1)) (a_next_ptr a).

(** Remove a view with all its observations, and the tracks that were seen by this view only. *)
Definition spec_remove_view (a : arecon) (u : N) : arecon * bool :=
  if decide (is_Some (a_views a !! u)) then
    (ARecon (delete u (a_views a))
       (filter (fun kt => observers a kt.1 ≠ {[u]}) (a_tracks a))
       (filter (fun kf => kf.1.1 ≠ u) (a_obs a))
       (a_next_view a) (a_next_track a) (a_next_group a) (a_next_ptr a), true)
  else (a, false).

(** Remove a track with all its observations. *)
Definition spec_remove_track (a : arecon) (t : N) : arecon * bool :=
  if decide (is_Some (a_tracks a !! t)) then
    (ARecon (a_views a) (delete t (a_tracks a)) (filter (fun kf => kf.1.2 ≠ t) (a_obs a))
       (a_next_view a) (a_next_track a) (a_next_group a) (a_next_ptr a), true)
  else (a, false).

Definition spec_add_empty_track (a : arecon) : arecon * N :=
  (ARecon (a_views a) (<[a_next_track a := ATrack false d0]> (a_tracks a)) (a_obs a)
     (a_next_view a) (a_next_track a + 1) (a_next_group a) (a_next_ptr a), a_next_track a).

(** Observations of an existing track by an existing view; refused when there is one already. *)
Definition spec_add_observation (a : arecon) (u t : N) (f : F) : outcome (arecon * bool) :=
  if decide (is_Some (a_views a !! u) /\ is_Some (a_tracks a !! t)) then
    match a_obs a !! (u, t) with
    | Some _ => Ok (a, false)
    | None => Ok (ARecon (a_views a) (a_tracks a) (<[(u, t) := f]> (a_obs a))
                    (a_next_view a) (a_next_track a) (a_next_group a) (a_next_ptr a), true)
    end
  else CheckFail.

(** A new track with the given observations: refused (no change) for fewer than two observations or two
    in the same view; abort when a view does not exist. *)
Definition spec_add_track (a : arecon) (obs : list (N * F)) : outcome (arecon * N) :=
  if decide (length obs < 2 \/ ~ NoDup obs.*1)%nat then Ok (a, kInvalidId)
  else if decide (Forall (fun u => is_Some (a_views a !! u)) obs.*1) then
    Ok (ARecon (a_views a) (<[a_next_track a := ATrack false d0]> (a_tracks a))
          (list_to_map ((fun uf => ((uf.1, a_next_track a), uf.2)) <$> obs) ∪ a_obs a)
          (a_next_view a) (a_next_track a + 1) (a_next_group a) (a_next_ptr a), a_next_track a)
  else CheckFail.

Definition spec_set_view (a : arecon) (u : N) (e : bool) (c : C) : arecon :=
  ARecon (alter (fun v => AView (a_name v) (a_group v) e (a_intr v) c) u (a_views a)) (a_tracks a)
    (a_obs a) (a_next_view a) (a_next_track a) (a_next_group a) (a_next_ptr a).
Definition spec_set_track (a : arecon) (t : N) (e : bool) (d : D) : arecon :=
  ARecon (a_views a) (alter (fun _ => ATrack e d) t (a_tracks a))
    (a_obs a) (a_next_view a) (a_next_track a) (a_next_group a) (a_next_ptr a).

Definition spec_step (a : arecon) (op : rc_op F C D) : outcome (arecon * rc_res) :=
  match op with
  | OAddView _ n => let '(a', id) := spec_add_view a n (a_next_group a) in Ok (bump_group a', RId id)
  | OAddViewGroup _ n g => let '(a', id) := spec_add_view a n g in Ok (a', RId id)
  | ORemoveView _ u => let '(a', b) := spec_remove_view a u in Ok (a', RBool b)
  | OAddEmptyTrack => let '(a', id) := spec_add_empty_track a in Ok (a', RId id)
  | OAddTrack obs => '(a', id) ← spec_add_track a obs; Ok (a', RId id)
  | OAddObservation u t f => '(a', b) ← spec_add_observation a u t f; Ok (a', RBool b)
  | ORemoveTrack _ t => let '(a', b) := spec_remove_track a t in Ok (a', RBool b)
  | OSetView u e c => Ok (spec_set_view a u e c, RVoid)
  | OSetTrack t e d => Ok (spec_set_track a t e d, RVoid)
  end.

(** The concrete reconstruction shows exactly the abstract one through its accessors. *)
Definition shows (r : recon F C D) (a : arecon) : Prop :=
  (* View(u): name, flags, data, features *)
  (forall u, (fun v => (v_name v, v_est v, v_intr v, v_data v)) <$> rc_views r !! u =
             (fun v => (a_name v, a_vest v, a_intr v, a_vdata v)) <$> a_views a !! u) /\
  (forall u v t, rc_views r !! u = Some v -> v_feats v !! t = a_obs a !! (u, t)) /\
  (* Track(t): flags, data, views *)
  (forall t, (fun T => (t_est T, t_data T)) <$> rc_tracks r !! t =
             (fun T => (a_test T, a_tdata T)) <$> a_tracks a !! t) /\
  (forall t T, rc_tracks r !! t = Some T -> t_views T = observers a t) /\
  (* ViewIdFromName *)
  (forall n, rc_names r !! n = None <-> ~ name_taken a n) /\
  (forall n u, rc_names r !! n = Some u <-> exists v, a_views a !! u = Some v /\ a_name v = n) /\
  (* intrinsics groups, both directions; only non-empty groups exist *)
  (forall u, rc_view_group r !! u = a_group <$> a_views a !! u) /\
  (forall g X, rc_groups r !! g = Some X <-> X = members a g /\ X ≠ ∅) /\
  rc_next_group r = a_next_group a.

(** The part of a reconstruction induced by a set [S] of views: those views, the tracks seen by at least
    one of them, and the observations made by them.  The counters are kept. *)
Definition spec_sub (a : arecon) (S : gset N) : arecon :=
  ARecon (filter (fun kv => kv.1 ∈ S) (a_views a))
    (filter (fun kt => observers a kt.1 ∩ S ≠ ∅) (a_tracks a))
    (filter (fun kf => kf.1.1 ∈ S) (a_obs a))
    (a_next_view a) (a_next_track a) (a_next_group a) (a_next_ptr a).

(** The estimated part: estimated views; estimated tracks seen by at least two estimated views; the
    observations between the two. *)
Definition est_views (a : arecon) : gset N := dom (filter (fun kv => a_vest kv.2 = true) (a_views a)).
Definition keep_track (a : arecon) (t : N) (T : atrack) : Prop :=
  a_test T = true /\ (2 <= size (observers a t ∩ est_views a))%nat.
Global Instance keep_track_dec a t T : Decision (keep_track a t T).
Proof. unfold keep_track. apply _. Defined.
Definition est_tracks (a : arecon) : gset N :=
  dom (filter (fun kt => keep_track a kt.1 kt.2) (a_tracks a)).
Definition spec_estimated (a : arecon) : arecon :=
  ARecon (filter (fun kv => kv.1 ∈ est_views a) (a_views a))
    (filter (fun kt => kt.1 ∈ est_tracks a) (a_tracks a))
    (filter (fun kf => kf.1.1 ∈ est_views a /\ kf.1.2 ∈ est_tracks a) (a_obs a))
    (a_next_view a) (a_next_track a) (a_next_group a) (a_next_ptr a).

(** Which calls hand out view ids / track ids. *)
Definition adds_view (op : rc_op F C D) : Prop :=
  match op with OAddView _ _ | OAddViewGroup _ _ _ => True | _ => False end.
Definition adds_track (op : rc_op F C D) : Prop :=
  match op with OAddEmptyTrack | OAddTrack _ => True | _ => False end.
Definition no_auto_group (op : rc_op F C D) : Prop :=
  match op with OAddView _ _ => False | _ => True end.

(** Every group id named by the caller is smaller than the number of automatically numbered groups
    requested so far ([n] before the first call). *)
Fixpoint names_existing_groups (n : N) (ops : list (rc_op F C D)) : Prop :=
  match ops with
  | [] => True
  | OAddView _ _ :: ops' => names_existing_groups (n + 1) ops'
  | OAddViewGroup _ _ g :: ops' => (g < n)%N /\ names_existing_groups n ops'
  | _ :: ops' => names_existing_groups n ops'
  end.

(** Two reconstructions that differ at most in the next automatic group number. *)
Definition same_but_next_group (r r' : recon F C D) : Prop :=
  rc_next_track r = rc_next_track r' /\ rc_next_view r = rc_next_view r' /\
  rc_names r = rc_names r' /\ rc_views r = rc_views r' /\ rc_tracks r = rc_tracks r' /\
  rc_view_group r = rc_view_group r' /\ rc_groups r = rc_groups r' /\ rc_next_ptr r = rc_next_ptr r'.

End spec.
Arguments aview : clear implicits.
Arguments atrack : clear implicits.
Arguments arecon : clear implicits.
