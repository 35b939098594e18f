(** Property theorems C08-C14: the reconstruction. *)
From stdpp Require Import gmap strings.
From Verif Require Import Base Reconstruction_Model Reconstruction_Spec Reconstruction_Proofs
  Reconstruction_Lemmas.

(** Refinement: every history of fewer than 2^32 calls returns what the specification (one table of
    views, one of tracks, one of observations) returns, aborts exactly when it does, never runs into
    undefined behaviour, and ends in a state that shows exactly the specification's tables. *)
Theorem reconstruction_refines : forall (F C D : Type) (c0 : C) (d0 : D) (ops : list (rc_op F C D)),
  (N.of_nat (length ops) < 2 ^ 32)%N ->
  match run_obs (rc_step c0 d0) rc_empty ops, run_obs (spec_step c0 d0) a_empty ops with
  | Ok (r, rs), Ok (a, rs') => rs = rs' /\ shows r a
  | CheckFail, CheckFail => True
  | _, _ => False
  end.
Proof. exact @reconstruction_refines_lemma. Qed.
Print Assumptions reconstruction_refines.

(** C08.  A track lists a view exactly when that view exists and holds a feature of that track. *)
Theorem incidence_symmetric : forall (F C D : Type) (c0 : C) (d0 : D) (ops : list (rc_op F C D)) r rs,
  (N.of_nat (length ops) < 2 ^ 32)%N -> run_obs (rc_step c0 d0) rc_empty ops = Ok (r, rs) ->
  forall u t,
    (exists T, rc_tracks r !! t = Some T /\ u ∈ t_views T) <->
    (exists v, rc_views r !! u = Some v /\ is_Some (v_feats v !! t)).
Proof. exact @incidence_lemma. Qed.
Print Assumptions incidence_symmetric.

(** C08, second part: the only calls that abort are AddTrack / AddObservation naming a missing view or
    track; no call runs into undefined behaviour. *)
Theorem no_internal_abort : forall (F C D : Type) (c0 : C) (d0 : D) (ops : list (rc_op F C D)) r rs op,
  (N.of_nat (length ops) < 2 ^ 32)%N -> (N.of_nat (length ops) + 1 < 2 ^ 32)%N ->
  run_obs (rc_step c0 d0) rc_empty ops = Ok (r, rs) ->
  (exists r' x, rc_step c0 d0 r op = Ok (r', x)) \/
  (rc_step c0 d0 r op = CheckFail /\
   ((exists obs u, op = OAddTrack obs /\ u ∈ obs.*1 /\ rc_views r !! u = None) \/
    (exists u t f, op = OAddObservation u t f /\ (rc_views r !! u = None \/ rc_tracks r !! t = None)))).
Proof. exact @no_abort_lemma. Qed.
Print Assumptions no_internal_abort.

(** C09.  Names. *)
Theorem names_bijective : forall (F C D : Type) (c0 : C) (d0 : D) (ops : list (rc_op F C D)) r rs,
  (N.of_nat (length ops) < 2 ^ 32)%N -> run_obs (rc_step c0 d0) rc_empty ops = Ok (r, rs) ->
  (forall n u v, rc_views r !! u = Some v -> v_name v = n -> rc_view_id_from_name r n = u) /\
  (forall n, (forall u v, rc_views r !! u = Some v -> v_name v ≠ n) ->
     rc_view_id_from_name r n = kInvalidId) /\
  (forall u v, rc_views r !! u = Some v -> u ≠ kInvalidId /\ v_name v ≠ EmptyString).
Proof. exact @names_lemma. Qed.
Print Assumptions names_bijective.

(** C09.  The ids returned by two successful AddView calls of one history differ, and likewise for
    AddTrack, whatever was removed in between. *)
Theorem ids_never_reused : forall (F C D : Type) (c0 : C) (d0 : D) (ops : list (rc_op F C D)) r rs,
  (N.of_nat (length ops) < 2 ^ 32)%N -> run_obs (rc_step c0 d0) rc_empty ops = Ok (r, rs) ->
  forall j k op op' i i',
  (j < k)%nat -> ops !! j = Some op -> ops !! k = Some op' ->
  rs !! j = Some (RId i) -> rs !! k = Some (RId i') -> i ≠ kInvalidId -> i' ≠ kInvalidId ->
  (adds_view op -> adds_view op' -> i ≠ i') /\ (adds_track op -> adds_track op' -> i ≠ i').
Proof. exact @fresh_ids_lemma. Qed.
Print Assumptions ids_never_reused.

(** C10.  RemoveView. *)
Theorem remove_view_exact : forall (F C D : Type) (c0 : C) (d0 : D) (ops : list (rc_op F C D)) r rs
    (o : order N) (u : N),
  (N.of_nat (length ops) < 2 ^ 32)%N -> run_obs (rc_step c0 d0) rc_empty ops = Ok (r, rs) ->
  (rc_views r !! u = None -> rc_remove_view o r u = Ok (r, false)) /\
  (forall v, rc_views r !! u = Some v ->
    exists r', rc_remove_view o r u = Ok (r', true) /\
      rc_views r' = delete u (rc_views r) /\
      rc_names r' = delete (v_name v) (rc_names r) /\
      (forall t, rc_tracks r' !! t =
         T ← rc_tracks r !! t;
         if decide (t_views T = {[u]}) then None
         else Some (Track (t_est T) (t_data T) (t_views T ∖ {[u]}))) /\
      rc_view_group r' = delete u (rc_view_group r) /\
      (forall g, rc_groups r' !! g =
         X ← rc_groups r !! g; if decide (X = {[u]}) then None else Some (X ∖ {[u]})) /\
      rc_next_view r' = rc_next_view r /\ rc_next_track r' = rc_next_track r /\
      rc_next_group r' = rc_next_group r).
Proof. exact @remove_view_lemma. Qed.
Print Assumptions remove_view_exact.

(** C10.  RemoveTrack. *)
Theorem remove_track_exact : forall (F C D : Type) (c0 : C) (d0 : D) (ops : list (rc_op F C D)) r rs
    (o : order N) (t : N),
  (N.of_nat (length ops) < 2 ^ 32)%N -> run_obs (rc_step c0 d0) rc_empty ops = Ok (r, rs) ->
  (rc_tracks r !! t = None -> rc_remove_track o r t = (r, false)) /\
  (is_Some (rc_tracks r !! t) ->
    exists r', rc_remove_track o r t = (r', true) /\
      rc_tracks r' = delete t (rc_tracks r) /\
      (forall u, rc_views r' !! u =
         (fun v => View (v_name v) (v_est v) (v_intr v) (v_data v) (delete t (v_feats v)))
           <$> rc_views r !! u) /\
      rc_names r' = rc_names r /\ rc_view_group r' = rc_view_group r /\ rc_groups r' = rc_groups r /\
      rc_next_view r' = rc_next_view r /\ rc_next_track r' = rc_next_track r /\
      rc_next_group r' = rc_next_group r).
Proof. exact @remove_track_lemma. Qed.
Print Assumptions remove_track_exact.

(** C11.  AddTrack(observations) over existing views. *)
Theorem add_track_all_or_nothing : forall (F C D : Type) (c0 : C) (d0 : D) (ops : list (rc_op F C D)) r rs
    (obs : list (N * F)),
  (N.of_nat (length ops) < 2 ^ 32)%N -> (N.of_nat (length ops) + 1 < 2 ^ 32)%N ->
  run_obs (rc_step c0 d0) rc_empty ops = Ok (r, rs) ->
  (forall u, u ∈ obs.*1 -> is_Some (rc_views r !! u)) ->
  ((length obs < 2)%nat \/ ~ NoDup obs.*1 -> rc_add_track d0 r obs = Ok (r, kInvalidId)) /\
  ((2 <= length obs)%nat -> NoDup obs.*1 ->
    exists r' t, rc_add_track d0 r obs = Ok (r', t) /\ t ≠ kInvalidId /\ rc_tracks r !! t = None /\
      rc_tracks r' = <[t := Track false d0 (list_to_set obs.*1)]> (rc_tracks r) /\
      (forall u f, (u, f) ∈ obs -> rc_views r' !! u =
         (fun v => View (v_name v) (v_est v) (v_intr v) (v_data v) (<[t := f]> (v_feats v)))
           <$> rc_views r !! u) /\
      (forall u, u ∉ obs.*1 -> rc_views r' !! u = rc_views r !! u) /\
      rc_names r' = rc_names r /\ rc_view_group r' = rc_view_group r /\ rc_groups r' = rc_groups r /\
      rc_next_view r' = rc_next_view r /\ rc_next_group r' = rc_next_group r).
Proof. exact @add_track_lemma. Qed.
Print Assumptions add_track_all_or_nothing.

(** C12.  Groups partition the views; views share the intrinsics object exactly within a group. *)
Theorem groups_partition : forall (F C D : Type) (c0 : C) (d0 : D) (ops : list (rc_op F C D)) r rs,
  (N.of_nat (length ops) < 2 ^ 32)%N -> run_obs (rc_step c0 d0) rc_empty ops = Ok (r, rs) ->
  (forall u, is_Some (rc_views r !! u) <-> is_Some (rc_view_group r !! u)) /\
  (forall g u, (exists X, rc_groups r !! g = Some X /\ u ∈ X) <-> rc_view_group r !! u = Some g) /\
  (forall g X, rc_groups r !! g = Some X -> X ≠ ∅) /\
  (forall u u' v v', rc_views r !! u = Some v -> rc_views r !! u' = Some v' ->
     (rc_view_group r !! u = rc_view_group r !! u' <-> v_intr v = v_intr v')).
Proof. exact @groups_lemma. Qed.
Print Assumptions groups_partition.

(** C12.  AddView without a group gives the new view intrinsics of its own, provided the caller only ever
    named groups that AddView without a group had numbered before.  Missing from the full property: it
    should hold for all histories; [private_group_refuted] shows that it does not. *)
Theorem private_group_partial : forall (F C D : Type) (c0 : C) (d0 : D) (ops : list (rc_op F C D)) r rs
    (o : order N) (n : string),
  (N.of_nat (length ops) < 2 ^ 32)%N -> (N.of_nat (length ops) + 1 < 2 ^ 32)%N ->
  names_existing_groups 0 ops ->
  run_obs (rc_step c0 d0) rc_empty ops = Ok (r, rs) ->
  forall r' u, rc_add_view c0 o r n = Ok (r', u) -> u ≠ kInvalidId ->
  exists v, rc_views r' !! u = Some v /\
    forall u' v', rc_views r' !! u' = Some v' -> u' ≠ u ->
      rc_view_group r' !! u' ≠ rc_view_group r' !! u /\ v_intr v' ≠ v_intr v.
Proof. exact @private_group_lemma. Qed.
Print Assumptions private_group_partial.

(** C12 as documented is false: after AddView("a", 0), AddView("b") joins group 0 and shares the
    intrinsics of "a". *)
Theorem private_group_refuted :
  exists (ops : list (rc_op unit unit unit)) r rs r' u u' v v',
    run_obs (rc_step tt tt) rc_empty ops = Ok (r, rs) /\
    rc_add_view tt ord_id r "b" = Ok (r', u) /\ u ≠ kInvalidId /\ u' ≠ u /\
    rc_views r' !! u = Some v /\ rc_views r' !! u' = Some v' /\
    rc_view_group r' !! u = rc_view_group r' !! u' /\ v_intr v = v_intr v'.
Proof. exact private_group_counterexample. Qed.
Print Assumptions private_group_refuted.

(** C13.  GetSubReconstruction into an empty reconstruction. *)
Theorem sub_reconstruction_induced : forall (F C D : Type) (c0 : C) (d0 : D) (ops : list (rc_op F C D))
    r rs (o : order N) (S : gset N),
  (N.of_nat (length ops) < 2 ^ 32)%N -> run_obs (rc_step c0 d0) rc_empty ops = Ok (r, rs) ->
  exists sub, rc_sub o r S rc_empty = Ok sub /\
    (forall u, rc_views sub !! u = if decide (u ∈ S) then rc_views r !! u else None) /\
    (forall t, rc_tracks sub !! t =
       T ← rc_tracks r !! t;
       if decide (t_views T ∩ S = ∅) then None
       else Some (Track (t_est T) (t_data T) (t_views T ∩ S))) /\
    (forall n u, rc_names sub !! n = Some u <-> rc_names r !! n = Some u /\ u ∈ S) /\
    (forall u, rc_view_group sub !! u = if decide (u ∈ S) then rc_view_group r !! u else None) /\
    (forall g, rc_groups sub !! g =
       X ← rc_groups r !! g; if decide (X ∩ S = ∅) then None else Some (X ∩ S)) /\
    rc_next_view sub = rc_next_view r /\ rc_next_track sub = rc_next_track r /\
    rc_next_group sub = rc_next_group r.
Proof. exact @sub_lemma. Qed.
Print Assumptions sub_reconstruction_induced.

(** C13, second part: the sub-reconstruction is consistent, i.e. every further history on it behaves like
    the specification started from the induced tables. *)
Theorem sub_reconstruction_continues : forall (F C D : Type) (c0 : C) (d0 : D)
    (ops : list (rc_op F C D)) r rs (o : order N) (S : gset N) (a : arecon F C D),
  (N.of_nat (length ops) < 2 ^ 32)%N -> run_obs (rc_step c0 d0) rc_empty ops = Ok (r, rs) ->
  run_obs (spec_step c0 d0) a_empty ops = Ok (a, rs) ->
  exists sub, rc_sub o r S rc_empty = Ok sub /\ shows sub (spec_sub a S) /\
  forall ops2, (N.of_nat (length ops + length ops2) < 2 ^ 32)%N ->
    match run_obs (rc_step c0 d0) sub ops2, run_obs (spec_step c0 d0) (spec_sub a S) ops2 with
    | Ok (r', rs), Ok (a', rs') => rs = rs' /\ shows r' a'
    | CheckFail, CheckFail => True
    | _, _ => False
    end.
Proof. exact @sub_continues_lemma. Qed.
Print Assumptions sub_reconstruction_continues.

(** C14.  Writing saves exactly the estimated part, and reading it back gives a reconstruction that
    behaves like it under every further history that does not call AddView without a group.  Missing from
    the full property: those calls; [save_load_refuted] shows that they can behave differently. *)
Theorem save_load_partial : forall (F C D : Type) (c0 : C) (d0 : D) (ops : list (rc_op F C D)) r rs
    (o : order N),
  (N.of_nat (length ops) < 2 ^ 32)%N -> run_obs (rc_step c0 d0) rc_empty ops = Ok (r, rs) ->
  exists a e l, run_obs (spec_step c0 d0) a_empty ops = Ok (a, rs) /\
    rc_estimated o r = Ok e /\ shows e (spec_estimated a) /\
    rc_write_read o r = Ok l /\ same_but_next_group l e /\
    forall ops2, Forall no_auto_group ops2 ->
      match run_obs (rc_step c0 d0) l ops2, run_obs (rc_step c0 d0) e ops2 with
      | Ok (s, x), Ok (s', x') => x = x' /\ same_but_next_group s s'
      | CheckFail, CheckFail | UB, UB | Hang, Hang => True
      | _, _ => False
      end.
Proof. exact @save_load_lemma. Qed.
Print Assumptions save_load_partial.

(** C14 as documented is false: with one estimated view, AddView after reading the file back puts the new
    view into the group of the old one; without the round trip it gets its own. *)
Theorem save_load_refuted :
  exists (ops : list (rc_op unit unit unit)) r rs e l e' l' u,
    run_obs (rc_step tt tt) rc_empty ops = Ok (r, rs) /\
    rc_estimated ord_id r = Ok e /\ rc_write_read ord_id r = Ok l /\
    rc_add_view tt ord_id e "b" = Ok (e', u) /\ rc_add_view tt ord_id l "b" = Ok (l', u) /\
    rc_view_group e' !! u = Some 1%N /\ rc_view_group l' !! u = Some 0%N /\
    rc_view_group l' !! 0%N = Some 0%N.
Proof. exact save_load_counterexample. Qed.
Print Assumptions save_load_refuted.

(** *** Non-vacuity: a history with two groups, a rejected name, shared tracks and removals. *)
Definition sample_history : list (rc_op string unit unit) :=
  [OAddView ord_id "a"; OAddView ord_id "b"; OAddViewGroup ord_rev "c" 0%N; OAddView ord_id "a";
   OAddTrack [(0%N, "fa"); (1%N, "fb")]; OAddEmptyTrack; OAddObservation 2%N 1%N "fc";
   OAddObservation 0%N 1%N "fa'"; OAddTrack [(1%N, "x"); (1%N, "y")]; ORemoveView ord_rev 1%N;
   OSetView 0%N true tt; OSetView 2%N true tt; OSetTrack 1%N true tt; OAddView ord_id "d"].
Example sample_history_runs :
  snd <$> run_obs (rc_step tt tt) rc_empty sample_history =
    Ok [RId 0; RId 1; RId 2; RId kInvalidId; RId 0; RId 1; RBool true; RBool true; RId kInvalidId;
        RBool true; RVoid; RVoid; RVoid; RId 3]%N /\
  names_existing_groups 0 sample_history.
Proof. split; [vm_compute; reflexivity|]. cbn. done. Qed.
