(** Independent specification of the reconstruction builder. *)
From stdpp Require Import gmap strings.
From Verif Require Import Base Reconstruction_Model ViewGraph_Model TrackBuilder_Model TrackBuilder_Spec SfmQueries_Spec ReconstructionBuilder_Model.

(** [l'] consists of the elements of [l] that satisfy [Q], in the same order. *)
Inductive chosen {A} (Q : A -> Prop) : list A -> list A -> Prop :=
| chosen_nil : chosen Q [] []
| chosen_yes a l l' : Q a -> chosen Q l l' -> chosen Q (a :: l) (a :: l')
| chosen_no a l l' : ~ Q a -> chosen Q l l' -> chosen Q (a :: l) l'.

Section spec.
Context {F : Type} `{Countable F} {C D E P I : Type}.
Context (c0 : C) (d0 : D).
Context (filename : string -> string) (with_prior : P -> C -> C) (focal_set : C -> bool) (swap : E -> outcome E).
Notation pair_match := (string * string * E * list (F * F))%type.
Implicit Types (r e : recon F C D) (h : gmap N I) (b : builder F C D E P).

(** [e] is the part of [r] that consists of the views in [V] and the tracks in [T]; a track that loses all of its views is
    not in it.  Names, flags, data, intrinsics objects, groups and the remaining observations are those of [r]. *)
Definition part r (V T : N -> Prop) e : Prop :=
  (forall u, is_Some (rc_views e !! u) <-> is_Some (rc_views r !! u) /\ V u) /\
  (forall u v v', rc_views r !! u = Some v -> rc_views e !! u = Some v' ->
     v_name v' = v_name v /\ v_est v' = v_est v /\ v_intr v' = v_intr v /\ v_data v' = v_data v /\
     forall t f, v_feats v' !! t = Some f <-> v_feats v !! t = Some f /\ T t) /\
  (forall t, is_Some (rc_tracks e !! t) <->
     is_Some (rc_tracks r !! t) /\ T t /\ ((exists u, sees r u t /\ V u) \/ forall u, ~ sees r u t)) /\
  (forall t x x', rc_tracks r !! t = Some x -> rc_tracks e !! t = Some x' ->
     t_est x' = t_est x /\ t_data x' = t_data x /\ forall u, u ∈ t_views x' <-> u ∈ t_views x /\ V u) /\
  (forall n u, rc_names e !! n = Some u <-> rc_names r !! n = Some u /\ V u) /\
  (forall u g, rc_view_group e !! u = Some g <-> rc_view_group r !! u = Some g /\ V u).

(** Views have the same intrinsics object exactly when they are in the same group; all objects are allocated. *)
Definition shares r : Prop :=
  (forall u u' v v', rc_views r !! u = Some v -> rc_views r !! u' = Some v' ->
     (rc_view_group r !! u = rc_view_group r !! u' <-> v_intr v = v_intr v')) /\
  (forall u v, rc_views r !! u = Some v -> (v_intr v < rc_next_ptr r)%N).

(** What an estimator may do to a reconstruction and to the intrinsics objects: it leaves the views, their names, features,
    groups and focal length priors and the views of the tracks alone, and keeps the sharing of intrinsics.  Only objects of views of the reconstruction, and new objects, are written and used. *)
Definition kept r h r' h' : Prop :=
  rc_next_track r' = rc_next_track r /\ rc_next_view r' = rc_next_view r /\ rc_next_group r' = rc_next_group r /\
  rc_names r' = rc_names r /\ rc_view_group r' = rc_view_group r /\ rc_groups r' = rc_groups r /\ (rc_next_ptr r <= rc_next_ptr r')%N /\
  (forall u, option_Forall2 (fun v v' => v_name v' = v_name v /\ v_feats v' = v_feats v /\ focal_set (v_data v') = focal_set (v_data v))
               (rc_views r !! u) (rc_views r' !! u)) /\
  (forall t, option_Forall2 (fun x x' : track D => t_views x' = t_views x) (rc_tracks r !! t) (rc_tracks r' !! t)) /\
  (shares r -> shares r') /\
  (forall u v', rc_views r' !! u = Some v' ->
     (rc_next_ptr r <= v_intr v')%N \/ exists x v, rc_views r !! x = Some v /\ v_intr v = v_intr v') /\
  (forall p, (p < rc_next_ptr r)%N -> (forall u v, rc_views r !! u = Some v -> v_intr v <> p) -> h' !! p = h !! p).
Definition keeps (est : estimator F C D E I) : Prop :=
  forall k g r h ok g' r' h', est k g r h = Ok (ok, g', r', h') -> kept r h r' h'.

(** A successful estimate estimates at least one view. *)
Definition progresses (est : estimator F C D E I) : Prop :=
  forall k g r h g' r' h', est k g r h = Ok (true, g', r', h') -> exists u, est_view r' u.

(** An estimate always returns. *)
Definition returns (est : estimator F C D E I) : Prop := forall k g r h, exists x, est k g r h = Ok x.

(** A successful estimate estimates all or none of the views that share intrinsics. *)
Definition whole_groups (est : estimator F C D E I) : Prop :=
  forall k g r h g' r' h' u u', est k g r h = Ok (true, g', r', h') ->
    rc_view_group r' !! u = rc_view_group r' !! u' -> is_Some (rc_views r' !! u') -> est_view r' u -> est_view r' u'.

(** Reconstructions that a caller can make, by fewer than 2^32 calls. *)
Definition reachable r : Prop :=
  exists ops rs, (N.of_nat (length ops) < 2 ^ 32)%N /\ run_obs (rc_step c0 d0) rc_empty ops = Ok (r, rs).

(** The images and the matches of a list of calls. *)
Definition matches_of (ops : list (builder_op F E P)) : list pair_match :=
  concat ((fun op => match op with BAddMatch n1 n2 i cs => [(n1, n2, i, cs)] | BExtract _ ms => ms | _ => [] end) <$> ops).
Definition priors_of (ops : list (builder_op F E P)) : nat :=
  foldr (fun op n => (match op with BExtract ps _ => length ps | _ => 0 end + n)%nat) 0%nat ops.

(** The correspondences of matches, for views with the ids [id]. *)
Definition correspondences (id : string -> N) (ms : list pair_match) : list (corr F) :=
  concat ((fun m : pair_match => (fun c => ((id m.1.1.1, c.1), (id m.1.1.2, c.2))) <$> m.2) <$> ms).

(** Fewer than 2^31 calls, priors and ends of correspondences, and usable bounds on the length of tracks. *)
Definition moderate (opts : options) (ops : list (builder_op F E P)) : Prop :=
  (2 <= bo_min_track opts < 2 ^ 31)%Z /\ (0 < bo_max_track opts < 2 ^ 31)%Z /\
  (2 * N.of_nat (length ops) + N.of_nat (priors_of ops) + 2 * N.of_nat (length (concat ((fun m : pair_match => m.2) <$> matches_of ops))) < 2 ^ 31)%N.

(** What the calls say about the images: for each image that was added the data of its view, that is, a new view with the
    prior given with the image, and then with the priors of the database. *)
Definition note_prior (d : string -> option C) (np : string * P) : string -> option C :=
  fun n => if decide (n = np.1) then with_prior np.2 <$> d n else d n.
Definition note_call (d : string -> option C) (call : builder_op F E P * bool) : string -> option C :=
  match call with
  | (BAddImage _ path p _, true) =>
      fun n => if decide (n = filename path) then Some (match p with Some p => with_prior p c0 | None => c0 end) else d n
  | (BExtract ps _, _) => foldl note_prior d ps
  | _ => d
  end.
Definition images_of (ops : list (builder_op F E P)) (rs : list bool) : string -> option C := foldl note_call (fun _ => None) (zip ops rs).

(** A builder made by a constructor and calls of its interface. *)
Definition new_with (opts : options) (ops : list (builder_op F E P)) b : Prop :=
  exists b0 rs, new_builder opts = Ok b0 /\ run_obs (builder_step c0 filename with_prior focal_set swap) b0 ops = Ok (b, rs).
Definition made b : Prop :=
  (exists opts r g, reachable r /\ given_builder opts r g = Ok b) \/
  (exists opts ops, moderate opts ops /\ new_with opts ops b).

(** View [u] has a prior for its focal length. *)
Definition calibrated r (u : N) : Prop := exists v, rc_views r !! u = Some v /\ focal_set (v_data v) = true.
Definition admitted (b : builder F C D E P) (u : N) : Prop :=
  is_Some (rc_views (b_recon b) !! u) /\ (bo_only_calibrated (b_options b) = true -> calibrated (b_recon b) u).

(** The information of the edge between two views: of the last match that joins them, from the smaller to the larger id. *)
Definition joins (id : string -> N) (a c : N) (m : pair_match) : Prop :=
  id m.1.1.1 = a /\ id m.1.1.2 = c \/ id m.1.1.1 = c /\ id m.1.1.2 = a.
Definition oriented (id : string -> N) (m : pair_match) (i : E) : Prop :=
  ((id m.1.1.1 < id m.1.1.2)%N /\ i = m.1.2) \/ ((id m.1.1.2 < id m.1.1.1)%N /\ swap m.1.2 = Ok i).
Definition last_match (id : string -> N) (ms : list pair_match) (a c : N) (m : pair_match) : Prop :=
  exists ms1 ms2, ms = ms1 ++ m :: ms2 /\ joins id a c m /\ forall m', m' ∈ ms2 -> ~ joins id a c m'.

(** The matches that are used: those of two different images, both with a focal length prior if only calibrated views are
    wanted. *)
Definition usable (opts : options) r (m : pair_match) : Prop :=
  m.1.1.1 <> m.1.1.2 /\ (bo_only_calibrated opts = true ->
    calibrated r (rc_view_id_from_name r m.1.1.1) /\ calibrated r (rc_view_id_from_name r m.1.1.2)).
(** The first estimate of BuildReconstruction, if there is one, is for the view graph [g] and the reconstruction [r]:
    an estimator that aborts on these arguments, and only on these, makes BuildReconstruction abort. *)
Definition handed os b (g : view_graph E) r : Prop :=
  forall (est : estimator F C D E I) o fuel h outs, est 0%nat g r h = CheckFail -> (2 <= size (rc_views r))%nat ->
    build d0 focal_set est os o (S fuel) b h outs = CheckFail.
(** [g'] is the view graph [g] without the views in [X] and their edges. *)
Definition graph_without (g : view_graph E) (X : N -> Prop) (g' : view_graph E) : Prop :=
  (forall u, vg_has_view g' u = true <-> vg_has_view g u = true /\ ~ X u) /\
  (forall u u' i, vg_get_edge g' u u' = Some i <-> vg_get_edge g u u' = Some i /\ ~ X u /\ ~ X u').
(** View graphs that can be made with the interface of the view graph. *)
Definition caller_graph (g : view_graph E) : Prop := exists ops, g = (vg_run vg_empty ops).1.
(** The successive estimates [k], [k + 1], ... make the reconstructions [new].  Each one gets what the estimate before it
    left: the views and tracks that were not estimated, and the view graph without the estimated views.  The last estimate
    may be one that fails. *)
Inductive rounds (est : estimator F C D E I) : nat -> view_graph E -> recon F C D -> gmap N I -> list (recon F C D) -> view_graph E -> recon F C D -> gmap N I -> Prop :=
| rounds_end k g r h : rounds est k g r h [] g r h
| rounds_failed k g r h g' r' h' : est k g r h = Ok (false, g', r', h') -> rounds est k g r h [] g' r' h'
| rounds_next k g r h g1 r1 h1 e r2 g2 new g' r' h' :
    est k g r h = Ok (true, g1, r1, h1) ->
    part r1 (est_view r1) (est_track r1) e ->
    part r1 (fun u => ~ est_view r1 u) (fun t => ~ est_track r1 t) r2 ->
    (caller_graph g1 -> caller_graph g2 /\ graph_without g1 (est_view r1) g2) ->
    rounds est (S k) g2 r2 h1 new g' r' h' -> rounds est k g r h (e :: new) g' r' h'.
(** Features are not extracted after a match was added. *)
Definition extracted_first (ops : list (builder_op F E P)) : Prop :=
  forall ops1 ps ms ops2, ops = ops1 ++ BExtract ps ms :: ops2 -> matches_of ops1 = [].
End spec.
