(** Properties of the reconstruction builder: C121-C127. *)
From stdpp Require Import gmap strings.
From Verif Require Import Base Reconstruction_Model Reconstruction_Spec Reconstruction_Lemmas Reconstruction_Proofs ViewGraph_Model TrackBuilder_Model TrackBuilder_Spec SfmQueries_Spec
  ReconstructionBuilder_Model ReconstructionBuilder_Spec ReconstructionBuilder_Proofs ReconstructionBuilder_Calls ReconstructionBuilder_Rounds ReconstructionBuilder_Images.

(** *** A concrete instance: images are named by themselves, the prior of an image says whether its focal length is known,
    features and two view infos are numbers, an info is at least 100 when swapped. *)
Definition sample_swap (i : N) : outcome N := Ok (i + 100)%N.
Notation srecon := (recon N bool unit).
Notation sbuilder := (builder N bool unit N bool).
Notation sop := (builder_op N N bool).
Notation sest := (estimator N bool unit N N).
Notation sstep := (builder_step (F := N) (D := unit) false (fun s => s) (fun p _ => p) (fun c => c) sample_swap).
Notation sbuild := (build (F := N) tt (fun c : bool => c)).
Notation smade := (made (F := N) (E := N) false tt (fun s => s) (fun (p : bool) (_ : bool) => p) (fun c => c) sample_swap).
Notation sorders := (Orders (F := N) ord_id ord_id ord_rev).

(** An estimator that marks views as estimated, writes to their intrinsics, and succeeds if there are any. *)
Definition sample_est (mark : nat -> srecon -> N -> bool) : sest := fun k g r h =>
  let r' := set_views r (map_imap (fun u v => Some (View (v_name v) (mark k r u) (v_intr v) (v_data v) (v_feats v))) (rc_views r)) in
  Ok (negb (bool_decide (filter (fun uv : N * view N bool => v_est uv.2 = true) (rc_views r') = ∅)), g, r',
      foldr (fun uv h => <[v_intr uv.2 := N.of_nat k]> h) h (map_to_list (rc_views r))).

Lemma sample_views (mark : nat -> srecon -> N -> bool) k (r : srecon) u : rc_views (set_views r (map_imap (fun u v => Some (View (v_name v) (mark k r u) (v_intr v) (v_data v) (v_feats v))) (rc_views r))) !! u
  = (fun v : view N bool => View (v_name v) (mark k r u) (v_intr v) (v_data v) (v_feats v)) <$> (rc_views r !! u).
Proof. cbn [rc_views set_views]. rewrite map_lookup_imap. by destruct (rc_views r !! u). Qed.

Lemma sample_keeps mark : keeps (fun c => c) (sample_est mark).
Proof.
  intros k g r h ok g' r' h'. unfold sample_est. cbv zeta. set (R := set_views r _). intros K. injection K as _ _ <- <-.
  assert (HR : forall u, rc_views R !! u = (fun v : view N bool => View (v_name v) (mark k r u) (v_intr v) (v_data v) (v_feats v)) <$> (rc_views r !! u)) by (intros; apply sample_views).
  assert (HR' : forall u v', rc_views R !! u = Some v' -> exists v, rc_views r !! u = Some v /\ v_intr v' = v_intr v).
  { intros u v'. rewrite HR. destruct (rc_views r !! u) as [v|]; [|done]. cbn. intros [= <-]. by exists v. }
  do 6 (split; [done|]). split; [cbn; lia|]. split; [intros u; rewrite HR; destruct (rc_views r !! u); constructor; done|].
  split; [intros t; cbn; destruct (rc_tracks r !! t); constructor; done|]. split; [|split].
  - intros [S1 S2]. split.
    + intros u u' v v' Hv Hv'. destruct (HR' u v Hv) as (w & Hw & ->). destruct (HR' u' v' Hv') as (w' & Hw' & ->). by apply S1.
    + intros u v Hv. destruct (HR' u v Hv) as (w & Hw & ->). by apply (S2 u).
  - intros u v' Hv'. destruct (HR' u v' Hv') as (w & Hw & K). right. exists u, w. by rewrite K.
  - intros p _ Hp. assert (Hl : forall uv : N * view N bool, uv ∈ map_to_list (rc_views r) -> v_intr uv.2 <> p) by (intros [u v] Huv%elem_of_map_to_list; by apply (Hp u)).
    revert Hl. generalize (map_to_list (rc_views r)). clear. induction l as [|[u v] l IH]; intros Hl; [done|]. cbn [foldr]. rewrite lookup_insert_ne by (apply (Hl (u, v)); by left). apply IH. intros; apply Hl; by right.
Qed.
Lemma sample_progresses mark : progresses (sample_est mark).
Proof.
  intros k g r h g' r' h'. unfold sample_est. cbv zeta. set (R := set_views r _). intros K. injection K as Hok _ <- _. apply negb_true_iff, bool_decide_eq_false in Hok.
  apply map_choose in Hok as (u & v & [Hv He]%map_filter_lookup_Some). exists u, v. done.
Qed.
Lemma sample_returns mark : returns (sample_est mark).
Proof. intros k g r h. eexists. reflexivity. Qed.
Definition by_group (k : nat) (r : srecon) (u : N) : bool := match rc_view_group r !! u with Some gr => bool_decide (gr < 2 * N.of_nat (S k))%N | None => false end.
Lemma by_group_whole : whole_groups (sample_est by_group).
Proof.
  intros k g r h g' r' h' u u'. unfold sample_est. cbv zeta. set (R := set_views r _). intros K. injection K as _ _ <- _.
  intros Hg [w Hw] (v & Hv & He). change (rc_view_group R) with (rc_view_group r) in Hg. unfold R in *. rewrite sample_views in *. destruct (rc_views r !! u') as [w'|] eqn:Ew; [|done]. destruct (rc_views r !! u) as [v'|]; [|done].
  cbn in Hv. injection Hv as <-. cbn in He. eexists. split; [rewrite sample_views, Ew; reflexivity|]. cbn. unfold by_group in *. by rewrite <- Hg.
Qed.

Definition sample_options (largest only_calibrated : bool) : options := Options 1 largest only_calibrated 2 50.
(** Six images; the first five are calibrated.  The images 0 and 1, and the images 2, 3 and 4, are matched. *)
Definition sample_ops (group : N -> N) : list sop :=
  [BAddImage ord_id "a" (Some true) (group 0%N); BAddImage ord_id "b" (Some true) (group 1%N); BAddImage ord_id "c" (Some true) (group 2%N);
   BAddImage ord_id "d" (Some true) (group 3%N); BAddImage ord_id "e" (Some true) (group 4%N); BAddImage ord_id "f" None (group 5%N);
   BAddMatch "b" "a" 7%N [(1, 2); (3, 4)]%N; BAddMatch "c" "d" 8%N [(1, 2)]%N; BAddMatch "d" "e" 9%N [(2, 3)]%N; BAddMatch "e" "f" 10%N [(3, 9)]%N; BAddMatch "c" "d" 11%N []].
Definition sample_builder (opts : options) (ops : list sop) : outcome sbuilder :=
  b0 ← new_builder opts; '(b, _) ← run_obs sstep b0 ops; Ok b.
Lemma sample_builder_made opts ops b : moderate opts ops -> sample_builder opts ops = Ok b ->
  new_with (F := N) (D := unit) false (fun s => s) (fun (p : bool) (_ : bool) => p) (fun c => c) sample_swap opts ops b /\ smade b.
Proof.
  intros Hm K. unfold sample_builder in K. apply bind_Ok in K as (b0 & H0 & K). apply bind_Ok in K as ([b1 rs] & H1 & K). injection K as <-.
  assert (Hw : new_with (F := N) (D := unit) false (fun s => s) (fun (p : bool) (_ : bool) => p) (fun c => c) sample_swap opts ops b1) by (exists b0, rs; done).
  split; [done|]. right. exists opts, ops. done.
Qed.
Lemma sample_moderate largest cal group : moderate (sample_options largest cal) (sample_ops group).
Proof. split; [cbn; lia|]. split; [cbn; lia|]. vm_compute. reflexivity. Qed.

Section props.
Context (F : Type) (EF : EqDecision F) (CF : Countable F) (C D E P I : Type) (c0 : C) (d0 : D).
Context (filename : string -> string) (with_prior : P -> C -> C) (focal_set : C -> bool) (swap : E -> outcome E).
Notation made := (made (F := F) c0 d0 filename with_prior focal_set swap).
Notation new_with := (new_with (F := F) (D := D) c0 filename with_prior focal_set swap).
Notation build := (build (F := F) (P := P) (I := I) d0 focal_set).
Notation id b := (rc_view_id_from_name (b_recon b)).

Lemma build_split est os o fuel (b : builder F C D E P) h outs okb outs' b' h' : build est os o fuel b h outs = Ok (okb, outs', b', h') ->
  exists b1 r' g', prepare d0 focal_set os b = Ok b1 /\ build_loop est o (bo_largest (b_options b1)) fuel 0 (b_recon b1) (b_graph b1) h outs = Ok (okb, outs', r', g', h') /\ b_recon b' = r'.
Proof.
  unfold build. intros (b1 & H1 & K)%bind_Ok. apply bind_Ok in K as ([[[[okb' outs''] r'] g'] h''] & H2 & K). injection K as <- <- <- <-. by exists b1, r', g'.
Qed.

(** C121.  The new reconstructions are the estimated parts of the successive estimates; no view and no track is in two of
    them; together with what remains in the builder they have exactly the views that take part, under their names. *)
Theorem build_parts : forall (est : estimator F C D E I) os o fuel b h outs okb outs' b' h',
  keeps focal_set est -> made b -> build est os o fuel b h outs = Ok (okb, outs', b', h') ->
  exists new, outs' = outs ++ new /\
    (forall i e, new !! i = Some e -> exists g0 r0 h0 g1 r1 h1, est i g0 r0 h0 = Ok (true, g1, r1, h1) /\ part r1 (est_view r1) (est_track r1) e) /\
    (forall i j e e' u, new !! i = Some e -> new !! j = Some e' -> is_Some (rc_views e !! u) -> is_Some (rc_views e' !! u) -> i = j) /\
    (forall i j e e' t, new !! i = Some e -> new !! j = Some e' -> is_Some (rc_tracks e !! t) -> is_Some (rc_tracks e' !! t) -> i = j) /\
    (forall u, admitted focal_set b u <-> (exists e, e ∈ new /\ is_Some (rc_views e !! u)) \/ is_Some (rc_views (b_recon b') !! u)) /\
    (forall e u, e ∈ new -> is_Some (rc_views e !! u) -> rc_views (b_recon b') !! u = None) /\
    (forall e t, e ∈ new -> is_Some (rc_tracks e !! t) -> rc_tracks (b_recon b') !! t = None) /\
    (forall e u v', e ∈ b_recon b' :: new -> rc_views e !! u = Some v' -> exists v, rc_views (b_recon b) !! u = Some v /\ v_name v' = v_name v).
Proof.
  intros est os o fuel b h outs okb outs' b' h' Hk Hm Hb. destruct (build_split _ _ _ _ _ _ _ _ _ _ _ Hb) as (b1 & r' & g' & Hp & Hl & ->). destruct (prepare_made _ _ _ _ _ _ b os b1 Hm Hp) as (Hok & Ho & Hin & Hvs).
  destruct (loop_ok focal_set est o (bo_largest (b_options b1)) Hk fuel 0 (b_recon b1) (b_graph b1) h outs okb outs' r' g' h' Hok Hl) as (new & -> & Hok' & H1 & H2 & H3 & H4 & H5 & H6 & H7 & H8 & _).
  exists new. split; [done|]. split. { intros i e He. destruct (H1 i e He) as (g0 & r0 & h0 & g1 & r1 & h1 & K1 & K2 & _). by exists g0, r0, h0, g1, r1, h1. }
  split; [exact H2|]. split; [exact H3|]. split. { intros u. rewrite <- Hin. apply H4. }
  split; [intros e u He Hu; apply eq_None_not_Some; by apply (H5 e u)|]. split; [intros e t He Ht; apply eq_None_not_Some; by apply (H6 e t)|].
  intros e u v' He Hv'. destruct (H8 e u v' He Hv') as (v1 & Hv1 & Hn1 & _). destruct (Hvs u v1 Hv1) as (v & Hv & Hn & _). exists v. split; [done|congruence].
Qed.

(** C121, the estimates.  The first one gets a prepared view graph and reconstruction; every later one gets what the one
    before it left over: the views and tracks that are not estimated, and the view graph without the estimated views. *)
Theorem build_rounds : forall (est : estimator F C D E I) os o fuel b h outs okb outs' b' h',
  keeps focal_set est -> made b -> build est os o fuel b h outs = Ok (okb, outs', b', h') ->
  exists new g r, outs' = outs ++ new /\ handed (I := I) d0 focal_set os b g r /\ rounds est 0 g r h new (b_graph b') (b_recon b') h'.
Proof.
  intros est os o fuel b h outs okb outs' b' h' Hk Hm Hb. unfold ReconstructionBuilder_Model.build in Hb. apply bind_Ok in Hb as (b1 & Hp & K). apply bind_Ok in K as ([[[[okb' outs''] r'] g'] h''] & Hl & K). injection K as <- <- <- <-.
  destruct (prepare_made _ _ _ _ _ _ b os b1 Hm Hp) as (Hok & _). destruct (loop_rounds focal_set est o (bo_largest (b_options b1)) Hk fuel 0 (b_recon b1) (b_graph b1) h outs okb' outs'' r' g' h'' Hok Hl) as (new & -> & Hr).
  exists new, (b_graph b1), (b_recon b1). split; [done|]. split; [|exact Hr]. intros est' o' fuel' h1 outs1 Hest Hs. unfold ReconstructionBuilder_Model.build. rewrite Hp. cbn [mbind outcome_bind build_loop]. rewrite decide_False by lia. by rewrite Hest.
Qed.

(** C122.  BuildReconstruction returns if the estimator always returns and a successful estimate estimates a view.  It
    returns true exactly if the vector of the caller is not empty afterwards, or no more than one view takes part.  It
    stops after one reconstruction if only the largest is wanted, else when fewer than three views remain or an estimate
    failed. *)
Theorem build_result_partial : forall (est : estimator F C D E I) os o b h outs,
  keeps focal_set est -> made b ->
  (forall fuel okb outs' b' h', build est os o fuel b h outs = Ok (okb, outs', b', h') ->
     (okb = true <-> outs' <> [] \/ forall u u', admitted focal_set b u -> admitted focal_set b u' -> u = u') /\
     (bo_largest (b_options b) = true -> (length outs' <= S (length outs))%nat) /\
     (bo_largest (b_options b) = false -> (size (rc_views (b_recon b')) < 3)%nat \/
        exists g0 r0 h0 g1, est (length outs' - length outs)%nat g0 r0 h0 = Ok (false, g1, b_recon b', h'))) /\
  (progresses est -> returns est -> forall b1 fuel, prepare d0 focal_set os b = Ok b1 -> (size (rc_views (b_recon b)) <= fuel)%nat -> (1 <= fuel)%nat ->
     exists x, build est os o fuel b h outs = Ok x).
Proof.
  intros est os o b h outs Hk Hm. split.
  - intros fuel okb outs' b' h' Hb. destruct (build_split _ _ _ _ _ _ _ _ _ _ _ Hb) as (b1 & r' & g' & Hp & Hl & ->). destruct (prepare_made _ _ _ _ _ _ b os b1 Hm Hp) as (Hok & Ho & Hin & Hvs).
    destruct (loop_ok focal_set est o (bo_largest (b_options b1)) Hk fuel 0 (b_recon b1) (b_graph b1) h outs okb outs' r' g' h' Hok Hl) as (new & -> & Hok' & _ & _ & _ & _ & _ & _ & _ & _ & H1 & H2 & H3).
    rewrite app_length. rewrite Ho in *. split; [|split].
    + rewrite H1. assert (Hs : (size (rc_views (b_recon b1)) <= 1)%nat <-> forall u u', admitted focal_set b u -> admitted focal_set b u' -> u = u'); [|by rewrite Hs].
      rewrite <- size_dom. split.
      * intros Hs u u' Hu Hu'. apply Hin in Hu, Hu'. unfold in_recon in Hu, Hu'. rewrite <- elem_of_dom in Hu, Hu'. destruct (decide (u = u')); [done|]. exfalso.
        assert (size ({[u; u']} : gset N) <= size (dom (rc_views (b_recon b1))))%nat by (apply subseteq_size; set_solver). rewrite size_union, !size_singleton in * by set_solver. lia.
      * intros Hu. destruct (decide (dom (rc_views (b_recon b1)) = ∅)) as [->|[u Hx]%set_choose_L]; [by rewrite size_empty; lia|].
        transitivity (size ({[u]} : gset N)); [|by rewrite size_singleton]. apply subseteq_size. intros u' Hu'. apply elem_of_singleton. apply Hu; apply Hin; by apply elem_of_dom.
    + intros Hlg. specialize (H2 Hlg). lia.
    + intros Hlg. destruct (H3 Hlg) as [?|(g0 & r0 & h0 & K)]; [by left|]. right. exists g0, r0, h0, g'. cbn [Nat.add] in K. by replace (length outs + length new - length outs)%nat with (length new) by lia.
  - intros Hpr Hr b1 fuel Hp Hs H1. destruct (prepare_made _ _ _ _ _ _ b os b1 Hm Hp) as (Hok & Ho & Hin & Hvs).
    assert (Hsz : (size (rc_views (b_recon b1)) <= size (rc_views (b_recon b)))%nat). { rewrite <- !size_dom. apply subseteq_size. intros u Hu. apply elem_of_dom in Hu. apply Hin in Hu. apply elem_of_dom. apply Hu. }
    destruct (loop_returns focal_set est o (bo_largest (b_options b1)) Hk Hpr Hr fuel 0 (b_recon b1) (b_graph b1) h outs Hok) as ([[[[okb outs'] r'] g'] h'] & Hl); [lia|done|].
    unfold build. rewrite Hp. cbn [mbind outcome_bind]. rewrite Hl. eexists. reflexivity.
Qed.

(** C123.  If only calibrated views are wanted, every view of a new reconstruction had a focal length prior when the call
    was made, and still has one. *)
Theorem build_only_calibrated : forall (est : estimator F C D E I) os o fuel b h outs okb outs' b' h',
  keeps focal_set est -> made b -> bo_only_calibrated (b_options b) = true -> build est os o fuel b h outs = Ok (okb, outs', b', h') ->
  exists new, outs' = outs ++ new /\ forall e u, e ∈ new -> is_Some (rc_views e !! u) -> calibrated focal_set (b_recon b) u /\ calibrated focal_set e u.
Proof.
  intros est os o fuel b h outs okb outs' b' h' Hk Hm Hc Hb. destruct (build_split _ _ _ _ _ _ _ _ _ _ _ Hb) as (b1 & r' & g' & Hp & Hl & _). destruct (prepare_made _ _ _ _ _ _ b os b1 Hm Hp) as (Hok & Ho & Hin & Hvs).
  destruct (loop_ok focal_set est o (bo_largest (b_options b1)) Hk fuel 0 (b_recon b1) (b_graph b1) h outs okb outs' r' g' h' Hok Hl) as (new & -> & _ & _ & _ & _ & H4 & _ & _ & _ & H8 & _).
  exists new. split; [done|]. intros e u He [v' Hv']. assert (Ha : admitted focal_set b u). { apply Hin, H4. left. exists e. split; [done|]. by eexists. }
  destruct Ha as [_ Ha]. specialize (Ha Hc). split; [done|]. destruct (H8 e u v') as (v1 & Hv1 & _ & Hf & _); [by right|done|]. destruct (Hvs u v1 Hv1) as (v & Hv & _ & Hd). exists v'. split; [done|]. destruct Ha as (w & Hw & Hfw). congruence.
Qed.

(** C124.  Of the matches given to a new builder, those between different images are used (and, if only calibrated views
    are wanted, between calibrated images).  Without any, BuildReconstruction aborts.  Otherwise the first estimate gets a
    view graph with exactly one edge between two views of a used match, with the information of the last such match, from
    the smaller to the larger view id; and the views that take part, with the tracks of all correspondences of the used
    matches. *)
Theorem build_inputs : forall opts ops b os, moderate opts ops -> new_with opts ops b ->
  exists used, used `sublist_of` matches_of ops /\
    ((bo_only_calibrated opts = false \/ extracted_first ops) -> chosen (usable focal_set opts (b_recon b)) (matches_of ops) used) /\
    (forall m, m ∈ used -> usable focal_set opts (b_recon b) m) /\
    (used = [] -> forall (est : estimator F C D E I) o fuel h outs, build est os o fuel b h outs = CheckFail) /\
    (used <> [] -> exists g r tracks rt ids, handed (I := I) d0 focal_set os b g r /\
       (forall u u' i, vg_get_edge g u u' = Some i <-> exists m, last_match (id b) used u u' m /\ oriented swap (id b) m i) /\
       are_tracks (Z.to_N (bo_min_track opts)) (Z.to_N (bo_max_track opts)) (correspondences (id b) used) tracks /\
       run_obs (rc_step c0 d0) (b_recon b) (OAddTrack <$> tracks) = Ok (rt, RId <$> ids) /\ kInvalidId ∉ ids /\
       part rt (admitted focal_set b) (fun _ => True) r).
Proof.
  intros opts ops b os Hm Hw. destruct (prepare_new c0 d0 filename with_prior focal_set swap opts ops b os Hm Hw) as (acc & Iv & H1 & H2). exists acc.
  split; [apply Iv|]. split; [apply Iv|]. split. { intros m Hin. split; [by apply Iv|]. intros Hc. by apply (i_cal _ _ _ _ _ _ _ _ _ _ Iv Hc). }
  split. { intros He est o fuel h outs. unfold build. by rewrite (H1 He). }
  intros Hne. destruct (H2 Hne) as (b1 & rt & tracks & ids & Hp & Htr & Hids & Hat & Hokt & Hok & Hsv & Hpart & Hg & Ho).
  exists (b_graph b), (b_recon b1), tracks, rt, ids. split; [|split; [|done]].
  - intros est o fuel h outs Hest Hs. unfold build. rewrite Hp. cbn [mbind outcome_bind build_loop]. rewrite decide_False by lia. rewrite Hg, Hest. done.
  - apply (graph_edges c0 focal_set swap (id b) acc); [apply (i_graph _ _ _ _ _ _ _ _ _ _ Iv)|]. eapply (inv_id_ne c0 d0 focal_set swap); [|exact Iv]. destruct Hm as (_ & _ & Hm). lia.
Qed.

(** C124, for a builder of a given reconstruction with tracks and a given view graph with at least two views: the first
    estimate gets these, without the uncalibrated views if only calibrated ones are wanted. *)
Theorem given_inputs : forall opts r (g : view_graph E) b os, reachable (F := F) c0 d0 r -> rc_tracks r <> ∅ -> (2 <= vg_num_views g)%nat -> given_builder (P := P) opts r g = Ok b ->
  exists g' r', handed (I := I) d0 focal_set os b g' r' /\
    part r (fun u => bo_only_calibrated opts = true -> calibrated focal_set r u) (fun _ => True) r' /\
    (caller_graph g -> caller_graph g' /\ graph_without g (fun u => bo_only_calibrated opts = true /\ is_Some (rc_views r !! u) /\ ~ calibrated focal_set r u) g').
Proof.
  intros opts r g b os Hr Ht Hg Hb. destruct (prepare_given c0 d0 filename focal_set opts r g os b Hr Hb) as (-> & _ & _ & H3). destruct (H3 Ht Hg) as (b1 & Hp & Hok1 & Hpart & _).
  exists (b_graph b1), (b_recon b1). split; [|split].
  - intros est' o' fuel' h1 outs1 Hest Hs. unfold ReconstructionBuilder_Model.build. rewrite Hp. cbn [mbind outcome_bind build_loop]. rewrite decide_False by lia. by rewrite Hest.
  - assert (Hok : ok r). { destruct Hr as (rops & rs & Hl & Hr). destruct (reach_rel c0 d0 rops r rs) as (a & _ & R & W & _); [unfold few; lia|done|]. by exists a. }
    eapply part_ext; [done| |exact Hpart]. intros u Hu. unfold admitted. cbn [b_recon b_options]. clear -Hu. tauto.
  - intros Hc. assert (Hok : ok r). { destruct Hr as (rops & rs & Hl & Hr). destruct (reach_rel c0 d0 rops r rs) as (a & _ & R & W & _); [unfold few; lia|done|]. by exists a. }
    unfold prepare in Hp. cbn [b_graph b_recon b_tracks b_options] in Hp. apply bind_Ok in Hp as (_ & _ & Hp). rewrite decide_False in Hp by (by intros ?%map_size_empty_inv). cbn [mbind outcome_bind] in Hp.
    apply bind_Ok in Hp as ([r1 g1] & Hru & Hp). injection Hp as <-. cbn [b_graph b_recon]. destruct (bo_only_calibrated opts).
    + destruct (remove_uncalibrated_graph focal_set (or_ids os) r g r1 g1 Hok Hru Hc) as [H1 [H2 H2']]. split; [done|]. split.
      * intros u. rewrite H2. clear. tauto.
      * intros u u' i. rewrite H2'. clear. tauto.
    + injection Hru as <- <-. split; [done|]. split.
      * intros u. split; [|by intros [? _]]. intros K. split; [done|]. by intros [? _].
      * intros u u' i. split; [|by intros [? _]]. intros K. split; [done|]. split; by intros [? _].
Qed.

(** C127.  The images of a builder for a database: adding an image succeeds exactly if no image with that name was added
    before.  Afterwards the views are those of the added images; each has the prior given with its image, and then the
    priors of the database in their order, and nothing else. *)
Theorem added_images : forall opts ops (b0 b : builder F C D E P) rs, moderate opts ops -> new_builder opts = Ok b0 -> run_obs (builder_step c0 filename with_prior focal_set swap) b0 ops = Ok (b, rs) ->
  let images := images_of c0 filename with_prior ops rs in
  (forall n, is_Some (images n) <-> id b n <> kInvalidId) /\
  (forall n, is_Some (images n) -> is_Some (rc_views (b_recon b) !! id b n)) /\
  (forall u v, rc_views (b_recon b) !! u = Some v -> images (v_name v) = Some (v_data v) /\ id b (v_name v) = u) /\
  (forall o path p group b' ok, add_image c0 filename with_prior o b path p group = Ok (b', ok) -> ok = true <-> images (filename path) = None).
Proof.
  intros opts ops b0 b rs (_ & _ & Hm) H0 Hrun images. assert (Hb0 : b_recon b0 = rc_empty) by (unfold new_builder in H0; apply bind_Ok in H0 as (_ & _ & K); apply bind_Ok in K as (? & _ & K); by injection K as <-).
  destruct (described_calls c0 d0 filename with_prior focal_set swap ops 0 (fun _ => None) b0 b rs) as [[D1 D2] Hr]; [lia| | |exact Hrun|].
  { rewrite Hb0. exists [], []. split; [cbn; lia|done]. }
  { rewrite Hb0. split; [intros n; cbn; rewrite lookup_empty; split; intros [? ?]; done|]. intros n u v K. cbn in K. by rewrite lookup_empty in K. }
  fold (images_of (F := F) (E := E) c0 filename with_prior ops rs) in D1, D2. fold images in D1, D2. set (n := (0 + 2 * length ops + priors_of ops)%nat) in Hr.
  assert (Hn : (N.of_nat n < 2 ^ 31)%N) by (unfold n; lia). split; [|split; [|split]].
  - intros x. rewrite D1. symmetry. by apply (idn_some c0 d0 n).
  - intros x Hx. apply D1 in Hx as [u Hu]. unfold rc_view_id_from_name. rewrite Hu. cbn [default Datatypes.id]. by apply (reached_names c0 d0 n _ x u Hn Hr Hu).
  - intros u v Hv. pose proof Hr as (rops & rs' & Hl & Hr'). destruct (reach_rel c0 d0 rops (b_recon b) rs') as (a & _ & R & W & _); [unfold few; lia|done|].
    destruct (rel_view_Some _ a u v R Hv) as (av & Hav & Hna & _). assert (Hu : rc_names (b_recon b) !! v_name v = Some u) by (apply (rel_names _ a R); exists av; done).
    split; [by apply (D2 _ u v Hu Hv)|]. unfold rc_view_id_from_name. by rewrite Hu.
  - intros o path p group b' ok K. unfold add_image in K. apply bind_Ok in K as ([r1 ok1] & Hadd & K). assert (ok = ok1) as -> by (destruct ok1; cbn [negb] in K; [apply bind_Ok in K as (? & _ & K)|]; by injection K as _ <-).
    by apply (described_add (E := E) c0 d0 filename with_prior n o images (b_recon b) path p group r1 ok1 Hn Hr (conj D1 D2) Hadd).
Qed.

(** C125.  A returned reconstruction keeps the intrinsics it was estimated with, if an estimate never splits a group of
    views that share intrinsics. *)
Theorem returned_intrinsics_stable_partial : forall (est : estimator F C D E I) os o fuel b h outs okb outs' b' h',
  keeps focal_set est -> whole_groups est -> made b -> build est os o fuel b h outs = Ok (okb, outs', b', h') ->
  forall i e, outs' !! (length outs + i)%nat = Some e -> exists g0 r0 h0 g1 r1 h1, est i g0 r0 h0 = Ok (true, g1, r1, h1) /\ part r1 (est_view r1) (est_track r1) e /\
    forall u v, rc_views e !! u = Some v -> h' !! v_intr v = h1 !! v_intr v.
Proof.
  intros est os o fuel b h outs okb outs' b' h' Hk Hwg Hm Hb. destruct (build_split _ _ _ _ _ _ _ _ _ _ _ Hb) as (b1 & r' & g' & Hp & Hl & _). destruct (prepare_made _ _ _ _ _ _ b os b1 Hm Hp) as (Hok & Ho & Hin & Hvs).
  destruct (loop_ok focal_set est o (bo_largest (b_options b1)) Hk fuel 0 (b_recon b1) (b_graph b1) h outs okb outs' r' g' h' Hok Hl) as (new & -> & Hok' & H1 & _).
  intros i e He. rewrite lookup_app_r in He by lia. replace (length outs + i - length outs)%nat with i in He by lia. destruct (H1 i e He) as (g0 & r0 & h0 & g1 & r1 & h1 & K1 & K2 & K3).
  exists g0, r0, h0, g1, r1, h1. split; [done|]. split; [done|]. by apply K3.
Qed.

(** C126.  The behaviour of the interface outside of its intended use.  A builder for a given reconstruction dereferences
    a null pointer when a new image, or a match with correspondences, is added, when features are extracted, and when a
    reconstruction without tracks is built; with tracks, building it is defined. *)
Theorem given_builder_calls_partial : forall opts r g b os, reachable (F := F) c0 d0 r -> given_builder (P := P) opts r g = Ok b ->
  (forall o path p group b' ok, add_image c0 filename with_prior o b path p group = Ok (b', ok) -> ok = false) /\
  (forall n1 n2 info cs b' ok, add_match focal_set swap b n1 n2 info cs = Ok (b', ok) -> cs = [] \/ bo_only_calibrated opts = true) /\
  (forall priors ms x, extract with_prior focal_set swap b priors ms <> Ok x) /\
  (forall (est : estimator F C D E I) o fuel h outs, (2 <= vg_num_views g)%nat -> rc_tracks r = ∅ -> build est os o fuel b h outs = UB) /\
  (forall (est : estimator F C D E I) o fuel h outs, (2 <= vg_num_views g)%nat -> rc_tracks r <> ∅ -> keeps focal_set est -> progresses est -> returns est ->
     (1 <= fuel)%nat -> (size (rc_views r) <= fuel)%nat -> exists x, build est os o fuel b h outs = Ok x).
Proof.
  intros opts r g b os Hr Hb. destruct (prepare_given c0 d0 filename focal_set opts r g os b Hr Hb) as (Eb & H1 & H2 & H3). split; [|split; [|split; [|split]]].
  - intros o path p group b' ok K. unfold add_image in K. apply bind_Ok in K as ([r1 ok1] & _ & K). destruct ok1; cbn [negb] in K; [|by injection K as _ <-]. rewrite Eb in K. done.
  - intros n1 n2 info cs b' ok K. unfold add_match in K. apply bind_Ok in K as (_ & _ & K). apply bind_Ok in K as (_ & _ & K). apply bind_Ok in K as (skip & Hs & K).
    destruct (bo_only_calibrated opts) eqn:Ec; [by right|]. left. rewrite Eb in Hs. cbn [b_options] in Hs. rewrite Ec in Hs. injection Hs as <-. apply bind_Ok in K as (g1 & _ & K). apply bind_Ok in K as (t1 & Ht & _).
    rewrite Eb in Ht. destruct cs; done.
  - intros priors ms x K. unfold extract in K. apply bind_Ok in K as (_ & _ & K). rewrite Eb in K. done.
  - intros est o fuel h outs Hg Ht. unfold build. by rewrite (H1 Ht Hg).
  - intros est o fuel h outs Hg Ht Hk Hpr Hre H1f Hf. destruct (H3 Ht Hg) as (b1 & Hp & _).
    destruct (build_result_partial est os o b h outs Hk) as [_ K]; [left; by exists opts, r, g|]. apply (K Hpr Hre b1 fuel Hp); [|done]. by rewrite Eb.
Qed.
End props.
Print Assumptions build_parts.
Print Assumptions build_rounds.
Print Assumptions given_inputs.
Print Assumptions added_images.
Print Assumptions build_result_partial.
Print Assumptions build_only_calibrated.
Print Assumptions build_inputs.
Print Assumptions returned_intrinsics_stable_partial.
Print Assumptions given_builder_calls_partial.

(** *** Concrete cases. *)
Definition sample_run (est : sest) (opts : options) (ops : list sop) (fuel : nat) (outs : list srecon) :=
  b ← sample_builder opts ops; sbuild est sorders (fun _ => ord_id) fuel b ∅ outs.
Lemma sample_run_split est opts ops fuel outs x : sample_run est opts ops fuel outs = Ok x ->
  exists b, sample_builder opts ops = Ok b /\ sbuild est sorders (fun _ => ord_id) fuel b ∅ outs = Ok x.
Proof. unfold sample_run. intros (b & H1 & H2)%bind_Ok. by exists b. Qed.
Definition views_of (e : srecon) : list N := elements (dom (rc_views e)).

(** Every view in its own group, all six views wanted: two reconstructions of two views, two views remain. *)
Example build_parts_sample : exists b okb outs b' h',
  sample_builder (sample_options false false) (sample_ops (fun _ => kInvalidId)) = Ok b /\ smade b /\
  sbuild (sample_est by_group) sorders (fun _ => ord_id) 6 b ∅ [] = Ok (okb, outs, b', h') /\
  keeps (fun c => c) (sample_est by_group) /\ progresses (sample_est by_group) /\ returns (sample_est by_group) /\ whole_groups (sample_est by_group) /\
  okb = true /\ (views_of <$> outs) = [[0; 1]; [3; 2]]%N /\ views_of (b_recon b') = [5; 4]%N.
Proof.
  assert (H : match sample_run (sample_est by_group) (sample_options false false) (sample_ops (fun _ => kInvalidId)) 6 [] with
              | Ok (okb, outs, b', h') => okb = true /\ (views_of <$> outs) = [[0; 1]; [3; 2]]%N /\ views_of (b_recon b') = [5; 4]%N | _ => False end) by (vm_compute; repeat split).
  destruct (sample_run _ _ _ _ _) as [[[[okb outs] b'] h']| | |] eqn:Er; [|destruct H..]. apply sample_run_split in Er as (b & Hb & Hr).
  destruct (sample_builder_made _ _ b (sample_moderate false false _) Hb) as [_ Hm]. exists b, okb, outs, b', h'.
  split; [exact Hb|]. split; [exact Hm|]. split; [exact Hr|]. split; [apply sample_keeps|]. split; [apply sample_progresses|]. split; [apply sample_returns|]. split; [apply by_group_whole|]. exact H.
Qed.

Lemma sample_extracted group : extracted_first (sample_ops group).
Proof.
  intros ops1 ps ms ops2 K. exfalso. assert (Hin : BExtract ps ms ∈ sample_ops group) by (rewrite K; apply elem_of_app; right; by left). unfold sample_ops in Hin. rewrite !elem_of_cons, elem_of_nil in Hin. clear -Hin. repeat (destruct Hin as [Hin|Hin]; [discriminate Hin|]). exact Hin.
Qed.
(** Only calibrated views wanted: the view of image "f" is not there, nor its match with "e". *)
Example build_only_calibrated_sample : exists b okb outs b' h',
  sample_builder (sample_options false true) (sample_ops (fun _ => kInvalidId)) = Ok b /\ smade b /\
  sbuild (sample_est by_group) sorders (fun _ => ord_id) 6 b ∅ [] = Ok (okb, outs, b', h') /\
  is_Some (rc_views (b_recon b) !! 5%N) /\ (views_of <$> outs) = [[0; 1]; [3; 2]]%N /\ views_of (b_recon b') = [4%N] /\
  vg_get_edge (b_graph b) 4 5 = None /\ vg_get_edge (b_graph b) 0 1 = Some 107%N /\ vg_get_edge (b_graph b) 2 3 = Some 11%N /\ extracted_first (sample_ops (fun _ => kInvalidId)).
Proof.
  assert (H : match sample_builder (sample_options false true) (sample_ops (fun _ => kInvalidId)) with
              | Ok b => match sbuild (sample_est by_group) sorders (fun _ => ord_id) 6 b ∅ [] with
                  | Ok (okb, outs, b', h') => is_Some (rc_views (b_recon b) !! 5%N) /\ (views_of <$> outs) = [[0; 1]; [3; 2]]%N /\ views_of (b_recon b') = [4%N] /\
                      vg_get_edge (b_graph b) 4 5 = None /\ vg_get_edge (b_graph b) 0 1 = Some 107%N /\ vg_get_edge (b_graph b) 2 3 = Some 11%N | _ => False end
              | _ => False end) by (vm_compute; repeat split; eexists; reflexivity).
  destruct (sample_builder _ _) as [b| | |] eqn:Hb; [|destruct H..]. destruct (sbuild _ _ _ _ b _ _) as [[[[okb outs] b'] h']| | |] eqn:Hr; [|destruct H..].
  destruct (sample_builder_made _ _ b (sample_moderate false true _) Hb) as [_ Hm]. exists b, okb, outs, b', h'.
  destruct H as (H1 & H2 & H3 & H4 & H5 & H6). split; [reflexivity|]. split; [exact Hm|]. split; [exact Hr|]. split; [exact H1|]. split; [exact H2|]. split; [exact H3|]. split; [exact H4|]. split; [exact H5|]. split; [exact H6|].
  apply sample_extracted.
Qed.

(** C122.  "until no more views can be successfully estimated" is false.  The estimator could estimate the two views that
    remain: they are not tried. *)
Theorem build_exhausts_refuted : exists (est : sest) opts ops b okb outs b' h',
  keeps (fun c => c) est /\ progresses est /\ returns est /\ moderate opts ops /\ sample_builder opts ops = Ok b /\ bo_largest opts = false /\
  sbuild est sorders (fun _ => ord_id) 6 b ∅ [] = Ok (okb, outs, b', h') /\ length outs = 2%nat /\
  exists g r h, est 2%nat (b_graph b') (b_recon b') h' = Ok (true, g, r, h) /\ est_view r 4%N /\ est_view r 5%N.
Proof.
  assert (H : match sample_run (sample_est by_group) (sample_options false false) (sample_ops (fun _ => kInvalidId)) 6 [] with
              | Ok (okb, outs, b', h') => length outs = 2%nat /\ match sample_est by_group 2 (b_graph b') (b_recon b') h' with
                  | Ok (ok, g, r, h) => ok = true /\ (v_est <$> rc_views r !! 4%N) = Some true /\ (v_est <$> rc_views r !! 5%N) = Some true | _ => False end
              | _ => False end) by (vm_compute; repeat split).
  destruct (sample_run _ _ _ _ _) as [[[[okb outs] b'] h']| | |] eqn:Er; [|destruct H..]. apply sample_run_split in Er as (b & Hb & Hr). destruct H as [H1 H2].
  destruct (sample_est by_group 2 (b_graph b') (b_recon b') h') as [[[[ok g] r] h]| | |] eqn:Ee; [|destruct H2..]. destruct H2 as (-> & H2 & H3).
  exists (sample_est by_group), (sample_options false false), (sample_ops (fun _ => kInvalidId)), b, okb, outs, b', h'.
  split; [apply sample_keeps|]. split; [apply sample_progresses|]. split; [apply sample_returns|]. split; [apply sample_moderate|]. split; [exact Hb|]. split; [reflexivity|]. split; [exact Hr|]. split; [exact H1|].
  exists g, r, h. split; [exact Ee|]. split; [destruct (rc_views r !! 4%N) as [v|] eqn:Ev|destruct (rc_views r !! 5%N) as [v|] eqn:Ev]; try discriminate H2; try discriminate H3; exists v; split; try assumption; [by injection H2|by injection H3].
Qed.
Print Assumptions build_exhausts_refuted.

Lemma idle_keeps (ok : bool) : keeps (fun c => c) ((fun k g r h => Ok (ok, g, r, h)) : sest).
Proof.
  intros k g r h ok' g' r' h' [= <- <- <- <-]. do 6 (split; [done|]). split; [lia|]. split; [intros u; destruct (rc_views r !! u); constructor; done|].
  split; [intros t; destruct (rc_tracks r !! t); constructor; done|]. split; [done|]. split; [intros u v' Hv'; right; by exists u, v'|done].
Qed.
(** C122.  The result does not say whether a reconstruction was made: (1) it is true without any when no more than one view
    takes part, (2) it is true after a failed estimate when the vector of the caller was not empty. *)
Theorem build_result_refuted :
  (exists opts (b1 : sbuilder) b' h', reachable (F := N) false tt (b_recon b1) /\ (exists r g, given_builder opts r g = Ok b1) /\
     sbuild (sample_est by_group) sorders (fun _ => ord_id) 6 b1 ∅ [] = Ok (true, [], b', h')) /\
  (exists (est : sest) opts ops b e b' h', keeps (fun c => c) est /\ moderate opts ops /\ sample_builder opts ops = Ok b /\
     (forall k g r h ok g' r' h', est k g r h = Ok (ok, g', r', h') -> ok = false) /\
     sbuild est sorders (fun _ => ord_id) 6 b ∅ [e] = Ok (true, [e], b', h')).
Proof.
  split.
  - set (rops := [OAddView ord_id "a"; OAddView ord_id "b"; OAddTrack [(0%N, 1%N); (1%N, 2%N)]; OSetView 0%N false true] : list (rc_op N bool unit)).
    assert (H : match run_obs (rc_step false tt) rc_empty rops with
                | Ok (r, rs) => match given_builder (P := bool) (sample_options false true) r (vg_add_edge vg_empty 0%N 1%N 5%N) with
                    | Ok b1 => match sbuild (sample_est by_group) sorders (fun _ => ord_id) 6 b1 ∅ [] with Ok (okb, outs, _, _) => okb = true /\ outs = [] | _ => False end
                    | _ => False end | _ => False end) by (vm_compute; repeat split).
    destruct (run_obs (rc_step false tt) rc_empty rops) as [[r rs]| | |] eqn:Er; [|destruct H..].
    destruct (given_builder (P := bool) (sample_options false true) r (vg_add_edge vg_empty 0%N 1%N 5%N)) as [b1| | |] eqn:Eg; [|destruct H..].
    destruct (sbuild _ _ _ _ _ _ _) as [[[[okb outs] b'] h']| | |] eqn:Es; [|destruct H..]. destruct H as [-> ->].
    assert (b_recon b1 = r) as Hrb. { unfold given_builder in Eg. apply bind_Ok in Eg as (_ & _ & Eg). by injection Eg as <-. }
    exists (sample_options false true), b1, b', h'. split; [exists rops, rs; split; [vm_compute; reflexivity|by rewrite Hrb]|]. split; [by eexists _, _|]. exact Es.
  - set (est := (fun k g r h => Ok (false, g, r, h)) : sest).
    assert (H : match sample_run est (sample_options false false) (sample_ops (fun _ => kInvalidId)) 6 [rc_empty] with
              | Ok (okb, outs, b', h') => okb = true /\ outs = [rc_empty] | _ => False end) by (vm_compute; repeat split).
    destruct (sample_run _ _ _ _ _) as [[[[okb outs] b'] h']| | |] eqn:Er; [|destruct H..]. destruct H as [-> ->]. apply sample_run_split in Er as (b & Hb & Hr).
    exists est, (sample_options false false), (sample_ops (fun _ => kInvalidId)), b, rc_empty, b', h'. split; [|split; [apply sample_moderate|split; [exact Hb|split; [|exact Hr]]]].
    + apply idle_keeps.
    + clear. intros k g r h ok g' r' h' [= <- _ _ _]. done.
Qed.
Print Assumptions build_result_refuted.

(** C122.  If a successful estimate estimates no view, BuildReconstruction goes on forever. *)
Theorem build_returns_refuted : exists (est : sest) opts ops b, keeps (fun c => c) est /\ returns est /\ moderate opts ops /\ sample_builder opts ops = Ok b /\
  forall fuel, sbuild est sorders (fun _ => ord_id) fuel b ∅ [] = Hang.
Proof.
  set (est := (fun k g r h => Ok (true, g, r, h)) : sest).
  assert (H : match sample_builder (sample_options false false) (sample_ops (fun _ => kInvalidId)) with
              | Ok b => match prepare tt (fun c : bool => c) sorders b with
                        | Ok b1 => bo_largest (b_options b1) = false /\ (3 <= size (rc_views (b_recon b1)))%nat /\ Forall (fun uv : N * view N bool => v_est uv.2 = false) (map_to_list (rc_views (b_recon b1)))
                        | _ => False end | _ => False end).
  { vm_compute. split; [reflexivity|]. split; [lia|]. repeat constructor. }
  destruct (sample_builder _ _) as [b| | |] eqn:Eb; [|destruct H..]. destruct (prepare _ _ _ b) as [b1| | |] eqn:Ep; [|destruct H..]. destruct H as (Hl & Hs & Hf).
  exists est, (sample_options false false), (sample_ops (fun _ => kInvalidId)), b. split; [apply idle_keeps|]. split; [intros k g r h; eexists; reflexivity|]. split; [apply sample_moderate|]. split; [done|].
  destruct (sample_builder_made _ _ b (sample_moderate false false _) Eb) as [_ Hm]. destruct (prepare_made _ _ _ _ _ _ b sorders b1 Hm Ep) as (Hok & _).
  assert (Hest : forall u v, rc_views (b_recon b1) !! u = Some v -> v_est v = false). { intros u v Hv. rewrite Forall_forall in Hf. apply (Hf (u, v)). by apply elem_of_map_to_list. }
  intros fuel. unfold build. rewrite Ep. cbn [mbind outcome_bind]. rewrite Hl.
  assert (Hloop : forall fuel k r g h outs, ok r -> (3 <= size (rc_views r))%nat -> (forall u v, rc_views r !! u = Some v -> v_est v = false) -> build_loop est (fun _ => ord_id) false fuel k r g h outs = Hang).
  { clear. induction fuel as [|fuel IH]; intros k r g h outs Hok Hs He; [reflexivity|]. cbn [build_loop]. rewrite decide_False by lia. cbn [est mbind outcome_bind negb].
    destruct (create_estimated_part ord_id r Hok) as (e & -> & _). cbn [mbind outcome_bind]. destruct (remove_estimated_part ord_id r g Hok) as (r2 & g2 & -> & Hok2 & Hp & _). cbn [mbind outcome_bind].
    assert (Hv : forall u v, rc_views r2 !! u = Some v -> v_est v = false). { intros u v Hv. destruct (part_views _ _ _ _ _ _ Hp Hv) as (w & Hw & _ & _ & -> & _). by apply (He u). }
    assert (Hsz : (size (rc_views r) <= size (rc_views r2))%nat).
    { rewrite <- !size_dom. apply subseteq_size. intros u Hu. apply elem_of_dom in Hu. apply elem_of_dom. apply (proj1 Hp u). split; [done|]. intros (v & Hv' & Hvt). rewrite (He u v Hv') in Hvt. done. }
    rewrite decide_False by lia. apply IH; [done|lia|done]. }
  rewrite (Hloop fuel 0%nat _ _ _ _ Hok Hs Hest). reflexivity.
Qed.
Print Assumptions build_returns_refuted.

(** C125.  Without that, it is false: with shared intrinsics the second estimate overwrites the intrinsics of the first
    reconstruction. *)
Definition by_view (k : nat) (r : srecon) (u : N) : bool := bool_decide (u < 2 * N.of_nat (S k))%N.
Lemma sample_heap mark k g r h ok g' r' h' u v : sample_est mark k g r h = Ok (ok, g', r', h') -> rc_views r' !! u = Some v -> h' !! v_intr v = Some (N.of_nat k).
Proof.
  unfold sample_est. cbv zeta. set (R := set_views r _). intros K. injection K as _ _ <- <-. unfold R. rewrite sample_views. destruct (rc_views r !! u) as [w|] eqn:Ew; [|done]. cbn [fmap option_fmap option_map]. intros K. injection K as <-. cbn [v_intr].
  assert (Hin : (u, w) ∈ map_to_list (rc_views r)) by (by apply elem_of_map_to_list). revert Hin. generalize (map_to_list (rc_views r)). clear. induction l as [|[x y] l IH]; [by intros ?%elem_of_nil|].
  intros Hin. cbn [foldr snd]. destruct (decide (v_intr y = v_intr w)) as [->|Hne]; [by rewrite lookup_insert|]. rewrite lookup_insert_ne by done. apply IH. apply elem_of_cons in Hin as [[= <- <-]|Hin]; [done|done].
Qed.
Theorem returned_intrinsics_stable_refuted : exists opts ops b okb outs b' h', keeps (fun c => c) (sample_est by_view) /\ moderate opts ops /\
  sample_builder opts ops = Ok b /\ smade b /\ sbuild (sample_est by_view) sorders (fun _ => ord_id) 6 b ∅ [] = Ok (okb, outs, b', h') /\
  ~ (forall i e, outs !! i = Some e -> exists g0 r0 h0 g1 r1 h1, sample_est by_view i g0 r0 h0 = Ok (true, g1, r1, h1) /\ part r1 (est_view r1) (est_track r1) e /\
    forall u v, rc_views e !! u = Some v -> h' !! v_intr v = h1 !! v_intr v).
Proof.
  assert (H : match sample_run (sample_est by_view) (sample_options false false) (sample_ops (fun _ => 3%N)) 6 [] with
              | Ok (okb, outs, b', h') => match outs with e0 :: _ => match rc_views e0 !! 0%N with Some v => h' !! v_intr v = Some 1%N | None => False end | [] => False end | _ => False end) by (vm_compute; reflexivity).
  destruct (sample_run _ _ _ _ _) as [[[[okb outs] b'] h']| | |] eqn:Er; [|destruct H..]. apply sample_run_split in Er as (b & Hb & Hr).
  destruct (sample_builder_made _ _ b (sample_moderate false false _) Hb) as [_ Hm].
  exists (sample_options false false), (sample_ops (fun _ => 3%N)), b, okb, outs, b', h'. split; [apply sample_keeps|]. split; [apply sample_moderate|]. split; [exact Hb|]. split; [exact Hm|]. split; [exact Hr|].
  clear Hr Hb Hm. intros K. destruct outs as [|e0 outs]; [done|]. destruct (rc_views e0 !! 0%N) as [v|] eqn:Ev; [|done]. destruct (K 0%nat e0 eq_refl) as (g0 & r0 & h0 & g1 & r1 & h1 & Ke & Kp & Kh).
  specialize (Kh 0%N v Ev). destruct (part_views _ _ _ _ _ _ Kp Ev) as (w & Hw & _ & _ & _ & Hi & _). pose proof (sample_heap _ _ _ _ _ _ _ _ _ _ _ Ke Hw) as Hh. rewrite Hi in Kh, H. rewrite Kh, Hh in H. discriminate H.
Qed.
Print Assumptions returned_intrinsics_stable_refuted.

(** C126.  A new builder: adding an image after features were extracted, and extracting features when the database has a
    prior for an image that was not added, are undefined behaviour; a match of an image that was not added, a match of an
    image with itself that has correspondences, extraction after a match was added, and (it can be) a second call of
    BuildReconstruction abort. *)
Definition image (name : string) : sop := BAddImage ord_id name (Some true) kInvalidId.
Definition sample_calls (ops : list sop) : outcome sbuilder := sample_builder (sample_options false false) ops.
Definition split_ops : list sop :=
  [image "a"; image "b"; image "c"; image "d"; image "e"; BAddMatch "a" "b" 1%N [(1, 2)]%N; BAddMatch "c" "d" 2%N []; BAddMatch "d" "e" 3%N []].
Definition first_pair (k : nat) (r : srecon) (u : N) : bool := bool_decide (u < 2)%N.
Lemma is_ub {A} (x : outcome A) : match x with UB => true | _ => false end = true -> x = UB.
Proof. by destruct x. Qed.
Lemma is_check_fail {A} (x : outcome A) : match x with CheckFail => true | _ => false end = true -> x = CheckFail.
Proof. by destruct x. Qed.
Theorem builder_calls_refuted :
  sample_calls [image "a"; image "b"; BExtract [] []; image "c"] = UB /\
  sample_calls [image "a"; BExtract [("c", true)] []] = UB /\
  sample_calls [image "a"; BAddMatch "a" "c" 1%N []] = CheckFail /\
  sample_calls [image "a"; BAddMatch "a" "a" 1%N [(1, 2)]%N] = CheckFail /\
  sample_calls [image "a"; image "b"; BAddMatch "a" "b" 1%N []; BExtract [] []] = CheckFail /\
  (exists b okb outs b' h', sample_calls split_ops = Ok b /\ sbuild (sample_est first_pair) sorders (fun _ => ord_id) 6 b ∅ [] = Ok (okb, outs, b', h') /\
     okb = true /\ (2 <= vg_num_views (b_graph b'))%nat /\ sbuild (sample_est first_pair) sorders (fun _ => ord_id) 6 b' h' [] = CheckFail).
Proof.
  do 2 (split; [apply is_ub; vm_compute; reflexivity|]). do 3 (split; [apply is_check_fail; vm_compute; reflexivity|]).
  assert (H : match sample_run (sample_est first_pair) (sample_options false false) split_ops 6 [] with
              | Ok (okb, outs, b', h') => okb = true /\ (2 <= vg_num_views (b_graph b'))%nat /\ match sbuild (sample_est first_pair) sorders (fun _ => ord_id) 6 b' h' [] with CheckFail => True | _ => False end
              | _ => False end) by (vm_compute; repeat split; lia).
  destruct (sample_run _ _ _ _ _) as [[[[okb outs] b'] h']| | |] eqn:Er; [|destruct H..]. apply sample_run_split in Er as (b & Hb & Hr). destruct H as (K1 & K2 & K3).
  exists b, okb, outs, b', h'. split; [exact Hb|]. split; [exact Hr|]. split; [exact K1|]. split; [exact K2|]. destruct (sbuild _ _ _ _ b' _ _); [destruct K3|reflexivity|destruct K3|destruct K3].
Qed.
Print Assumptions builder_calls_refuted.

(** A given reconstruction with a track: the hypotheses of [given_builder_calls_partial] are met. *)
Example given_builder_sample : exists opts r g b, reachable (F := N) (C := bool) false tt r /\ given_builder (E := N) (P := bool) opts r g = Ok b /\ (2 <= vg_num_views g)%nat /\ rc_tracks r <> ∅ /\ size (rc_views r) = 3%nat.
Proof.
  set (rops := [OAddView ord_id "a"; OAddView ord_id "b"; OAddView ord_id "c"; OAddTrack [(0%N, 1%N); (1%N, 2%N)]; OSetView 0%N false true] : list (rc_op N bool unit)).
  assert (H : match run_obs (rc_step false tt) rc_empty rops with Ok (r, rs) => size (rc_tracks r) = 1%nat /\ size (rc_views r) = 3%nat | _ => False end) by (vm_compute; repeat split).
  destruct (run_obs (rc_step false tt) rc_empty rops) as [[r rs]| | |] eqn:Er; [|destruct H..]. destruct H as [H1 H2].
  exists (sample_options false true), r, (vg_add_edge vg_empty 0%N 1%N 5%N), (Builder (sample_options false true) None r (vg_add_edge vg_empty 0%N 1%N 5%N) [] None).
  split; [exists rops, rs; split; [vm_compute; reflexivity|exact Er]|]. split; [reflexivity|]. split; [vm_compute; lia|]. split; [|exact H2]. intros K. rewrite K, map_size_empty in H1. done.
Qed.

(** An image is added twice; its prior is found in the database. *)
Example added_images_sample :
  let ops : list sop := [BAddImage ord_id "a" None kInvalidId; BAddImage ord_id "b" (Some true) kInvalidId; BAddImage ord_id "a" (Some false) kInvalidId; BExtract [("a", true); ("b", false)] []] in
  moderate (sample_options false false) ops /\
  match new_builder (sample_options false false) with
  | Ok b0 => match run_obs sstep b0 ops with
             | Ok (b, rs) => rs = [true; true; false; true] /\
                 (images_of false (fun s => s) (fun (p : bool) (_ : bool) => p) ops rs <$> ["a"; "b"; "c"]) = [Some true; Some false; None] /\
                 (v_data <$> rc_views (b_recon b) !! 0%N) = Some true /\ (v_data <$> rc_views (b_recon b) !! 1%N) = Some false
             | _ => False end
  | _ => False end.
Proof.
  cbv zeta. split.
  - split; [cbn; lia|]. split; [cbn; lia|]. vm_compute. reflexivity.
  - vm_compute. repeat split.
Qed.
