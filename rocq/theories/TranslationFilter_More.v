(** Proofs about the relative translation filter: iterations, weights and the edges that are removed. *)
From stdpp Require Import gmap fin_maps.
From Coq Require Import Reals Lra Psatz.
From Verif Require Import Base ViewGraph_Model ViewGraph_Spec ViewGraph_Proofs Camera_Model Camera_Proofs RotationGraph_Model RotationGraph_Spec RotationGraph_Proofs
  Alignment_Spec Alignment_Proofs TranslationFilter_Model TranslationFilter_Spec TranslationFilter_Proofs.
Open Scope R_scope.
Implicit Types (oe : order ((N * N) * two_view)) (oo : order (N * N)) (op sched ob : order ((N * N) * R)) (on : order (N * mfas_node)) (ow : order (N * R)) (os : gmap N vec3)
  (ord : gmap N nat) (axes : list vec3) (axis : vec3) (c : view_graph two_view).

(** ** The translations in the world frame *)
Definition rotated (os : gmap N vec3) (edges : gmap (N * N) two_view) : gmap (N * N) vec3 :=
  map_imap (fun e i => (fun o => aa_rotate (vscale (-1) o) (tv_position i)) <$> os !! e.1) edges.
Lemma rotate_steps (os : gmap N vec3) (l : list ((N * N) * two_view)) acc : base.NoDup l.*1 -> (forall e, e ∈ l -> is_Some (os !! e.1.1)) ->
  exists m, run_steps (rotate_step os) acc l = Ok m /\
    (forall k i, (k, i) ∈ l -> m !! k = (fun o => aa_rotate (vscale (-1) o) (tv_position i)) <$> os !! k.1) /\ (forall k, k ∉ l.*1 -> m !! k = acc !! k).
Proof.
  revert acc. induction l as [|[k i] l IH]; intros acc N1 HO.
  - exists acc. split; [done|]. split; [intros k i H; by apply elem_of_nil in H|done].
  - cbn [fmap list_fmap fst] in N1. apply list.NoDup_cons in N1 as [N1 N2]. destruct (HO (k, i)) as [o Ho]; [by left|]. cbn [fst] in Ho.
    cbn [run_steps]. assert (Es : rotate_step os acc (k, i) = Ok (<[k := aa_rotate (vscale (-1) o) (tv_position i)]> acc)) by (unfold rotate_step; cbn [fst snd]; by rewrite Ho).
    rewrite Es. cbn [mbind outcome_bind]. destruct (IH (<[k := aa_rotate (vscale (-1) o) (tv_position i)]> acc) N2) as (m & E & H1 & H2); [intros e He; apply HO; by right|].
    exists m. split; [done|]. split.
    + intros k' i' H. apply elem_of_cons in H as [[= -> ->]|H]; [|by apply H1]. rewrite H2 by done. rewrite lookup_insert, Ho. done.
    + intros k' H. cbn [fmap list_fmap fst] in H. apply not_elem_of_cons in H as [Hne H]. rewrite H2 by done. by rewrite lookup_insert_ne.
Qed.
Lemma rotate_ok (oe : order ((N * N) * two_view)) (os : gmap N vec3) (edges : gmap (N * N) two_view) : (forall k i, edges !! k = Some i -> is_Some (os !! k.1)) ->
  rotate_translations oe os edges = Ok (rotated os edges).
Proof.
  intros HO. unfold rotate_translations. destruct (rotate_steps os (oe (map_to_list edges)) ∅) as (m & E & H1 & H2).
  - rewrite ord_perm. apply NoDup_fst_map_to_list.
  - intros [k i] He. rewrite ord_perm in He. apply elem_of_map_to_list in He. by apply HO in He.
  - rewrite E. f_equal. apply map_eq. intros k. unfold rotated. rewrite map_lookup_imap. destruct (edges !! k) as [i|] eqn:Ek; cbn.
    + apply H1. rewrite ord_perm. by apply elem_of_map_to_list.
    + rewrite H2; [apply lookup_empty|]. rewrite ord_perm. intros H. apply elem_of_list_fmap in H as ([k' i] & -> & H). apply elem_of_map_to_list in H. cbn in Ek. congruence.
Qed.
Lemma rotate_fail (oe : order ((N * N) * two_view)) (os : gmap N vec3) (edges : gmap (N * N) two_view) k i : edges !! k = Some i -> os !! k.1 = None -> rotate_translations oe os edges = CheckFail.
Proof.
  intros Hk Ho. unfold rotate_translations. assert (H : (k, i) ∈ oe (map_to_list edges)) by (rewrite ord_perm; by apply elem_of_map_to_list).
  revert H. generalize (oe (map_to_list edges)) (∅ : gmap (N * N) vec3). induction l as [|[k' i'] l IH]; intros acc H; [by apply elem_of_nil in H|].
  cbn [run_steps]. destruct (os !! k'.1) as [o|] eqn:E.
  - assert (Es : rotate_step os acc (k', i') = Ok (<[k' := aa_rotate (vscale (-1) o) (tv_position i')]> acc)) by (unfold rotate_step; cbn [fst snd]; by rewrite E).
    rewrite Es. cbn [mbind outcome_bind]. apply elem_of_cons in H as [[= <- <-]|H]; [congruence|]. by apply IH.
  - assert (Es : rotate_step os acc (k', i') = CheckFail) by (unfold rotate_step; cbn [fst snd]; by rewrite E). by rewrite Es.
Qed.
Lemma rotated_lookup (os : gmap N vec3) edges k t : rotated os edges !! k = Some t <->
  exists i o, edges !! k = Some i /\ os !! k.1 = Some o /\ t = mapply (mtrans (rot_of_aa o)) (tv_position i).
Proof.
  unfold rotated. rewrite map_lookup_imap. split.
  - destruct (edges !! k) as [i|]; cbn; [|done]. destruct (os !! k.1) as [o|] eqn:Eo; cbn; [|done]. intros [= <-]. exists i, o. split; [done|]. split; [done|].
    rewrite aa_rotate_matrix, vscale_m1, rot_of_aa_vopp. done.
  - intros (i & o & -> & Ho & ->). cbn. rewrite Ho. cbn. f_equal. rewrite aa_rotate_matrix, vscale_m1, rot_of_aa_vopp. done.
Qed.

(** ** One iteration *)
Definition oriented_keys {V} (p : gmap (N * N) V) : Prop := forall k x, p !! k = Some x -> (k.1 < k.2)%N.
Definition parc (p : gmap (N * N) R) : N -> N -> R -> Prop := arc (map_to_list p).
Lemma parc_spec p u v w : parc p u v w <-> exists x, w = Rabs x /\ ((p !! (u, v) = Some x /\ 0 < x) \/ (p !! (v, u) = Some x /\ ~ 0 < x)).
Proof. unfold parc, arc. setoid_rewrite elem_of_map_to_list. done. Qed.
Lemma arc_perm l l' u v w : l ≡ₚ l' -> arc l u v w <-> arc l' u v w.
Proof. intros P. unfold arc. by setoid_rewrite P. Qed.
Lemma order_ok op on ow (p : gmap (N * N) R) : oriented_keys p ->
  exists ord, order_translations op on ow p = Ok ord /\
    (forall k x, p !! k = Some x -> exists d1 d2, ord !! k.1 = Some d1 /\ ord !! k.2 = Some d2 /\ d1 <> d2) /\
    (acyclic (parc p) -> forall u v w ju jv, parc p u v w -> ord !! u = Some ju -> ord !! v = Some jv -> (ju < jv)%nat).
Proof.
  intros HK. set (l := op (map_to_list p)).
  assert (HL : keyed l).
  { split; [unfold l; rewrite ord_perm; apply NoDup_fst_map_to_list|]. intros [k x] He. unfold l in He. rewrite ord_perm in He. apply elem_of_map_to_list in He. by apply HK in He. }
  destruct (order_loop_ok (arc l) on ow _ 0 (endpoint l) (foldl degree_step ∅ l) ∅ (arc_sound l HL) (degrees_good l HL) eq_refl) as (ord & E & _ & H2 & H3 & H4).
  assert (Hend : forall k x, p !! k = Some x -> endpoint l k.1 /\ endpoint l k.2).
  { intros k x Hx. split; exists (k, x); (split; [unfold l; rewrite ord_perm; by apply elem_of_map_to_list|]); cbn; auto. }
  exists ord. split; [exact E|]. split.
  - intros k x Hx. destruct (Hend k x Hx) as [E1 E2]. destruct (H2 _ E1) as (d1 & D1 & _). destruct (H2 _ E2) as (d2 & D2 & _). exists d1, d2. split; [done|]. split; [done|].
    intros ->. assert (k.1 = k.2) by (by apply (H3 _ _ d2)). apply HK in Hx. lia.
  - intros Hac u v w ju jv Ha Hu Hv. assert (Ha' : arc l u v w) by (eapply arc_perm; [apply ord_perm|done]).
    assert (endpoint l u /\ endpoint l v) as [Eu Ev] by (destruct Ha' as (x & _ & [[Hx _]|[Hx _]]); split; eexists; (split; [exact Hx|]); cbn; auto).
    apply (H4) with (u := u) (v := v) (w := w); try done.
    intros T NT. destruct (Hac T NT) as (x & Hx & Hno). exists x. split; [done|]. intros y r Hy Hr. apply (Hno y r Hy). eapply arc_perm; [|exact Hr]. symmetry. apply ord_perm.
Qed.

Fixpoint wsum (e : N * N) (l : list ((N * N) * R)) : R := match l with [] => 0 | a :: l => (if decide (a.1 = e) then a.2 else 0) + wsum e l end.
Lemma wsum_app e l l' : wsum e (l ++ l') = wsum e l + wsum e l'.
Proof. induction l as [|a l IH]; cbn; [ring|]. rewrite IH. ring. Qed.
Lemma wsum_perm e l l' : l ≡ₚ l' -> wsum e l = wsum e l'.
Proof. induction 1; cbn; lra. Qed.
Lemma wsum_out e l : e ∉ l.*1 -> wsum e l = 0.
Proof. induction l as [|a l IH]; [done|]. cbn. rewrite not_elem_of_cons. intros [H1 H2]. rewrite decide_False by congruence. rewrite IH by done. ring. Qed.

(** What an iteration adds to an edge. *)
Definition is_bad (d1 d2 : nat) (x : R) : bool := bool_decide (d2 < d1)%nat && Rltb 0 x || bool_decide (d1 < d2)%nat && Rltb x 0.
Definition contrib (ord : gmap N nat) (p : gmap (N * N) R) (e : N * N) : R :=
  match ord !! e.1, ord !! e.2, p !! e with
  | Some d1, Some d2, Some x => if is_bad d1 d2 x then Rabs x else 0
  | _, _, _ => 0
  end.
Lemma bad_edges_ok ord p (l : list (N * N)) acc : base.NoDup l -> (forall e, e ∈ l -> exists x d1 d2, p !! e = Some x /\ ord !! e.1 = Some d1 /\ ord !! e.2 = Some d2) ->
  exists L, run_steps (fun acc e => l ← bad_edge ord p e; Ok (acc ++ l)) acc l = Ok (acc ++ L) /\ (forall e, wsum e L = if decide (e ∈ l) then contrib ord p e else 0) /\ (forall a, a ∈ L -> a.1 ∈ l).
Proof.
  revert acc. induction l as [|e l IH]; intros acc ND HO.
  - exists []. split; [cbn; by rewrite app_nil_r|]. split; [|intros a Ha; by apply elem_of_nil in Ha]. intros e. rewrite decide_False by apply not_elem_of_nil. done.
  - apply list.NoDup_cons in ND as [N1 N2]. destruct (HO e) as (x & d1 & d2 & Hx & H1 & H2); [by left|]. cbn [run_steps]. set (L0 := if is_bad d1 d2 x then [(e, Rabs x)] else []).
    assert (Es : bad_edge ord p e = Ok L0) by (unfold bad_edge; rewrite Hx, H1, H2; done). rewrite Es. cbn [mbind outcome_bind]. destruct (IH (acc ++ L0) N2) as (L & E & HL & HI); [intros e' He; apply HO; by right|].
    exists (L0 ++ L). split; [by rewrite app_assoc|]. split.
    2:{ intros a Ha. apply elem_of_app in Ha as [Ha|Ha]; [|right; by apply HI]. unfold L0 in Ha. destruct (is_bad d1 d2 x); [|by apply elem_of_nil in Ha]. apply elem_of_list_singleton in Ha as ->. by left. }
    intros e'. rewrite wsum_app, HL.
    assert (E0 : wsum e' L0 = if decide (e' = e) then contrib ord p e else 0).
    { unfold contrib. rewrite Hx, H1, H2. unfold L0. destruct (is_bad d1 d2 x); cbn.
      - destruct (decide (e = e')), (decide (e' = e)); try congruence; ring.
      - by destruct (decide (e' = e)). }
    rewrite E0. destruct (decide (e' = e)) as [->|Ne].
    + rewrite decide_False by done. rewrite decide_True by (by left). ring.
    + destruct (decide (e' ∈ l)) as [Hi|Hi].
      * rewrite decide_True by (by right). ring.
      * rewrite decide_False by (rewrite elem_of_cons; tauto). ring.
Qed.
Definition projected (T : gmap (N * N) vec3) (axis : vec3) : gmap (N * N) R := (fun t => dot t axis) <$> T.
(** What an iteration along the axis adds to an edge. *)
Definition gain (op : order ((N * N) * R)) (on : order (N * mfas_node)) (ow : order (N * R)) (T : gmap (N * N) vec3) (axis : vec3) (e : N * N) : R :=
  match order_translations op on ow (projected T axis) with Ok ord => contrib ord (projected T axis) e | _ => 0 end.
Lemma projected_keys T axis : oriented_keys T -> oriented_keys (projected T axis).
Proof. intros H k x. unfold projected. rewrite lookup_fmap. destruct (T !! k) as [t|] eqn:E; [|done]. intros _. by apply H in E. Qed.
Lemma iteration_ok oo op on ow T axis : oriented_keys T ->
  exists L, filter_iteration oo op on ow T axis = Ok L /\ (forall e, wsum e L = gain op on ow T axis e) /\ (forall a, a ∈ L -> is_Some (T !! a.1)).
Proof.
  intros HK. unfold filter_iteration. fold (projected T axis). destruct (order_ok op on ow (projected T axis) (projected_keys _ _ HK)) as (ord & E & H1 & _).
  unfold gain. rewrite E. cbn [mbind outcome_bind].
  destruct (bad_edges_ok ord (projected T axis) (oo (elements (dom T))) []) as (L & EL & HL & HI).
  - rewrite ord_perm. apply NoDup_elements.
  - intros e He. rewrite ord_perm in He. apply elem_of_elements, elem_of_dom in He as [t Ht]. assert (Hp : projected T axis !! e = Some (dot t axis)) by (unfold projected; by rewrite lookup_fmap, Ht).
    destruct (H1 _ _ Hp) as (d1 & d2 & ? & ? & _). eauto 10.
  - exists L. split; [exact EL|]. split; [|intros a Ha; apply HI in Ha; rewrite ord_perm in Ha; by apply elem_of_elements, elem_of_dom in Ha]. intros e. rewrite HL. destruct (decide (e ∈ _)) as [|N]; [done|]. unfold contrib.
    assert (projected T axis !! e = None) as ->; [|by destruct (ord !! e.1), (ord !! e.2)]. rewrite ord_perm, elem_of_elements, not_elem_of_dom in N. unfold projected. by rewrite lookup_fmap, N.
Qed.
Lemma iterations_ok oo op on ow T axes acc : oriented_keys T ->
  exists L, run_steps (fun acc axis => l ← filter_iteration oo op on ow T axis; Ok (acc ++ l)) acc axes = Ok (acc ++ L) /\
    (forall e, wsum e L = Rsum (fun a => gain op on ow T a e) axes) /\ (forall a, a ∈ L -> is_Some (T !! a.1)).
Proof.
  intros HK. revert acc. induction axes as [|a axes IH]; intros acc.
  - exists []. split; [cbn; by rewrite app_nil_r|]. split; [done|]. intros a Ha. by apply elem_of_nil in Ha.
  - cbn [run_steps]. destruct (iteration_ok oo op on ow T a HK) as (L0 & E0 & H0 & HI0). rewrite E0. cbn [mbind outcome_bind]. destruct (IH (acc ++ L0)) as (L & E & H & HI).
    exists (L0 ++ L). split; [by rewrite app_assoc|]. split; [intros e; rewrite wsum_app, H0, H; done|]. intros b Hb. apply elem_of_app in Hb as [Hb|Hb]; auto.
Qed.
Lemma add_weights (L : list ((N * N) * R)) (m : gmap (N * N) R) e : default 0 (foldl add_weight m L !! e) = default 0 (m !! e) + wsum e L.
Proof.
  revert m. induction L as [|a L IH]; intros m; cbn [foldl wsum]; [ring|]. rewrite IH. unfold add_weight. destruct (decide (a.1 = e)) as [<-|N].
  - rewrite lookup_insert. cbn. unfold Datatypes.id. ring.
  - rewrite lookup_insert_ne by done. ring.
Qed.

(** The edges that stay. *)
Definition keeps (op : order ((N * N) * R)) (on : order (N * mfas_node)) (ow : order (N * R)) (axes : list vec3) (lim : R) (T : gmap (N * N) vec3) (a b : N) : Prop :=
  Rsum (fun axis => gain op on ow T axis (view_id_pair a b)) axes <= lim.
Lemma vrel_edge c (g : agraph two_view) k i : vrel c g -> vg_edges c !! k = Some i -> (k.1 < k.2)%N /\ ag_label g k.1 k.2 = Some i.
Proof. intros (_ & _ & He & _). destruct k as [a b]. rewrite He. destruct (decide (a < b)%N); [done|]. done. Qed.
Lemma rotated_keys (os : gmap N vec3) c (g : agraph two_view) : vrel c g -> oriented_keys (rotated os (vg_edges c)).
Proof. intros Hr k t Ht. apply rotated_lookup in Ht as (i & o & Hi & _). by destruct (vrel_edge c g k i Hr Hi). Qed.

Lemma filter_ok oe oo op on ow sched ob axes n tol os c (g : agraph two_view) : vrel c g -> oriented c os ->
  exists c', filter_translations oe oo op on ow sched ob axes n tol os c = Ok c' /\
    restricted c c' (keeps op on ow axes (tol * IZR n) (rotated os (vg_edges c))) /\ (exists g', vrel c' g').
Proof.
  intros Hr HO. unfold filter_translations. rewrite rotate_ok.
  2:{ intros [a b] i Hi. destruct (vrel_edge c g _ i Hr Hi) as [Hab Hl]. cbn in *. apply (HO a b Hab). by apply (vrel_answers _ _ Hr). }
  cbn [mbind outcome_bind]. set (T := rotated os (vg_edges c)). pose proof (rotated_keys os c g Hr) as HK. fold T in HK.
  destruct (iterations_ok oo op on ow T axes [] HK) as (L & E & HL & HI). rewrite E. cbn [mbind outcome_bind app].
  set (W := foldl add_weight _ (sched L)). set (bad := List.filter _ (ob (map_to_list W))).
  assert (HW : forall e, default 0 (W !! e) = Rsum (fun a => gain op on ow T a e) axes).
  { intros e. unfold W. rewrite add_weights, lookup_fmap. rewrite (wsum_perm e _ L) by apply ord_perm. rewrite HL. destruct (vg_edges c !! e); cbn; unfold Datatypes.id; ring. }
  assert (Dom : forall e, W !! e = None -> vg_edges c !! e = None).
  { intros e. unfold W. generalize (sched L). intros L'. assert (H : forall (m : gmap (N * N) R), foldl add_weight m L' !! e = None -> m !! e = None).
    { induction L' as [|a L' IH]; intros m; [done|]. cbn [foldl]. intros H. apply IH in H. unfold add_weight in H. by apply lookup_insert_None in H as [? _]. }
    intros H1. apply H in H1. rewrite lookup_fmap in H1. by destruct (vg_edges c !! e). }
  assert (Er : foldl (fun g p => (vg_remove_edge g p.1.1 p.1.2).1) c bad = (vg_run c (map (fun p => VRemoveEdge p.1 p.2) (map fst bad))).1).
  { rewrite <- remove_pairs_run. generalize bad c. clear. intros bad. induction bad as [|p l IH]; intros c; [done|]. cbn. by rewrite IH. }
  rewrite Er. eexists. split; [done|]. destruct (vrel_run (map (fun p => VRemoveEdge p.1 p.2) (map fst bad)) c g Hr) as [Hr' _].
  destruct (ag_remove_run (map fst bad) g (proj2 (proj2 (proj2 Hr)))) as [Hv Hl]. cbn zeta in Hv, Hl. split; [|eauto].
  assert (HB : forall k, k ∈ map fst bad <-> is_Some (W !! k) /\ tol * IZR n < Rsum (fun a => gain op on ow T a k) axes).
  { intros k. rewrite <- HW. split.
    - intros H. apply elem_of_list_In, in_map_iff in H as ([k' w] & <- & H). apply filter_In in H as [H H2]. apply elem_of_list_In in H. rewrite ord_perm in H. apply elem_of_map_to_list in H. cbn [fst snd] in *. rewrite H. cbn. unfold Datatypes.id.
      split; [eauto|]. unfold Rltb in H2. by destruct (Rlt_dec _ _).
    - intros [[w Hw] H]. rewrite Hw in H. cbn in H. unfold Datatypes.id in H. apply elem_of_list_In, in_map_iff. exists (k, w). split; [done|]. apply filter_In. split.
      + apply elem_of_list_In. rewrite ord_perm. by apply elem_of_map_to_list.
      + cbn. unfold Rltb. by destruct (Rlt_dec _ _). }
  assert (HS : forall k, k ∈ map fst bad -> is_Some (W !! k)) by (intros k Hk; by apply HB in Hk as [? _]).
  assert (WE : forall k, is_Some (W !! k) <-> is_Some (vg_edges c !! k)).
  { intros k. split; [|intros [i Hi]; destruct (W !! k) eqn:Z; [eauto|]; apply Dom in Z; congruence].
    unfold W. assert (HI' : forall a, a ∈ sched L -> is_Some (vg_edges c !! a.1)).
    { intros a Ha. rewrite ord_perm in Ha. apply HI in Ha as [t Ht]. apply rotated_lookup in Ht as (i & o & Hi & _). eauto. }
    assert (H0 : is_Some (((fun _ => 0) <$> vg_edges c) !! k) -> is_Some (vg_edges c !! k)) by (rewrite lookup_fmap, fmap_is_Some; done).
    revert H0 HI'. generalize (sched L) ((fun _ : two_view => 0) <$> vg_edges c). induction l as [|a l IH]; intros m H0 HI'; [done|]. cbn [foldl]. apply IH.
    - unfold add_weight. destruct (decide (a.1 = k)) as [<-|Nk]; [intros _; apply HI'; by left|]. by rewrite lookup_insert_ne.
    - intros b Hb. apply HI'. by right. }
  eapply restricted_of_vrel; [exact Hr|exact Hr'|exact Hv|]. intros x y i. rewrite Hl.
  assert (NB : forall a b, (a, b) ∈ map fst bad -> (a < b)%N).
  { intros a b Hk. apply HB in Hk as [Hk _]. apply WE in Hk as [j Hj]. by destruct (vrel_edge c g _ j Hr Hj). }
  assert (KK : forall j, ag_label g x y = Some j -> (view_id_pair x y ∉ map fst bad <-> keeps op on ow axes (tol * IZR n) T x y)).
  { intros j Hj. rewrite <- (pair_lookup c g x y Hr) in Hj. rewrite HB. unfold keeps. split; [|intros ? [_ ?]; lra].
    intros H. apply Rnot_lt_le. intros Hlt. apply H. split; [|done]. apply WE. eauto. }
  split.
  - intros (Hi & H1 & H2). split; [done|]. apply (KK i Hi). unfold view_id_pair. by destruct (decide (x < y)%N).
  - intros [Hi Hk]. split; [done|]. apply (KK i Hi) in Hk. unfold view_id_pair in Hk. destruct (decide (x < y)%N).
    + split; [done|]. intros H. apply NB in H. lia.
    + split; [|done]. intros H. apply NB in H. lia.
Qed.

(** ** Consistent translations *)
Lemma potential_acyclic (A : N -> N -> R -> Prop) (h : N -> R) :
  (forall u v w, A u v w -> h u < h v \/ (h u = h v /\ (v < u)%N)) -> acyclic A.
Proof.
  intros HA T NT. assert (M : exists y, y ∈ T /\ forall u, u ∈ T -> h y < h u \/ (h y = h u /\ (u <= y)%N)).
  { induction T as [|x T Hx IH] using set_ind_L; [done|]. destruct (decide (T = ∅)) as [->|NT'].
    - exists x. split; [set_solver|]. intros u Hu. assert (u = x) as -> by set_solver. right. split; [done|lia].
    - destruct (IH NT') as (y & Hy & Hm). destruct (Rtotal_order (h x) (h y)) as [L|[L|L]].
      + exists x. split; [set_solver|]. intros u Hu. apply elem_of_union in Hu as [Hu|Hu]; [apply elem_of_singleton in Hu as ->; right; split; [done|lia]|]. left. destruct (Hm u Hu) as [?|[? _]]; lra.
      + destruct (N.le_gt_cases x y) as [Lx|Lx].
        * exists y. split; [set_solver|]. intros u Hu. apply elem_of_union in Hu as [Hu|Hu]; [apply elem_of_singleton in Hu as ->; right; split; [done|lia]|]. by apply Hm.
        * exists x. split; [set_solver|]. intros u Hu. apply elem_of_union in Hu as [Hu|Hu]; [apply elem_of_singleton in Hu as ->; right; split; [done|lia]|]. destruct (Hm u Hu) as [?|[? ?]]; [left; lra|right; split; [lra|lia]].
      + exists y. split; [set_solver|]. intros u Hu. apply elem_of_union in Hu as [Hu|Hu]; [apply elem_of_singleton in Hu as ->; left; lra|]. by apply Hm. }
  destruct M as (y & Hy & Hm). exists y. split; [done|]. intros u w Hu Ha. apply HA in Ha. destruct Ha as [?|[? ?]], (Hm u Hu) as [?|[? ?]]; try lra. lia.
Qed.
Lemma contrib_zero ord (p : gmap (N * N) R) e :
  (forall u v w ju jv, parc p u v w -> ord !! u = Some ju -> ord !! v = Some jv -> (ju < jv)%nat) -> contrib ord p e = 0.
Proof.
  intros H. unfold contrib. destruct (ord !! e.1) as [d1|] eqn:E1; [|done]. destruct (ord !! e.2) as [d2|] eqn:E2; [|done]. destruct (p !! e) as [x|] eqn:Ex; [|done].
  destruct e as [a b]. cbn [fst snd] in *. destruct (is_bad d1 d2 x) eqn:B; [|done]. exfalso. unfold is_bad, Rltb in B. apply orb_true_iff in B as [B|B]; apply andb_true_iff in B as [B1 B2]; apply bool_decide_eq_true in B1.
  - destruct (Rlt_dec 0 x) as [L|]; [|done]. assert (parc p a b (Rabs x)) by (apply parc_spec; exists x; auto). specialize (H a b _ d1 d2 H0 E1 E2). lia.
  - destruct (Rlt_dec x 0) as [L|]; [|done]. assert (parc p b a (Rabs x)) by (apply parc_spec; exists x; split; [done|]; right; split; [done|lra]). specialize (H b a _ d2 d1 H0 E2 E1). lia.
Qed.
Lemma consistent_gain op on ow (T : gmap (N * N) vec3) axis (pos : N -> vec3) e : oriented_keys T ->
  (forall k t, T !! k = Some t -> exists s, 0 < s /\ t = vscale s (vsub (pos k.2) (pos k.1))) -> gain op on ow T axis e = 0.
Proof.
  intros HK HC. unfold gain. destruct (order_ok op on ow (projected T axis) (projected_keys _ _ HK)) as (ord & -> & _ & H). apply contrib_zero. intros u v w ju jv Ha. apply (fun Hac => H Hac u v w ju jv); [|done].
  apply (potential_acyclic _ (fun v => dot (pos v) axis)). clear -HC HK. intros u v w Ha. apply parc_spec in Ha as (x & -> & Hx).
  assert (D : forall s a b, dot (vscale s (vsub a b)) axis = s * (dot a axis - dot b axis)) by (intros; unfold dot, vscale, vsub; cbn; ring).
  unfold projected in Hx. destruct Hx as [[Hx Px]|[Hx Px]]; rewrite lookup_fmap in Hx; apply fmap_Some in Hx as (t & Ht & ->); pose proof (HK _ _ Ht) as Lt; destruct (HC _ _ Ht) as (s & Hs & ->); rewrite D in Px; cbn [fst snd] in *.
  - left. clear -Px Hs. assert (0 < dot (pos v) axis - dot (pos u) axis); [|lra]. apply (Rmult_lt_reg_l s); lra.
  - assert (dot (pos u) axis - dot (pos v) axis <= 0). { apply (Rmult_le_reg_l s); lra. } destruct (Req_dec (dot (pos u) axis) (dot (pos v) axis)) as [E|E]; [right; done|left; lra].
Qed.

(** ** Cycles *)
Lemma gain_nonneg op on ow T axis e : 0 <= gain op on ow T axis e.
Proof.
  unfold gain. destruct (order_translations _ _ _ _) as [ord| | |]; try lra. unfold contrib. destruct (ord !! e.1), (ord !! e.2), (projected T axis !! e); try lra. destruct (is_bad _ _ _); [apply Rabs_pos|lra].
Qed.
Lemma gain_bound op on ow (T : gmap (N * N) vec3) axis e t : T !! e = Some t -> gain op on ow T axis e <= Rabs (dot t axis).
Proof.
  intros Ht. unfold gain. destruct (order_translations _ _ _ _) as [ord| | |]; try apply Rabs_pos. unfold contrib. unfold projected. rewrite lookup_fmap, Ht. cbn. destruct (ord !! e.1), (ord !! e.2); try apply Rabs_pos. destruct (is_bad _ _ _); [lra|apply Rabs_pos].
Qed.
(** A step from [a] to [b] goes forward by more than [m] in the projections. *)
Definition forward (p : gmap (N * N) R) (m : R) (ab : N * N) : Prop :=
  exists x, (p !! ab = Some x /\ m < x) \/ (p !! (ab.2, ab.1) = Some x /\ m < - x).
Lemma in_order_chain (lt : nat -> nat -> Prop) ord v rest : (forall i j k, lt i j -> lt j k -> lt i k) -> (forall a, ~ lt a a) ->
  Forall (fun ab : N * N => exists d1 d2, ord !! ab.1 = Some d1 /\ ord !! ab.2 = Some d2 /\ lt d1 d2) (cycle_steps v rest) -> False.
Proof.
  intros Htr Hir. unfold cycle_steps. assert (H : forall rest u d0, ord !! v = Some d0 ->
    Forall (fun ab : N * N => exists d1 d2, ord !! ab.1 = Some d1 /\ ord !! ab.2 = Some d2 /\ lt d1 d2) (zip (u :: rest) (rest ++ [v])) -> exists d, ord !! u = Some d /\ lt d d0).
  { clear -Htr. induction rest as [|y rest IH]; intros u d0 Hv H; cbn [zip_with app] in H; apply list.Forall_cons in H as [(d1 & d2 & H1 & H2 & L) H]; cbn [fst snd] in *.
    - exists d1. split; [done|]. rewrite Hv in H2. injection H2 as <-. done.
    - destruct (IH y d0 Hv H) as (d & Hd & L'). exists d1. split; [done|]. rewrite H2 in Hd. injection Hd as ->. eauto. }
  intros F. assert (Hv : is_Some (ord !! v)). { destruct rest; cbn [zip_with app] in F; apply list.Forall_cons in F as [(d1 & d2 & H1 & _) _]; cbn in H1; eauto. }
  destruct Hv as [d0 Hv]. destruct (H rest v d0 Hv F) as (d & Hd & L). rewrite Hv in Hd. injection Hd as ->. by apply Hir in L.
Qed.
Lemma view_id_pair_comm a b : view_id_pair a b = view_id_pair b a.
Proof. unfold view_id_pair. destruct (decide (a < b)%N), (decide (b < a)%N); try done; [lia|]. assert (a = b) as -> by lia. done. Qed.
Lemma forward_step ord (p : gmap (N * N) R) m a b : oriented_keys p -> 0 <= m ->
  (forall k x, p !! k = Some x -> exists d1 d2, ord !! k.1 = Some d1 /\ ord !! k.2 = Some d2 /\ d1 <> d2) -> forward p m (a, b) ->
  m < contrib ord p (view_id_pair a b) \/ exists d1 d2, ord !! a = Some d1 /\ ord !! b = Some d2 /\ (d1 < d2)%nat.
Proof.
  intros HP Hm H1 (x & [[Hx Px]|[Hx Px]]); cbn [fst snd] in *.
  - destruct (H1 _ _ Hx) as (d1 & d2 & D1 & D2 & Ne). cbn [fst snd] in *. destruct (decide (d1 < d2)%nat) as [|Nl]; [right; eauto 10|left].
    unfold view_id_pair. rewrite decide_True by (by apply HP in Hx). unfold contrib. cbn [fst snd]. rewrite D1, D2, Hx. unfold is_bad, Rltb. rewrite (bool_decide_true (d2 < d1)%nat) by lia. destruct (Rlt_dec 0 x); [|lra]. cbn [andb orb]. rewrite Rabs_right; lra.
  - destruct (H1 _ _ Hx) as (d2 & d1 & D2 & D1 & Ne). cbn [fst snd] in *. destruct (decide (d1 < d2)%nat) as [|Nl]; [right; eauto 10|left].
    unfold view_id_pair. assert (b < a)%N by (by apply HP in Hx). rewrite decide_False by lia. unfold contrib. cbn [fst snd]. rewrite D1, D2, Hx. unfold is_bad, Rltb. rewrite (bool_decide_true (d2 < d1)%nat) by lia. destruct (Rlt_dec x 0); [|lra].
    rewrite (orb_true_r). rewrite Rabs_left; lra.
Qed.
Lemma forward_gain op on ow (T : gmap (N * N) vec3) axis m v rest : oriented_keys T -> 0 <= m ->
  Forall (forward (projected T axis) m) (cycle_steps v rest) \/ Forall (fun ab => forward (projected T axis) m (ab.2, ab.1)) (cycle_steps v rest) ->
  exists ab, ab ∈ cycle_steps v rest /\ m < gain op on ow T axis (view_id_pair ab.1 ab.2).
Proof.
  intros HK Hm HF. unfold gain. pose proof (projected_keys T axis HK) as HP. destruct (order_ok op on ow (projected T axis) HP) as (ord & -> & H1 & _).
  apply Classical_Prop.NNPP. intros NE. destruct HF as [HF|HF].
  - apply (in_order_chain lt ord v rest); [lia|lia|]. apply list.Forall_forall. intros [a b] Hab. rewrite list.Forall_forall in HF. specialize (HF _ Hab).
    destruct (forward_step ord _ m a b HP Hm H1 HF) as [?|?]; [|done]. exfalso. apply NE. eauto.
  - apply (in_order_chain (fun a b => (b < a)%nat) ord v rest); [lia|lia|]. apply list.Forall_forall. intros [a b] Hab. rewrite list.Forall_forall in HF. specialize (HF _ Hab). cbn [fst snd] in HF.
    destruct (forward_step ord _ m b a HP Hm H1 HF) as [G|(d1 & d2 & ? & ? & ?)]; [|exists d2, d1; done]. exfalso. apply NE. exists (a, b). split; [done|]. rewrite view_id_pair_comm. exact G.
Qed.
Lemma Rsum_swap {A B} (f : A -> B -> R) la lb : Rsum (fun a => Rsum (f a) lb) la = Rsum (fun b => Rsum (fun a => f a b) la) lb.
Proof.
  induction la as [|a la IH].
  - cbn. symmetry. induction lb as [|b lb IHb]; [done|]. cbn. unfold Rsum in IHb at 1. rewrite IHb. ring.
  - cbn [Rsum foldr]. unfold Rsum in IH at 1. rewrite IH. rewrite <- Rsum_plus. done.
Qed.
Lemma Rsum_le_const {A} (f : A -> R) l k : (forall a, a ∈ l -> f a <= k) -> Rsum f l <= INR (length l) * k.
Proof.
  induction l as [|a l IH]; intros H; [cbn; lra|]. cbn [length]. rewrite S_INR. assert (f a <= k) by (apply H; by left). assert (Rsum f l <= INR (length l) * k) by (apply IH; intros b Hb; apply H; by right).
  change (Rsum f (a :: l)) with (f a + Rsum f l). lra.
Qed.
Lemma Rsum_gt_const {A} (f : A -> R) l k : l <> [] -> (forall a, a ∈ l -> k < f a) -> INR (length l) * k < Rsum f l.
Proof.
  intros NE. destruct l as [|a l]; [done|]. clear NE. intros H. change (Rsum f (a :: l)) with (f a + Rsum f l). cbn [length]. rewrite S_INR. assert (k < f a) by (apply H; by left).
  assert (INR (length l) * k <= Rsum f l); [|lra]. assert (H' : forall b, b ∈ l -> k < f b) by (intros b Hb; apply H; by right). clear -H'.
  induction l as [|b l IH]; [cbn; lra|]. change (Rsum f (b :: l)) with (f b + Rsum f l). cbn [length]. rewrite S_INR. assert (k < f b) by (apply H'; by left). assert (INR (length l) * k <= Rsum f l); [|lra]. apply IH. intros c Hc. apply H'. by right.
Qed.
Lemma Rsum_ge_one {A} (f : A -> R) l a : (forall b, b ∈ l -> 0 <= f b) -> a ∈ l -> f a <= Rsum f l.
Proof.
  induction l as [|b l IH]; intros H Ha; [by apply elem_of_nil in Ha|]. change (Rsum f (b :: l)) with (f b + Rsum f l). assert (0 <= f b) by (apply H; by left).
  assert (0 <= Rsum f l) by (apply Rsum_nonneg; intros c Hc; apply H; by right). apply elem_of_cons in Ha as [->|Ha]; [lra|]. assert (f a <= Rsum f l); [|lra]. apply IH; [|done]. intros c Hc. apply H. by right.
Qed.

(** If every axis catches a step of the list by more than [m], some step collects more than the average. *)
Lemma pigeonhole op on ow T axes (steps : list (N * N)) tol : axes <> [] ->
  (forall axis, axis ∈ axes -> exists ab, ab ∈ steps /\ tol * INR (length steps) < gain op on ow T axis (view_id_pair ab.1 ab.2)) ->
  exists ab, ab ∈ steps /\ tol * INR (length axes) < Rsum (fun axis => gain op on ow T axis (view_id_pair ab.1 ab.2)) axes.
Proof.
  intros NE H. apply Classical_Prop.NNPP. intros Hno.
  assert (H1 : Rsum (fun ab : N * N => Rsum (fun axis => gain op on ow T axis (view_id_pair ab.1 ab.2)) axes) steps <= INR (length steps) * (tol * INR (length axes))).
  { apply Rsum_le_const. intros ab Hab. apply Rnot_lt_le. intros L. apply Hno. eauto. }
  rewrite Rsum_swap in H1.
  assert (H2 : INR (length axes) * (tol * INR (length steps)) < Rsum (fun axis => Rsum (fun ab : N * N => gain op on ow T axis (view_id_pair ab.1 ab.2)) steps) axes).
  { apply Rsum_gt_const; [done|]. intros axis Ha. destruct (H axis Ha) as (ab & Hab & L). eapply Rlt_le_trans; [exact L|].
    apply (Rsum_ge_one (fun ab : N * N => gain op on ow T axis (view_id_pair ab.1 ab.2)) steps ab); [|done]. intros. apply gain_nonneg. }
  lra.
Qed.


(** ** In terms of the specification *)
Lemma direction_T c os a b t (g : agraph two_view) : vrel c g -> direction c os a b t ->
  ((a < b)%N /\ rotated os (vg_edges c) !! (a, b) = Some t) \/ ((b < a)%N /\ rotated os (vg_edges c) !! (b, a) = Some (vopp t)).
Proof.
  intros Hr (i & o & Hi & Ho & ->). unfold vg_get_edge in Hi. pose proof (vrel_edge c g _ i Hr Hi) as [Hlt _]. unfold view_id_pair in *. destruct (decide (a < b)%N) as [L|L].
  - left. split; [done|]. apply rotated_lookup. exists i, o. split; [done|]. rewrite N.min_l in Ho by lia. done.
  - right. cbn in Hlt. split; [done|]. apply rotated_lookup. exists i, o. split; [done|]. rewrite N.min_r in Ho by lia. split; [done|].
    set (z := mapply _ _). destruct z as [z1 z2 z3]. unfold vopp. cbn. by rewrite !Ropp_involutive.
Qed.
Lemma T_direction c os k t (g : agraph two_view) : vrel c g -> rotated os (vg_edges c) !! k = Some t -> direction c os k.1 k.2 t.
Proof.
  intros Hr Ht. apply rotated_lookup in Ht as (i & o & Hi & Ho & ->). pose proof (vrel_edge c g _ i Hr Hi) as [Hlt _]. destruct k as [a b]. cbn [fst snd] in *. exists i, o.
  unfold vg_get_edge, view_id_pair. rewrite !decide_True by done. rewrite N.min_l by lia. done.
Qed.
Lemma direction_exists c os a b (g : agraph two_view) : vrel c g -> oriented c os -> vg_has_edge c a b = true -> exists t, direction c os a b t.
Proof.
  intros Hr HO He. assert (Hc : vg_has_edge c b a = true) by (unfold vg_has_edge in *; by rewrite view_id_pair_comm). pose proof He as He'. unfold vg_has_edge in He. destruct (vg_edges c !! view_id_pair a b) as [i|] eqn:Ei; [|done].
  pose proof (vrel_edge c g _ i Hr Ei) as [Hlt _]. assert (Ho : is_Some (os !! N.min a b)).
  { unfold view_id_pair in Hlt. destruct (decide (a < b)%N); cbn in Hlt; [rewrite N.min_l by lia; by eapply HO|rewrite N.min_r by lia; by eapply HO]. }
  destruct Ho as [o Ho]. eexists. exists i, o. split; [exact Ei|]. split; [exact Ho|]. reflexivity.
Qed.
Definition rank_of op on ow (T : gmap (N * N) vec3) axis (v : N) : nat :=
  match order_translations op on ow (projected T axis) with Ok ord => default 0%nat (ord !! v) | _ => 0%nat end.
Lemma dot_vopp_l t axis : dot (vopp t) axis = - dot t axis.
Proof. unfold dot, vopp. cbn. ring. Qed.
Lemma gain_penalty op on ow c os a b t axis (g : agraph two_view) : vrel c g -> direction c os a b t -> let T := rotated os (vg_edges c) in
  gain op on ow T axis (view_id_pair a b) = penalty (rank_of op on ow T axis) axis a b t /\ rank_of op on ow T axis a <> rank_of op on ow T axis b.
Proof.
  intros Hr Hd T. pose proof (rotated_keys os c g Hr) as HK. fold T in HK. unfold gain, rank_of, penalty. destruct (order_ok op on ow (projected T axis) (projected_keys _ _ HK)) as (ord & -> & H1 & _).
  unfold view_id_pair. destruct (direction_T c os a b t g Hr Hd) as [[L Ht]|[L Ht]]; fold T in Ht.
  - rewrite decide_True by done. assert (Hp : projected T axis !! (a, b) = Some (dot t axis)) by (unfold projected; by rewrite lookup_fmap, Ht).
    destruct (H1 _ _ Hp) as (d1 & d2 & D1 & D2 & Ne). cbn [fst snd] in D1, D2. unfold contrib. cbn [fst snd]. rewrite D1, D2, Hp. cbn. unfold Datatypes.id. split; [|done]. unfold is_bad, Rltb.
    destruct (decide (d1 < d2)%nat) as [Ld|Ld].
    + rewrite (bool_decide_false (d2 < d1)%nat) by lia. rewrite (bool_decide_true (d1 < d2)%nat) by lia. cbn. destruct (Rlt_dec (dot t axis) 0); [rewrite Rabs_left, Rmax_right; lra|rewrite Rmax_left; lra].
    + rewrite (bool_decide_true (d2 < d1)%nat) by lia. rewrite (bool_decide_false (d1 < d2)%nat) by lia. cbn. destruct (Rlt_dec 0 (dot t axis)); cbn; [rewrite Rabs_right, Rmax_right; lra|rewrite Rmax_left; lra].
  - rewrite decide_False by lia. assert (Hp : projected T axis !! (b, a) = Some (- dot t axis)) by (unfold projected; by rewrite lookup_fmap, Ht; cbn; rewrite dot_vopp_l).
    destruct (H1 _ _ Hp) as (d1 & d2 & D1 & D2 & Ne). cbn [fst snd] in D1, D2. unfold contrib. cbn [fst snd]. rewrite D1, D2, Hp. cbn. unfold Datatypes.id. split; [|done]. unfold is_bad, Rltb.
    destruct (decide (d2 < d1)%nat) as [Ld|Ld].
    + rewrite (bool_decide_true (d2 < d1)%nat) by lia. rewrite (bool_decide_false (d1 < d2)%nat) by lia. cbn. destruct (Rlt_dec 0 (- dot t axis)); cbn; [rewrite Rabs_right, Rmax_right; lra|rewrite Rmax_left; lra].
    + rewrite (bool_decide_false (d2 < d1)%nat) by lia. rewrite (bool_decide_true (d1 < d2)%nat) by lia. cbn. destruct (Rlt_dec (- dot t axis) 0); [rewrite Rabs_left, Rmax_right; lra|rewrite Rmax_left; lra].
Qed.
Lemma forward_cycle_T c os axis m steps (g : agraph two_view) : vrel c g -> forward_cycle c os axis m steps -> Forall (forward (projected (rotated os (vg_edges c)) axis) m) steps.
Proof.
  intros Hr HF. eapply list.Forall_impl; [exact HF|]. clear HF. intros [a b] (t & Hd & Hm). cbn [fst snd] in *. unfold forward. cbn [fst snd]. destruct (direction_T c os a b t g Hr Hd) as [[L Ht]|[L Ht]].
  - exists (dot t axis). left. split; [|done]. unfold projected. by rewrite lookup_fmap, Ht.
  - exists (- dot t axis). right. split; [|lra]. unfold projected. rewrite lookup_fmap, Ht. cbn. by rewrite dot_vopp_l.
Qed.
Lemma backward_cycle_T c os axis m steps (g : agraph two_view) : vrel c g -> forward_cycle c os (vopp axis) m steps ->
  Forall (fun ab => forward (projected (rotated os (vg_edges c)) axis) m (ab.2, ab.1)) steps.
Proof.
  intros Hr HF. eapply list.Forall_impl; [exact HF|]. clear HF. intros [a b] (t & Hd & Hm). cbn [fst snd] in *. unfold forward. cbn [fst snd].
  assert (E : dot t (vopp axis) = - dot t axis) by (unfold dot, vopp; cbn; ring). rewrite E in Hm. destruct (direction_T c os a b t g Hr Hd) as [[L Ht]|[L Ht]].
  - exists (dot t axis). right. split; [|done]. unfold projected. by rewrite lookup_fmap, Ht.
  - exists (- dot t axis). left. split; [|lra]. unfold projected. rewrite lookup_fmap, Ht. cbn. by rewrite dot_vopp_l.
Qed.
Lemma cauchy3 (u v : vec3) : dot u v * dot u v <= dot u u * dot v v.
Proof.
  unfold dot. set (a := x3 u). set (b := y3 u). set (c0 := z3 u). set (d := x3 v). set (e := y3 v). set (f := z3 v). clearbody a b c0 d e f. clear.
  pose proof (Rle_0_sqr (a * e - b * d)). pose proof (Rle_0_sqr (a * f - c0 * d)). pose proof (Rle_0_sqr (b * f - c0 * e)). unfold Rsqr in *. nra.
Qed.
Lemma abs_dot_le (t a : vec3) k : 0 <= k -> dot t t <= k * k -> dot a a <= 1 -> Rabs (dot t a) <= k.
Proof.
  intros Hk Ht Ha. pose proof (cauchy3 t a) as C. pose proof (dot_nonneg t) as P. pose proof (dot_nonneg a) as Q. apply Rsqr_incr_0_var; [|done]. rewrite <- Rsqr_abs. unfold Rsqr.
  eapply Rle_trans; [exact C|]. eapply Rle_trans; [|exact Ht]. rewrite <- (Rmult_1_r (dot t t)) at 2. by apply Rmult_le_compat_l.
Qed.
Lemma direction_norm c os a b t : direction c os a b t -> exists i, vg_get_edge c a b = Some i /\ dot t t = dot (tv_position i) (tv_position i).
Proof.
  intros (i & o & Hi & Ho & ->). exists i. split; [done|]. set (M := mtrans (rot_of_aa o)). assert (HM : rotation M) by (apply rotation_trans, rot_of_aa_rotation).
  assert (E : dot (mapply M (tv_position i)) (mapply M (tv_position i)) = dot (tv_position i) (tv_position i)).
  { generalize (tv_position i) as p. intros p. transitivity (dot p (mapply (mmul (mtrans M) M) p)).
    - destruct M as [[] [] []], p. cbv -[Rplus Rmult Rminus Ropp]. ring.
    - by rewrite (rotation_trans_l _ HM), mapply_id. }
  destruct (decide (a < b)%N); [done|]. rewrite <- E. unfold dot, vopp. cbn. ring.
Qed.
