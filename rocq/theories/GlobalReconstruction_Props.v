(** C128-C133: global reconstruction. *)
From stdpp Require Import gmap.
From Coq Require Import Reals QArith_base Qcanon Lra.
From Verif Require Import Base ViewGraph_Model ViewGraph_Spec ViewGraph_Proofs Reconstruction_Model SfmQueries_Model SfmQueries_Spec SfmQueries_Props
  TrackEstimator_Model BundleAdjust_Model BundleAdjust_Spec Localize_Model Localize_Spec Localize_Proofs Priors_Model Priors_Spec Priors_Props
  Incremental_Model Incremental_Spec Incremental_Proofs Incremental_Steps Incremental_Props.
From Verif Require Camera_Model.
From Verif Require Import RotationGraph_Model RotationGraph_Spec RotationGraph_Proofs GlobalReconstruction_Model GlobalReconstruction_Spec GlobalReconstruction_Graph GlobalReconstruction_Rounds.

Section props.
Context {F P W : Type}.
Notation recon := (recon F (list R) (list R)).
Notation heap := (gmap N BundleAdjust_Model.intrinsics).
Implicit Types (r : recon) (h : heap) (w : world F P W) (E : nat -> env F P W) (G : nat -> graph_orders) (so : solvers F) (opts : global_options) (priors : N -> prior).

Lemma erased_orient (c c' : view_graph two_view) (os os' : gmap N v3) u q : erased c c' os os' -> os' !! u = Some q -> os !! u = Some q.
Proof. intros H K. rewrite H in K. by destruct (decide _). Qed.
Lemma erased_keeps (c c' : view_graph two_view) (os os' : gmap N v3) u : erased c c' os os' -> vg_has_view c' u = true -> os' !! u = os !! u.
Proof. intros H K. rewrite H, decide_False; [done|]. intros [_ ?]. congruence. Qed.

(** The estimation of the poses, with the facts that the theorems below use. *)
Lemma poses_lemma : forall G so opts priors og ov (ops : list (vg_op two_view)) r h sizes,
  let graph := (vg_run vg_empty ops).1 in
  solvers_ok so -> (0 <= go_max_degrees opts)%R -> has_valid_ids graph -> views_exist graph r -> input_ok r h priors ->
  exists c1 c2, restricted graph c1 (enough graph (go_min_matches opts)) /\ largest_part c1 c2 /\ reachable c2 /\ connected c2 /\
    (((forall a b, vg_has_edge c2 a b = false) /\
      estimate_poses G so opts priors og ov graph r h sizes = Ok (Poses c2 ∅ None r h sizes)) \/
     ((exists a b, vg_has_edge c2 a b = true) /\
      exists r' h' sizes' init ok os,
        set_intrinsics_from_priors og ov priors (r, h, sizes) = Ok (r', h', sizes') /\
        started opts c2 init /\ so_rotations so (vg_edges c2) init = (ok, os) /\
        if ok : bool then
          exists c3 os3, stages so opts r' h' c2 os c3 os3 /\
            (forall a b, vg_has_edge c3 a b = true -> is_Some (os3 !! a)) /\ connected c3 /\ reachable c3 /\
            (forall u q, os3 !! u = Some q -> os !! u = Some q) /\
            (forall a b i', vg_get_edge c3 a b = Some i' -> exists i, vg_get_edge graph a b = Some i /\ same_but_position i i' /\
               (go_min_matches opts <= tv_matches i)%Z /\ agrees c3 os3 (go_max_degrees opts) a b) /\
            estimate_poses G so opts priors og ov graph r h sizes =
              ('(placed, ps) ← so_positions so r' h' (vg_edges c3) os3; Ok (Poses c3 os3 (if placed : bool then Some ps else None) r' h' sizes'))
        else estimate_poses G so opts priors og ov graph r h sizes = Ok (Poses c2 os None r' h' sizes'))).
Proof.
  intros G so opts priors og ov ops r h sizes graph (Hf & Hrot & Hpos) Hmax Hid Hex (Hc & Hg & Ha & Hs & Hcr & H6 & Hn & Hp).
  assert (Hre : reachable graph) by (by exists ops). unfold estimate_poses.
  destruct (filter_initial_ok G opts graph Hre Hid) as (c1 & c2 & ok0 & -> & R1 & L1 & Hok & Hc2 & Hid2 & Hco2). cbn [mbind outcome_bind]. exists c1, c2. split; [done|]. split; [done|]. split; [done|]. split; [done|].
  destruct ok0; cbn [negb].
  2:{ left. split; [|done]. intros a b. destruct (vg_has_edge c2 a b) eqn:K; [|done]. destruct Hok as [_ Hok]. discriminate Hok. by exists a, b. }
  right. assert (He : exists a b, vg_has_edge c2 a b = true) by (by apply Hok). split; [done|].
  destruct (priors_set_groups og ov priors r h sizes Hg Ha Hs Hcr Hp) as (r1 & h1 & s1 & Epr & Hsame & _). rewrite Epr. cbn [mbind outcome_bind].
  destruct (estimate_rotations_ok G so opts c2 Hf Hc2 Hid2 He) as (init & Hst & Er). rewrite Er. cbn [mbind outcome_bind]. destruct (so_rotations so (vg_edges c2) init) as [ok os] eqn:Eso.
  exists r1, h1, s1, init, ok, os. split; [done|]. split; [done|]. split; [done|]. destruct ok; cbn [negb]; [|done].
  assert (Hosv : forall u, is_Some (os !! u) -> vg_has_view c2 u = true).
  { intros u Hu. pose proof (Hrot (vg_edges c2) init u) as K. rewrite Eso in K. destruct (K Hu) as [K'|K']; [by eapply started_views|]. apply end_of_edge in K' as [v Hv]; [|done]. by apply (edge_views c2 u v Hc2 Hv). }
  destruct (filter_rotations_ok G so opts os c2 Hf Hmax Hc2 Hid2) as (c3 & c4 & os4 & E4 & R3 & L4 & Er4 & Hc4 & Hid4 & Hco4). rewrite E4. cbn [mbind outcome_bind].
  assert (Hc4e : forall a b, vg_has_edge c4 a b = true -> is_Some (rc_views r1 !! a) /\ is_Some (os4 !! a)).
  { intros a b Hab. destruct (edge_views c4 a b Hc4 Hab) as (_ & Va & _). apply has_edge_iff in Hab as [i Hi]. apply (largest_edges _ _ _ _ _ L4) in Hi. apply (restricted_edge _ _ _ _ _ _ R3) in Hi as [Hi (M & wa & wb & _ & Hwa & _)]. split.
    - apply (largest_edges _ _ _ _ _ L1) in Hi. apply (restricted_edge _ _ _ _ _ _ R1) in Hi as [Hi _]. destruct (same_but_facts r r1 Hsame) as (D1 & _). apply elem_of_dom. rewrite D1. apply elem_of_dom. apply (Hex a b). apply has_edge_iff. by exists i.
    - rewrite (erased_keeps _ _ _ _ a Er4 Va). by exists wa. }
  assert (Ho4v : forall u, is_Some (os4 !! u) -> vg_has_view c4 u = true).
  { intros u [q Hq]. pose proof (erased_orient _ _ _ _ _ _ Er4 Hq) as Hq'. assert (V3 : vg_has_view c3 u = true). { destruct R3 as (_ & R3 & _). rewrite R3. apply Hosv. by exists q. }
    destruct (vg_has_view c4 u) eqn:V4; [done|]. rewrite Er4, decide_True in Hq by done. discriminate Hq. }
  destruct (optimize_ok G so opts r1 h1 os4 c4 Hc4 Hid4 Hc4e) as (c5 & E5 & Rf5 & Hc5 & Hid5). rewrite E5. cbn [mbind outcome_bind].
  assert (Hc5e : forall a b, vg_has_edge c5 a b = true -> is_Some (os4 !! a)).
  { intros a b [i Hi]%has_edge_iff. destruct (refined_back so opts r1 h1 os4 c4 c5 a b i Hc4 Hc5 Rf5 Hi) as (i0 & Hi0 & _). apply (Hc4e a b). apply has_edge_iff. by exists i0. }
  destruct (filter_relative_ok G so opts os4 c5 Hc5 Hid5 Hc5e) as (c6 & c7 & c8 & os8 & E8 & Rg & Tf & L8 & Er8 & Hc6 & Hc7 & Hc8 & Hid8 & Hco8).
  { intros u Hu. rewrite (refined_views so opts r1 h1 os4 c4 c5 u Rf5). by apply Ho4v. }
  rewrite E8. cbn [mbind outcome_bind]. exists c8, os8. split; [by exists c3, c4, c5, c6, c7, os4|].
  assert (Hend : forall a b, vg_has_edge c8 a b = true -> os8 !! a = os4 !! a /\ os4 !! a = os !! a /\ is_Some (os4 !! a)).
  { intros a b Hab. destruct (edge_views c8 a b Hc8 Hab) as (_ & Va & _). split; [by apply (erased_keeps c7 c8)|].
    apply has_edge_iff in Hab as [i Hi]. apply (largest_edges _ _ _ _ _ L8) in Hi. apply (translations_back so opts _ _ _ _ _ _ Tf) in Hi. apply (rigid_back so opts _ _ _ _ _ _ Rg) in Hi.
    destruct (refined_back so opts r1 h1 os4 c4 c5 a b i Hc4 Hc5 Rf5 Hi) as (i0 & Hi0 & _). assert (Hab4 : vg_has_edge c4 a b = true) by (apply has_edge_iff; by exists i0).
    split; [|by apply (Hc4e a b)]. apply (erased_keeps c3 c4); [done|]. by apply (edge_views c4 a b). }
  split; [intros a b Hab; destruct (Hend a b Hab) as (-> & _ & K); exact K|]. split; [done|]. split; [done|]. split.
  { intros u q Hq. eapply erased_orient; [exact Er4|]. eapply erased_orient; [exact Er8|exact Hq]. }
  split; [|done]. intros a b i' Hi'. assert (Hab : vg_has_edge c8 a b = true) by (apply has_edge_iff; by exists i'). assert (Hba : vg_has_edge c8 b a = true) by (apply has_edge_iff; exists i'; by rewrite edge_sym).
  destruct (Hend a b Hab) as (A1 & A2 & _). destruct (Hend b a Hba) as (B1 & B2 & _). pose proof Hi' as Hi.
  apply (largest_edges _ _ _ _ _ L8) in Hi. apply (translations_back so opts _ _ _ _ _ _ Tf) in Hi. apply (rigid_back so opts _ _ _ _ _ _ Rg) in Hi.
  destruct (refined_back so opts r1 h1 os4 c4 c5 a b i' Hc4 Hc5 Rf5 Hi) as (i & Hi0 & Hsb). apply (largest_edges _ _ _ _ _ L4) in Hi0. apply (restricted_edge _ _ _ _ _ _ R3) in Hi0 as [Hi0 Hag].
  pose proof Hi0 as Hi2. apply (largest_edges _ _ _ _ _ L1) in Hi0. apply (restricted_edge _ _ _ _ _ _ R1) in Hi0 as [Hi0 (j & Hj & Hmj)]. rewrite Hi0 in Hj. injection Hj as <-.
  exists i. split; [done|]. split; [done|]. split; [done|]. destruct Hag as (M & wa & wb & (k & Hk & HM) & Hwa & Hwb & Hang). exists M, wa, wb. split; [|by rewrite A1, A2, B1, B2].
  rewrite Hi2 in Hk. injection Hk as <-. exists i'. split; [done|]. destruct Hsb as (_ & _ & -> & _). exact HM.
Qed.

(** C128.  What happens to the graph, for every history that has made it and whatever the iteration orders are: first the
    edges with too few matches go, then all but the largest component.  If an edge is left, the intrinsics are set from the
    priors and the rotations are estimated, from a maximum spanning tree if the method needs a start.  If that works, the
    edges that do not agree with the rotations go, the largest component is kept, the translations are improved, the
    largest rigid part is kept, the edges with inconsistent translations go, and again the largest component is kept.  The
    positions are estimated from what is left.  Nothing aborts. *)
Theorem global_poses_exact : forall G so opts priors og ov (ops : list (vg_op two_view)) r h sizes,
  let graph := (vg_run vg_empty ops).1 in
  solvers_ok so -> (0 <= go_max_degrees opts)%R -> has_valid_ids graph -> views_exist graph r -> input_ok r h priors ->
  exists c1 c2, restricted graph c1 (enough graph (go_min_matches opts)) /\ largest_part c1 c2 /\
    (((forall a b, vg_has_edge c2 a b = false) /\
      estimate_poses G so opts priors og ov graph r h sizes = Ok (Poses c2 ∅ None r h sizes)) \/
     ((exists a b, vg_has_edge c2 a b = true) /\
      exists r' h' sizes' init ok os,
        set_intrinsics_from_priors og ov priors (r, h, sizes) = Ok (r', h', sizes') /\
        started opts c2 init /\ so_rotations so (vg_edges c2) init = (ok, os) /\
        if ok : bool then
          exists c3 os3, stages so opts r' h' c2 os c3 os3 /\
            (** every edge that is left has oriented views and all edges are connected *)
            (forall a b, vg_has_edge c3 a b = true -> is_Some (os3 !! a)) /\ connected c3 /\
            estimate_poses G so opts priors og ov graph r h sizes =
              ('(placed, ps) ← so_positions so r' h' (vg_edges c3) os3; Ok (Poses c3 os3 (if placed : bool then Some ps else None) r' h' sizes'))
        else estimate_poses G so opts priors og ov graph r h sizes = Ok (Poses c2 os None r' h' sizes'))).
Proof.
  intros G so opts priors og ov ops r h sizes graph Hso Hmax Hid Hex Hin.
  destruct (poses_lemma G so opts priors og ov ops r h sizes Hso Hmax Hid Hex Hin) as (c1 & c2 & R1 & L1 & _ & _ & H). exists c1, c2. split; [done|]. split; [done|].
  destruct H as [H|(He & r' & h' & s' & init & ok & os & H1 & H2 & H3 & H4)]; [by left|right]. split; [done|]. exists r', h', s', init, ok, os. split; [done|]. split; [done|]. split; [done|].
  destruct ok; [|done]. destruct H4 as (c3 & os3 & A & B & C & _ & _ & _ & D). by exists c3, os3.
Qed.

(** C129.  If the poses are estimated, every edge that is left comes from the graph with its rotation and its number of
    matches, has enough matches and agrees with the orientations; views with an edge are connected.  A position is given to
    views with an edge only, and these have an orientation. *)
Theorem global_remaining_edges : forall G so opts priors og ov (ops : list (vg_op two_view)) r h sizes p ps,
  let graph := (vg_run vg_empty ops).1 in
  solvers_ok so -> (0 <= go_max_degrees opts)%R -> has_valid_ids graph -> views_exist graph r -> input_ok r h priors ->
  estimate_poses G so opts priors og ov graph r h sizes = Ok p -> po_positions p = Some ps ->
  (forall a b i', vg_get_edge (po_graph p) a b = Some i' ->
     exists i, vg_get_edge graph a b = Some i /\ same_but_position i i' /\ (go_min_matches opts <= tv_matches i)%Z /\
       agrees (po_graph p) (po_orientations p) (go_max_degrees opts) a b) /\
  connected (po_graph p) /\
  (forall u, is_Some (ps !! u) -> is_Some (po_orientations p !! u) /\ exists v, vg_has_edge (po_graph p) u v = true).
Proof.
  intros G so opts priors og ov ops r h sizes p ps graph Hso Hmax Hid Hex Hin Hrun Hps.
  destruct (poses_lemma G so opts priors og ov ops r h sizes Hso Hmax Hid Hex Hin) as (c1 & c2 & R1 & L1 & _ & _ & H). fold graph in H. rewrite Hrun in H.
  destruct H as [[_ H]|(He & r' & h' & s' & init & ok & os & H1 & H2 & H3 & H4)]; [injection H as ->; discriminate Hps|].
  destruct ok; [|injection H4 as ->; discriminate Hps]. destruct H4 as (c3 & os3 & A & B & C & D & _ & D2 & D3).
  destruct (so_positions so r' h' (vg_edges c3) os3) as [[placed qs]| | |] eqn:Esp; [|discriminate D3..]. cbn [mbind outcome_bind] in D3. injection D3 as ->. cbn [po_graph po_orientations po_positions] in *.
  split; [done|]. split; [done|]. destruct placed; [|discriminate Hps]. injection Hps as ->. intros u Hu. destruct Hso as (_ & _ & Hpc). apply (Hpc _ _ _ _ _ _ Esp) in Hu. apply end_of_edge in Hu as [v Hv]; [|done]. split; [by eapply B|by exists v].
Qed.

Lemma global_pose_length (p q : v3) d : length d = 6%nat -> length (global_pose p q d) = 6%nat.
Proof. intros H. unfold global_pose, set_orientation, set_position. rewrite app_length, take_length, app_length, drop_length, H. done. Qed.

Lemma safe_ub {A} (ub : Prop) (x : outcome A) Q : safe False x Q -> safe ub x Q.
Proof. by destruct x. Qed.
(** The run as a whole. *)
Lemma globally_safe w E G so opts priors og ov grid (ops : list (vg_op two_view)) r h sizes (ub : Prop) : let graph := (vg_run vg_empty ops).1 in
  environment_ok E -> options_ok (go_common opts) grid -> solvers_ok so -> (0 <= go_max_degrees opts)%R -> has_valid_ids graph -> views_exist graph r -> input_ok r h priors ->
  positions_total (so_positions so) \/ ub ->
  safe ub (estimate_globally w E G so opts priors og ov grid graph r h sizes) (fun x =>
    let s := gl_state x in let r' := n_recon s in
    same_observations r r' /\ consistent r' /\ grouped r' /\ allocated r' (n_heap s) /\ six r' /\
    (forall u, est_view r' u -> est_view r u \/ (is_Some (gl_orientations x !! u) /\ exists v, vg_has_edge (gl_graph x) u v = true)) /\
    reports (gl_summary x) s /\
    (is_success (gl_summary x) = true -> (0 <= go_retriangulations opts)%Z -> clean w (go_common opts) s /\ seen_twice s)).
Proof.
  intros graph (err & ferr & cerr & HE) (O1 & O2 & O3 & O4) Hso Hmax Hid Hex Hin Htot. unfold estimate_globally.
  destruct (poses_lemma G so opts priors og ov ops r h sizes Hso Hmax Hid Hex Hin) as (c1 & c2 & _ & _ & _ & _ & H). fold graph in H.
  pose proof Hin as (Hc & Hg & Ha & Hs & Hcr & H6 & Hn & Hp).
  destruct (priors_set_groups og ov priors r h sizes Hg Ha Hs Hcr Hp) as (r1 & h1 & s1 & Epr & Hsame & Hg1 & Ha1 & _). destruct (same_but_facts r r1 Hsame) as (D1 & D2 & F1 & C1 & S1 & T1). pose proof (C1 Hc) as Hc1. pose proof (S1 H6) as H61.
  assert (Hobs1 : same_observations r r1) by (by apply same_but_observations).
  destruct H as [[_ ->]|(_ & r' & h' & s' & init & ok & os & H1 & _ & _ & H4)].
  { cbn [mbind outcome_bind po_positions safe gl_state gl_summary n_recon n_heap po_recon po_heap]. split; [eapply (scene_observations r h r h), scene_refl|]. split; [done|]. split; [done|]. split; [done|]. split; [done|]. split; [by left|]. split; [done|discriminate]. }
  rewrite H1 in Epr. injection Epr as -> -> ->.
  destruct ok.
  2:{ rewrite H4. cbn [mbind outcome_bind po_positions safe gl_state gl_summary n_recon n_heap po_recon po_heap]. split; [done|]. split; [done|]. split; [done|]. split; [done|]. split; [done|]. split; [intros u Hu; left; by apply F1|]. split; [done|discriminate]. }
  destruct H4 as (c3 & os3 & _ & B & _ & D & _ & DE & ->).
  destruct (so_positions so r1 h1 (vg_edges c3) os3) as [[placed ps]| | |] eqn:Esp; cbn [mbind outcome_bind]; [|done| |done].
  2:{ destruct Htot as [Htot|]; [|done]. destruct (Htot r1 h1 (vg_edges c3) os3) as [x Hx]; [|congruence]. intros u [v Hv]%end_of_edge; [|done]. split; [by eapply B|].
      apply has_edge_iff in Hv as [i' Hi']. destruct (DE u v i' Hi') as (i & Hi & _). apply elem_of_dom. rewrite D1. apply elem_of_dom. apply (Hex u v). apply has_edge_iff. by exists i. }
  destruct placed; cbn [po_positions].
  2:{ cbn [safe gl_state gl_summary n_recon n_heap po_recon po_heap]. split; [done|]. split; [done|]. split; [done|]. split; [done|]. split; [done|]. split; [intros u Hu; left; by apply F1|]. split; [done|discriminate]. }
  cbn [po_recon po_heap po_orientations po_graph po_sizes].
  destruct (Classical_Prop.classic (forall u, is_Some (ps !! u) -> ~ est_view r1 u)) as [Hfresh|Hnot].
  2:{ assert (exists u, is_Some (ps !! u) /\ est_view r1 u) as (u & Hu1 & Hu2). { apply Classical_Prop.NNPP. intros K. apply Hnot. intros u Hu1 Hu2. apply K. by exists u. }
      rewrite (estimated_poses_abort _ _ _ _ _ global_pose (gr_positions (G 6%nat)) os3 ps r1 u Hu1 Hu2). done. }
  destruct (estimated_poses_exact _ _ _ _ _ global_pose (gr_positions (G 6%nat)) os3 ps r1 Hfresh) as (r2 & -> & Hr2 & Hv2). cbn [mbind outcome_bind].
  assert (Hsc : scene r1 h1 r2 h1).
  { apply set_views_scene; [done| |apply heap_refl]. intros u. rewrite Hv2. destruct (rc_views r1 !! u) as [v|] eqn:Hv; [|constructor]. destruct (ps !! u) as [p|]; [|by constructor]. destruct (os3 !! u) as [q|]; [|by constructor].
    constructor. cbn [v_name v_feats v_intr v_data]. split; [done|]. split; [done|]. split; [done|]. rewrite global_pose_length; [symmetry|]; by apply (H61 u). }
  assert (He2 : forall u, est_view r2 u -> est_view r1 u \/ (is_Some (os3 !! u) /\ exists v, vg_has_edge c3 u v = true)).
  { intros u (v & Hv & Hest). rewrite Hv2 in Hv. destruct (rc_views r1 !! u) as [v1|] eqn:Hv1; [|discriminate Hv]. destruct (ps !! u) as [p|] eqn:Hpu; [|injection Hv as ->; left; by exists v].
    right. destruct Hso as (_ & _ & Hpc). assert (Hu : end_of (vg_edges c3) u) by (eapply (Hpc _ _ _ _ _ _ Esp); by exists p). apply end_of_edge in Hu as [x Hx]; [|done]. split; [by eapply B|by exists x]. }
  set (s0 := Inc r2 h1 ∅ [] 0 grid 0). assert (Hgood : good (go_common opts) r1 h1 s0). { split; [done|]. intros K. by apply O4. }
  eapply safe_bind. { eapply safe_ub, (structure_rounds_safe w E opts err ferr cerr HE r1 h1 Hc1 Hg1 Ha1 H61); [by rewrite D2|done|done|exact Hgood]. }
  intros [s ok] (Hgs & Hvs & Hfin). cbn [safe fst snd gl_state gl_summary gl_orientations gl_graph] in *. destruct (good_facts (go_common opts) r1 h1 Hc1 Hg1 Ha1 H61 s Hgs) as (Z1 & Z2 & Z3 & Z4 & _).
  split; [eapply observations_trans; [exact Hobs1|eapply scene_observations; exact (proj1 Hgs)]|]. split; [done|]. split; [done|]. split; [done|]. split; [done|]. split.
  { intros u Hu. apply Hvs, He2 in Hu as [Hu|Hu]; [left; by apply F1|by right]. }
  split.
  - destruct ok; cbn; [|done]. split; [intros u; apply SfmQueries_Proofs.estimated_views_lemma|intros t; apply SfmQueries_Proofs.estimated_tracks_lemma].
  - destruct ok; [|discriminate]. intros _ Hre. destruct Hfin as [K1 K2]; [left; lia|]. split; [by apply K2|done].
Qed.

(** C130.  A run that returns has changed poses, points, estimated flags and intrinsics only: names, features, tracks and
    groups stay and the reconstruction is as consistent as before.  A view that becomes estimated has an orientation and an
    edge in what is left of the graph.  The summary lists exactly the estimated views and tracks, or nothing after a
    failure. *)
Theorem global_frame : forall w E G so opts priors og ov grid (ops : list (vg_op two_view)) r h sizes x,
  let graph := (vg_run vg_empty ops).1 in
  environment_ok E -> options_ok (go_common opts) grid -> solvers_ok so -> (0 <= go_max_degrees opts)%R -> has_valid_ids graph -> views_exist graph r -> input_ok r h priors ->
  estimate_globally w E G so opts priors og ov grid graph r h sizes = Ok x ->
  let s := gl_state x in let r' := n_recon s in
  same_observations r r' /\ consistent r' /\ grouped r' /\ allocated r' (n_heap s) /\ six r' /\
  (forall u, est_view r' u -> est_view r u \/ (is_Some (gl_orientations x !! u) /\ exists v, vg_has_edge (gl_graph x) u v = true)) /\
  reports (gl_summary x) s.
Proof.
  intros w E G so opts priors og ov grid ops r h sizes x graph H1 H2 H3 H4 H5 H6 H7 Hrun.
  pose proof (globally_safe w E G so opts priors og ov grid ops r h sizes True H1 H2 H3 H4 H5 H6 H7 (or_intror I)) as H. cbn zeta in H. fold graph in H. rewrite Hrun in H. cbn [safe] in H.
  destruct H as (A1 & A2 & A3 & A4 & A5 & A6 & A7 & _). done.
Qed.

(** C131.  After a success with at least one round no estimated track is an outlier and every one is seen by two estimated
    views. *)
Theorem global_tracks : forall w E G so opts priors og ov grid (ops : list (vg_op two_view)) r h sizes x,
  let graph := (vg_run vg_empty ops).1 in
  environment_ok E -> options_ok (go_common opts) grid -> solvers_ok so -> (0 <= go_max_degrees opts)%R -> has_valid_ids graph -> views_exist graph r -> input_ok r h priors ->
  (0 <= go_retriangulations opts)%Z ->
  estimate_globally w E G so opts priors og ov grid graph r h sizes = Ok x -> is_success (gl_summary x) = true ->
  clean w (go_common opts) (gl_state x) /\ seen_twice (gl_state x).
Proof.
  intros w E G so opts priors og ov grid ops r h sizes x graph H1 H2 H3 H4 H5 H6 H7 Hn Hrun Hs.
  pose proof (globally_safe w E G so opts priors og ov grid ops r h sizes True H1 H2 H3 H4 H5 H6 H7 (or_intror I)) as H. cbn zeta in H. fold graph in H. rewrite Hrun in H. cbn [safe] in H.
  destruct H as (_ & _ & _ & _ & _ & _ & _ & K). by apply K.
Qed.

(** C132.  Without an edge that has enough matches the call fails and nothing changes. *)
Theorem global_too_few_matches : forall w E G so opts priors og ov grid (ops : list (vg_op two_view)) r h sizes,
  let graph := (vg_run vg_empty ops).1 in
  has_valid_ids graph -> (forall a b, ~ enough graph (go_min_matches opts) a b) ->
  exists x, estimate_globally w E G so opts priors og ov grid graph r h sizes = Ok x /\
    n_recon (gl_state x) = r /\ n_heap (gl_state x) = h /\ gl_sizes x = sizes /\ gl_summary x = IncSummary false ∅ ∅ /\
    (forall a b, vg_has_edge (gl_graph x) a b = false) /\ (forall v, vg_has_view (gl_graph x) v = vg_has_view graph v).
Proof.
  intros w E G so opts priors og ov grid ops r h sizes graph Hid Hno. assert (Hre : reachable graph) by (by exists ops). unfold estimate_globally, estimate_poses.
  destruct (filter_initial_ok G opts graph Hre Hid) as (c1 & c2 & ok0 & -> & R1 & L1 & Hok & Hc2 & Hid2 & Hco2). cbn [mbind outcome_bind].
  assert (N1 : forall a b, vg_has_edge c1 a b = false). { intros a b. apply has_edge_false. destruct (vg_get_edge c1 a b) as [i|] eqn:K; [|done]. apply (restricted_edge _ _ _ _ _ _ R1) in K as [_ K]. by apply Hno in K. }
  assert (E2 : c2 = c1). { destruct L1 as [[_ ->]|(X & [(a & b & Hab & _) _] & _)]; [done|]. by rewrite N1 in Hab. } subst c2.
  destruct ok0. { destruct Hok as [Hok _]. destruct (Hok eq_refl) as (a & b & Hab). by rewrite N1 in Hab. }
  cbn [negb mbind outcome_bind po_positions]. eexists. split; [done|]. cbn [gl_state gl_sizes gl_summary gl_graph n_recon n_heap po_recon po_heap po_graph po_sizes]. repeat (split; [done|]). apply R1.
Qed.

(** If the rotations or the positions cannot be estimated, only intrinsics have changed. *)
Theorem global_failed_poses : forall w E G so opts priors og ov grid (ops : list (vg_op two_view)) r h sizes,
  let graph := (vg_run vg_empty ops).1 in
  solvers_ok so -> (0 <= go_max_degrees opts)%R -> has_valid_ids graph -> views_exist graph r -> input_ok r h priors ->
  (forall m os, (so_rotations so m os).1 = false) \/ (forall r h m os, exists ps, so_positions so r h m os = Ok (false, ps)) ->
  exists x, estimate_globally w E G so opts priors og ov grid graph r h sizes = Ok x /\
    same_but_intrinsics r (n_recon (gl_state x)) /\ gl_summary x = IncSummary false ∅ ∅.
Proof.
  intros w E G so opts priors og ov grid ops r h sizes graph Hso Hmax Hid Hex Hin Hfail. unfold estimate_globally.
  destruct (poses_lemma G so opts priors og ov ops r h sizes Hso Hmax Hid Hex Hin) as (c1 & c2 & _ & _ & _ & _ & H). fold graph in H.
  pose proof Hin as (Hc & Hg & Ha & Hs & Hcr & H6 & Hn & Hp).
  destruct (priors_set_groups og ov priors r h sizes Hg Ha Hs Hcr Hp) as (r1 & h1 & s1 & Epr & Hsame & _).
  destruct H as [[_ ->]|(_ & r' & h' & s' & init & ok & os & H1 & _ & H3 & H4)].
  { cbn [mbind outcome_bind po_positions]. eexists. split; [done|]. cbn [gl_state gl_summary n_recon po_recon]. split; [|done]. clear. unfold same_but_intrinsics. repeat (split; [done|]). intros u. by destruct (rc_views r !! u); constructor. }
  rewrite H1 in Epr. injection Epr as -> -> ->. destruct ok.
  - destruct Hfail as [K|K]; [specialize (K (vg_edges c2) init); rewrite H3 in K; discriminate K|]. destruct H4 as (c3 & os3 & _ & _ & _ & _ & _ & _ & ->). destruct (K r1 h1 (vg_edges c3) os3) as [ps ->].
    cbn [mbind outcome_bind po_positions]. eexists. split; [done|]. by cbn [gl_state gl_summary n_recon po_recon].
  - rewrite H4. cbn [mbind outcome_bind po_positions]. eexists. split; [done|]. by cbn [gl_state gl_summary n_recon po_recon].
Qed.

(** C133, the part that holds: with an estimator of positions that accepts every graph whose views are oriented and exist,
    nothing undefined happens. *)
Theorem global_no_undefined_partial : forall w E G so opts priors og ov grid (ops : list (vg_op two_view)) r h sizes,
  let graph := (vg_run vg_empty ops).1 in
  environment_ok E -> options_ok (go_common opts) grid -> solvers_ok so -> (0 <= go_max_degrees opts)%R -> has_valid_ids graph -> views_exist graph r -> input_ok r h priors ->
  positions_total (so_positions so) ->
  estimate_globally w E G so opts priors og ov grid graph r h sizes <> UB.
Proof.
  intros w E G so opts priors og ov grid ops r h sizes graph H1 H2 H3 H4 H5 H6 H7 Ht K.
  pose proof (globally_safe w E G so opts priors og ov grid ops r h sizes False H1 H2 H3 H4 H5 H6 H7 (or_introl Ht)) as H. cbn zeta in H. fold graph in H. rewrite K in H. exact H.
Qed.
End props.
Print Assumptions global_poses_exact.
Print Assumptions global_remaining_edges.
Print Assumptions global_frame.
Print Assumptions global_tracks.
Print Assumptions global_too_few_matches.
Print Assumptions global_failed_poses.
Print Assumptions global_no_undefined_partial.
