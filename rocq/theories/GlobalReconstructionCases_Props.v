(** C128-C133: the estimators of positions, what does not hold of global reconstruction, and concrete cases for the theorems
    in GlobalReconstruction_Props.v. *)
From stdpp Require Import gmap strings.
From Coq Require Import Reals QArith_base Qcanon Lra.
From Verif Require Import Camera_Model.
From Verif Require Import Base ViewGraph_Model ViewGraph_Spec ViewGraph_Proofs Reconstruction_Model SfmQueries_Model SfmQueries_Spec SfmQueries_Proofs
  TrackEstimator_Model BundleAdjust_Model BundleAdjust_Spec Localize_Model Localize_Spec Priors_Model Priors_Spec
  Incremental_Model Incremental_Spec Incremental_Proofs Incremental_Steps IncrementalCases_Props.
From Verif Require Import Camera_Proofs RotationGraph_Model RotationGraph_Spec RotationGraph_Proofs RotationGraph_Props
  GlobalReconstruction_Model GlobalReconstruction_Spec GlobalReconstruction_Graph GlobalReconstruction_Props.

(** * The estimators of positions *)
Lemma endpoints_elem (l : list ((N * N) * two_view)) (os : gmap N v3) u : u ∈ endpoints l os <->
  exists pe, pe ∈ l /\ is_Some (os !! pe.1.1) /\ is_Some (os !! pe.1.2) /\ (u = pe.1.1 \/ u = pe.1.2).
Proof.
  unfold endpoints. assert (K : forall acc : gset N, u ∈ foldl (fun s pe => if bool_decide (is_Some (os !! pe.1.1)) && bool_decide (is_Some (os !! pe.1.2)) then {[pe.1.1; pe.1.2]} ∪ s else s) acc l <->
    u ∈ acc \/ exists pe, pe ∈ l /\ is_Some (os !! pe.1.1) /\ is_Some (os !! pe.1.2) /\ (u = pe.1.1 \/ u = pe.1.2)).
  { induction l as [|x l IH]; intros acc; cbn [foldl].
    - split; [by left|]. intros [?|(pe & Hpe & _)]; [done|]. by apply elem_of_nil in Hpe.
    - rewrite IH. destruct (bool_decide (is_Some (os !! x.1.1)) && bool_decide (is_Some (os !! x.1.2))) eqn:B.
      + apply andb_true_iff in B as [B1%bool_decide_eq_true B2%bool_decide_eq_true]. rewrite !elem_of_union, !elem_of_singleton. split.
        * intros [[K|K]|(pe & K1 & K2)]; [|by left|right; exists pe; split; [by right|done]]. right. exists x. split; [by left|done].
        * intros [K|(pe & K1 & K2 & K3 & K4)]; [left; by right|]. apply elem_of_cons in K1 as [->|K1]; [left; by left|]. right. by exists pe.
      + split; [intros [K|(pe & K1 & K2)]; [by left|right; exists pe; split; [by right|done]]|]. intros [K|(pe & K1 & K2 & K3 & K4)]; [by left|]. apply elem_of_cons in K1 as [->|K1]; [|right; by exists pe].
        exfalso. apply andb_false_iff in B as [B%bool_decide_eq_false|B%bool_decide_eq_false]; by apply B. }
  rewrite K. split; [intros [H|H]; [by apply elem_of_empty in H|done]|by right].
Qed.
Lemma set_to_map_keys (f : N -> v3) (X : gset N) u : (set_to_map (fun u => (u, f u)) X : gmap N v3) !! u = if decide (u ∈ X) then Some (f u) else None.
Proof.
  destruct (decide (u ∈ X)) as [I|I].
  - apply lookup_set_to_map; [by intros y y' _ _ H|]. by exists u.
  - destruct (set_to_map _ X !! u) eqn:K; [|done]. apply lookup_set_to_map in K as (y & Hy & E); [by injection E as -> _|]. by intros z z' _ _ E.
Qed.
Lemma endpoints_ends (oe : order ((N * N) * two_view)) (m : gmap (N * N) two_view) (os : gmap N v3) u : (forall u, end_of m u -> is_Some (os !! u)) -> u ∈ endpoints (oe (map_to_list m)) os <-> end_of m u.
Proof.
  intros Ho. rewrite endpoints_elem. split.
  - intros ([p i] & Hp & _ & _ & Hu). rewrite ord_perm in Hp. apply elem_of_map_to_list in Hp. by exists p, i.
  - intros (p & i & Hp & Hu). exists (p, i). split; [rewrite ord_perm; by apply elem_of_map_to_list|]. split; [apply Ho; exists p, i; by split; [|left]|]. split; [apply Ho; exists p, i; by split; [|right]|done].
Qed.

(** C133.  Both estimators place views of the edges only. *)
Theorem position_estimators_contract : forall F (oe : order ((N * N) * two_view)) solve solve',
  @positions_contract F (fun _ _ => lud_positions oe solve) /\ @positions_contract F (fun _ _ => nonlinear_positions solve').
Proof.
  intros F oe solve solve'. split.
  - intros r h m os ok ps. unfold lud_positions. destruct (decide _); [discriminate|]. intros [= <- <-] u [x Hx]. rewrite set_to_map_keys in Hx. destruct (decide _) as [I|]; [|discriminate Hx].
    apply endpoints_elem in I as ([p i] & Hp & _ & _ & Hu). rewrite ord_perm in Hp. apply elem_of_map_to_list in Hp. by exists p, i.
  - intros r h m os ok ps. unfold nonlinear_positions. destruct (decide _). { intros [= <- <-] u [x Hx]. discriminate Hx. } destruct (decide _); [discriminate|]. destruct (solve' m os) as [ok' x']. intros [= <- <-] u [x Hx].
    rewrite set_to_map_keys in Hx. destruct (decide _) as [I|]; [|discriminate Hx]. apply elem_of_filter in I as [I _].
    assert (K : forall (l : list ((N * N) * two_view)) (acc : gset N), u ∈ foldl (fun s pe => {[pe.1.1; pe.1.2]} ∪ s) acc l -> u ∈ acc \/ exists pe, pe ∈ l /\ (u = pe.1.1 \/ u = pe.1.2)).
    { clear. induction l as [|pe l IH]; intros acc; cbn [foldl]; [by left|]. intros H. apply IH in H as [H|(q & Hq & Hu)]; [|right; exists q; split; [by right|done]]. apply elem_of_union in H as [H|H]; [|by left]. right. exists pe. split; [by left|]. by apply elem_of_union in H as [H%elem_of_singleton|H%elem_of_singleton]; [left|right]. }
    apply K in I as [I|([p i] & Hp & Hu)]; [by apply elem_of_empty in I|]. apply elem_of_map_to_list in Hp. by exists p, i.
Qed.
Print Assumptions position_estimators_contract.

(** The nonlinear estimator returns on every graph whose views are oriented, and places exactly the views with an edge; it
    fails on a graph without edges. *)
Theorem nonlinear_positions_total : forall F solve,
  @positions_total F (fun _ _ => nonlinear_positions solve) /\
  (forall m os, (forall u, end_of m u -> is_Some (os !! u)) -> m <> ∅ -> exists ps, nonlinear_positions solve m os = Ok ((solve m os).1, ps) /\ forall u x, ps !! u = Some x <-> end_of m u /\ x = (solve m os).2 u) /\
  (forall os, nonlinear_positions solve ∅ os = Ok (false, ∅)).
Proof.
  intros F solve.
  assert (K : forall (m : gmap (N * N) two_view) (os : gmap N v3), (forall u, end_of m u -> is_Some (os !! u)) -> m <> ∅ -> exists ps, nonlinear_positions solve m os = Ok ((solve m os).1, ps) /\ forall u x, ps !! u = Some x <-> end_of m u /\ x = (solve m os).2 u).
  { intros m os Ho Hm. unfold nonlinear_positions. assert (exists p i, m !! p = Some i) as (p & i & Hp). { apply map_choose in Hm as (p & i & Hp). by exists p, i. }
    rewrite decide_False. 2:{ intros [?| ->]; [done|]. destruct (Ho p.1) as [? K]; [by exists p, i; split; [|left]|]. by rewrite lookup_empty in K. }
    set (con := foldl _ _ _). assert (Hcon : forall u, u ∈ con <-> end_of m u).
    { intros u. assert (K : forall (l : list ((N * N) * two_view)) (acc : gset N), u ∈ foldl (fun s pe => {[pe.1.1; pe.1.2]} ∪ s) acc l <-> u ∈ acc \/ exists pe, pe ∈ l /\ (u = pe.1.1 \/ u = pe.1.2)).
      { clear. induction l as [|pe l IH]; intros acc; cbn [foldl]; [split; [by left|]; intros [?|(? & H & _)]; [done|by apply elem_of_nil in H]|]. rewrite IH, !elem_of_union, !elem_of_singleton. split.
        - intros [[H|H]|(q & Hq & Hu)]; [right; exists pe; split; [by left|done]|by left|right; exists q; split; [by right|done]].
        - intros [H|(q & Hq & Hu)]; [left; by right|]. apply elem_of_cons in Hq as [->|Hq]; [left; by left|right; by exists q]. }
      unfold con. rewrite K. split; [intros [H|([q j] & Hq & Hu)]; [by apply elem_of_empty in H|]; apply elem_of_map_to_list in Hq; by exists q, j|]. intros (q & j & Hq & Hu). right. exists (q, j). split; [by apply elem_of_map_to_list|done]. }
    rewrite decide_False. 2:{ intros K. assert (H : p.1 ∈ (∅ : gset N)); [|by apply elem_of_empty in H]. rewrite <- K. apply elem_of_filter. split; [apply Hcon; exists p, i; by split; [|left]|]. apply elem_of_dom, Ho. exists p, i. by split; [|left]. }
    destruct (solve m os) as [ok x]. cbn [fst snd]. eexists. split; [done|]. intros u y. rewrite set_to_map_keys. rewrite <- Hcon. destruct (decide _) as [I|I]; rewrite elem_of_filter in I.
    - destruct I as [I _]. split; [intros [= <-]; by split|]. by intros [_ ->].
    - split; [discriminate|]. intros [H _]. exfalso. apply I. split; [done|]. apply elem_of_dom, Ho. by apply Hcon. }
  assert (Z : forall os, nonlinear_positions solve ∅ os = Ok (false, ∅)) by (intros os; unfold nonlinear_positions; by rewrite decide_True by (by left)).
  split; [|done]. intros r h m os Ho. destruct (decide (m = ∅)) as [->|Hm]; [rewrite Z; by eexists|]. destruct (K m os) as (ps & -> & _); [intros u Hu; by apply Ho|done|by eexists].
Qed.
Print Assumptions nonlinear_positions_total.

(** The least unsquared deviation estimator returns on every graph with an edge whose views are oriented, and places exactly
    the views with an edge, as long as the number of unknowns is below 2^63. *)
Theorem lud_positions_partial : forall (oe : order ((N * N) * two_view)) solve m os (X : gset N),
  (forall u, end_of m u -> is_Some (os !! u)) -> m <> ∅ -> (forall u, u ∈ X <-> end_of m u) ->
  (3 * Z.of_nat (size X) + Z.of_nat (size (dom m)) < 2 ^ 63)%Z ->
  exists ps, lud_positions oe solve m os = Ok (true, ps) /\ forall u x, ps !! u = Some x <-> end_of m u /\ x = solve m os u.
Proof.
  intros oe solve m os X Ho Hm HX Hs. unfold lud_positions.
  assert (EX : endpoints (oe (map_to_list m)) os = X). { apply set_eq. intros u. rewrite HX. by apply endpoints_ends. } rewrite EX. clear EX.
  apply map_choose in Hm as (p & i & Hp).
  assert (H1 : size X <> 0%nat). { intros K. apply size_empty_inv in K. assert (H : p.1 ∈ X) by (apply HX; exists p, i; by split; [|left]). by apply K, elem_of_empty in H. }
  rewrite decide_False. 2:{ rewrite Z.mod_small by lia. lia. }
  eexists. split; [done|]. intros u x. rewrite set_to_map_keys, <- HX. destruct (decide _) as [I|I]; split; [intros [= <-]; by split|by intros [_ ->]|discriminate|by intros [? _]].
Qed.
Print Assumptions lud_positions_partial.

(** Without an edge its behaviour is undefined. *)
Theorem lud_positions_empty_refuted : forall (oe : order ((N * N) * two_view)) solve os, lud_positions oe solve ∅ os = UB.
Proof.
  intros oe solve os. unfold lud_positions. rewrite map_to_list_empty. assert (E : oe [] = []) by (apply Permutation_nil; symmetry; apply ord_perm). rewrite E. by vm_compute.
Qed.
Print Assumptions lud_positions_empty_refuted.

Local Open Scope R_scope.

(** * An estimator of rotations that meets its contract, and graphs on views of the scenes *)
Definition ends (m : gmap (N * N) two_view) : gset N := set_map fst (dom m) ∪ set_map snd (dom m).
Lemma ends_spec m u : u ∈ ends m <-> end_of m u.
Proof.
  unfold ends. rewrite elem_of_union, !elem_of_map. split.
  - intros [(p & -> & [i Hp]%elem_of_dom)|(p & -> & [i Hp]%elem_of_dom)]; exists p, i; (split; [done|]); [by left|by right].
  - intros (p & i & Hp & [->| ->]); [left|right]; exists p; (split; [done|]); apply elem_of_dom; by exists i.
Qed.
Definition at_rest (m : gmap (N * N) two_view) (_ : gmap N v3) : bool * gmap N v3 := (true, set_to_map (fun u => (u, V3 0 0 0)) (ends m)).
Lemma at_rest_lookup m os u : (at_rest m os).2 !! u = if decide (u ∈ ends m) then Some (V3 0 0 0) else None.
Proof. unfold at_rest. cbn [snd]. apply set_to_map_keys. Qed.
Lemma at_rest_contract : rotations_contract at_rest.
Proof. intros m os u [x Hx]. rewrite at_rest_lookup in Hx. destruct (decide _) as [I|]; [|discriminate Hx]. right. by apply ends_spec. Qed.

Definition solvers_with (f : recon N (list R) (list R) -> gmap N intrinsics -> gmap (N * N) two_view -> gmap N v3 -> outcome (bool * gmap N v3)) : solvers N :=
  Solvers aa_of_rot sorted_heap at_rest (fun _ _ _ _ _ => V3 0 0 1) (fun os _ => dom os) [] f.
Lemma solvers_with_ok f : positions_contract f -> solvers_ok (solvers_with f).
Proof. intros H. split; [apply aa_of_rot_canonical|]. split; [apply at_rest_contract|done]. Qed.
(** 30 matches are needed, the rotations are compared up to 5 degrees, and there are two rounds. *)
Definition linear_options : global_options := GlobalOptions easy_options 30 LinearRotations 5 false false false 48 (8 / 100) 1 true.
Definition plain_orders : graph_orders :=
  GraphOrders ord_id ord_id ord_id ord_id ord_id ord_id ord_id ord_id ord_id ord_id ord_id ord_id.

Lemma largest_none c c' : largest_part c c' -> (forall a b, vg_has_edge c a b = false) -> forall a b, vg_has_edge c' a b = false.
Proof. intros L H a b. apply has_edge_false. destruct (vg_get_edge c' a b) as [i|] eqn:E; [|done]. apply (largest_edges _ _ _ _ _ L) in E. specialize (H a b). apply has_edge_false in H. congruence. Qed.
Lemma largest_some c c' : largest_part c c' -> (exists a b, vg_has_edge c a b = true) -> exists a b, vg_has_edge c' a b = true.
Proof.
  intros [[H _]|(X & [(a & b & Hab & HX) _] & HE & _)] (x & y & Hxy); [by rewrite H in Hxy|]. exists a, b. apply has_edge_iff in Hab as [i Hi]. apply has_edge_iff. exists i. rewrite HE, decide_True; [done|].
  split; apply HX; [apply rtc_refl|]. apply rtc_once. apply has_edge_iff. by exists i.
Qed.

(** * The triangle of views 0, 1 and 2: every relative rotation is 60 degrees, around the cycle they add up to 180 *)
Definition third (s : R) : two_view := turn (s * (PI / 3)) 50.
Definition triangle_ops : list (vg_op two_view) := [VAddEdge 0 1 (third 1); VAddEdge 1 2 (third 1); VAddEdge 0 2 (third (-1))]%N.
Definition triangle : view_graph two_view := (vg_run vg_empty triangle_ops).1.
Lemma triangle_lookup a b : vg_get_edge triangle a b =
  if decide (same_pair 0 2 a b) then Some (third (-1)) else if decide (same_pair 1 2 a b) then Some (third 1) else if decide (same_pair 0 1 a b) then Some (third 1) else None.
Proof.
  destruct (vrel_run triangle_ops _ _ vrel_empty) as [Hr _]. destruct (vrel_answers _ _ Hr) as (_ & _ & L & _). fold triangle in L. rewrite L. cbn [ag_run triangle_ops ag_step]. repeat (rewrite decide_False by done; cbn [fst snd ag_label ag_empty]). done.
Qed.
Lemma third_angle s : s * s = 1 -> angle_degrees (rot_of_aa (tv_rotation (third s))) = 60.
Proof.
  intros Hs. pose proof PI_RGT_0. unfold angle_degrees, third, turn. cbn [tv_rotation]. rewrite trace_rot_of_aa.
  assert (E : norm3 (V3 (s * (PI / 3)) 0 0) = PI / 3). { unfold norm3, Camera_Model.dot. cbn [x3 y3 z3]. replace (s * (PI / 3) * (s * (PI / 3)) + 0 * 0 + 0 * 0) with ((PI / 3) * (PI / 3)) by nra. apply sqrt_square. lra. }
  rewrite E. replace ((1 + 2 * cos (PI / 3) - 1) / 2) with (cos (PI / 3)) by field. rewrite acos_cos by lra. field. lra.
Qed.
Lemma triangle_ids : has_valid_ids triangle.
Proof. apply run_valid_ids. repeat constructor; unfold kInvalidViewId; lia. Qed.
Lemma triangle_views (r : recon N (list R) (list R)) : (forall u, u ∈ [0; 1; 2]%N -> is_Some (rc_views r !! u)) -> views_exist triangle r.
Proof.
  intros H a b [i Hi]%has_edge_iff. apply H. rewrite triangle_lookup in Hi. repeat (destruct (decide _) as [[[-> ->]|[-> ->]]|_] in Hi; [set_solver|set_solver|]). discriminate Hi.
Qed.
(** No edge agrees with orientations that are 0. *)
Lemma triangle_disagrees c os a b : (forall i, vg_get_edge c a b = Some i -> vg_get_edge triangle a b = Some i) -> (forall u q, os !! u = Some q -> q = V3 0 0 0) -> ~ agrees c os 5 a b.
Proof.
  intros Hc Ho (M & wa & wb & (i & Hi & HM) & Ha & Hb & Hle). apply Ho in Ha as ->. apply Ho in Hb as ->. apply Hc in Hi. rewrite rot_of_aa_zero in Hle.
  assert (E : mmul mid (mtrans mid) = mid) by (change (mtrans mid) with mid; apply mmul_id_l). rewrite E, mmul_id_r in Hle.
  assert (T : forall M, trace (mtrans M) = trace M) by (intros K; unfold trace, mtrans; reflexivity).
  assert (A : angle_degrees (mtrans M) = 60).
  { assert (Hr : exists s, s * s = 1 /\ i = third s). { rewrite triangle_lookup in Hi. repeat (destruct (decide _) in Hi; [injection Hi as <-; eexists; (split; [|reflexivity]); ring|]). discriminate Hi. }
    destruct Hr as (s & Hs & ->). rewrite <- (third_angle s Hs). unfold angle_degrees. rewrite T, HM. destruct (decide _); [done|by rewrite T]. }
  rewrite A in Hle. lra.
Qed.

(** C133, refuted: the graph has edges with enough matches, the estimator of rotations meets its contract, and the edges are
    gone after the comparison of the rotations.  Nothing checks that before the positions are estimated. *)
Theorem global_lud_emptied_refuted : forall w G E solve (oe : order ((N * N) * two_view)), exists r,
  let so := solvers_with (fun _ _ => lud_positions oe solve) in
  solvers_ok so /\ (0 <= go_max_degrees linear_options)%R /\ has_valid_ids triangle /\ views_exist triangle r /\ input_ok r scene_heap (fun _ => plain_prior) /\
  (forall a b, vg_has_edge triangle a b = true -> enough triangle (go_min_matches linear_options) a b) /\
  estimate_globally (P:=unit) (W:=unit) w E G so linear_options (fun _ => plain_prior) ord_id (fun _ => ord_id) None triangle r scene_heap ∅ = UB.
Proof.
  intros w G E solve oe.
  destruct (scene_exists shared [false; false; false; false] false (fun r => forallb (fun u => bool_decide (is_Some (rc_views r !! u))) [0; 1; 2]%N = true)) as (r & _ & H1 & H2); [vm_compute; reflexivity|vm_compute; repeat split|].
  exists r. intros so. assert (Hso : solvers_ok so) by (apply solvers_with_ok, position_estimators_contract; exact (fun _ _ => (true, fun _ => V3 0 0 0))).
  assert (Hex : views_exist triangle r). { apply triangle_views. intros u Hu. rewrite forallb_forall in H2. specialize (H2 u). rewrite <- elem_of_list_In, bool_decide_eq_true in H2. by apply H2. }
  assert (Hmax : (0 <= go_max_degrees linear_options)%R) by (cbn [go_max_degrees linear_options]; lra).
  split; [done|]. split; [done|]. split; [apply triangle_ids|]. split; [done|]. split; [done|]. split.
  { intros a b [i Hi]%has_edge_iff. exists i. split; [done|]. rewrite triangle_lookup in Hi. repeat (destruct (decide _) in Hi; [injection Hi as <-; cbn; lia|]). discriminate Hi. }
  unfold estimate_globally.
  destruct (poses_lemma G so linear_options (fun _ => plain_prior) ord_id (fun _ => ord_id) triangle_ops r scene_heap ∅ Hso Hmax triangle_ids Hex H1) as (c1 & c2 & R1 & L1 & _ & _ & H). fold triangle in H, R1.
  assert (HE : exists a b, vg_has_edge c2 a b = true).
  { apply (largest_some c1); [done|]. exists 0%N, 1%N. apply has_edge_iff. exists (third 1). apply R1. rewrite triangle_lookup. split; [reflexivity|]. exists (third 1). split; [rewrite triangle_lookup; reflexivity|]. cbn; lia. }
  destruct H as [[Hn _]|(_ & r' & h' & s' & init & ok & os & _ & _ & H3 & H4)]; [destruct HE as (a & b & K); by rewrite Hn in K|].
  change (so_rotations so) with at_rest in H3. pose proof (at_rest_lookup (vg_edges c2) init) as Hl. rewrite H3 in Hl. cbn [snd] in Hl. unfold at_rest in H3. injection H3 as <- _.
  destruct H4 as (c3 & os3 & (d1 & d2 & d3 & d4 & d5 & os2 & S1 & S2 & _ & S4 & S5 & S6 & S7 & _) & _ & _ & Hre & _ & _ & ->).
  assert (Hd : forall a b, vg_has_edge d1 a b = false).
  { intros a b. apply has_edge_false. destruct (vg_get_edge d1 a b) as [i|] eqn:Ed; [|done]. exfalso. apply (restricted_edge _ _ _ _ _ _ S1) in Ed as [Ed Hag]. revert Hag. apply triangle_disagrees.
    - intros j Hj. apply (largest_edges _ _ _ _ _ L1) in Hj. by apply (restricted_edge _ _ _ _ _ _ R1) in Hj as [Hj _].
    - intros u q Hq. rewrite Hl in Hq. destruct (decide _); [congruence|discriminate Hq]. }
  cbv [refined rigid_part translations_filtered linear_options go_refine_translations go_rigid go_filter_translations] in S4, S5, S6. subst d3 d4 d5.
  pose proof (largest_none _ _ S7 (largest_none _ _ S2 Hd)) as Hz. apply no_edges_empty in Hz; [|done]. rewrite Hz. change (so_positions so r' h') with (lud_positions oe solve). rewrite lud_positions_empty_refuted. reflexivity.
Qed.
Print Assumptions global_lud_emptied_refuted.

(** * A run that succeeds: two rounds on the views 0 and 1; the pair of views 2 and 3 has too few matches *)
Definition couple_ops : list (vg_op two_view) := [VAddEdge 0 1 (turn 0 50); VAddEdge 2 3 (turn 0 10)]%N.
Definition couple : view_graph two_view := (vg_run vg_empty couple_ops).1.
Lemma couple_lookup a b : vg_get_edge couple a b = if decide (same_pair 2 3 a b) then Some (turn 0 10) else if decide (same_pair 0 1 a b) then Some (turn 0 50) else None.
Proof.
  destruct (vrel_run couple_ops _ _ vrel_empty) as [Hr _]. destruct (vrel_answers _ _ Hr) as (_ & _ & L & _). fold couple in L. rewrite L. cbn [ag_run couple_ops ag_step]. repeat (rewrite decide_False by done; cbn [fst snd ag_label ag_empty]). done.
Qed.
Lemma couple_ids : has_valid_ids couple.
Proof. apply run_valid_ids. repeat constructor; unfold kInvalidViewId; lia. Qed.
Definition along (_ : gmap (N * N) two_view) (_ : gmap N v3) : bool * (N -> v3) := (true, fun u => if decide (u = 0%N) then V3 0 0 0 else V3 1 0 0).
Definition couple_orientations : gmap N v3 := {[0%N := V3 0 0 0; 1%N := V3 0 0 0]}.
Definition couple_positions : gmap N v3 := {[0%N := V3 0 0 0; 1%N := V3 1 0 0]}.
Definition couple_result (s : inc N) : Prop :=
  elements (estimated_views ord_id (n_recon s)) = [0; 1]%N /\ elements (estimated_tracks ord_id (n_recon s)) = [0; 1; 2]%N.
Definition couple_run (r : recon N (list R) (list R)) : Prop :=
  match set_intrinsics_from_priors ord_id (fun _ => ord_id) (fun _ => plain_prior) (r, scene_heap, ∅) with
  | Ok (r', h', _) =>
      match set_estimated_poses global_pose ord_id couple_orientations couple_positions r' with
      | Ok r2 =>
          match structure_rounds flat_world (fun _ => @still_env N unit unit) linear_options 2 true (Inc r2 h' ∅ [] 0 None 0) with
          | Ok (s, true) => couple_result s
          | _ => False
          end
      | _ => False
      end
  | _ => False
  end.

Example global_sample : exists r x,
  let so := solvers_with (fun _ _ => nonlinear_positions along) in
  solvers_ok so /\ positions_total (so_positions so) /\ (0 <= go_max_degrees linear_options)%R /\ has_valid_ids couple /\ views_exist couple r /\ input_ok r scene_heap (fun _ => plain_prior) /\
  environment_ok (fun _ => @still_env N unit unit) /\ options_ok (go_common linear_options) None /\ (0 <= go_retriangulations linear_options)%Z /\
  estimate_globally flat_world (fun _ => still_env) (fun _ => plain_orders) so linear_options (fun _ => plain_prior) ord_id (fun _ => ord_id) None couple r scene_heap ∅ = Ok x /\
  is_success (gl_summary x) = true /\ elements (is_views (gl_summary x)) = [0; 1]%N /\ elements (is_tracks (gl_summary x)) = [0; 1; 2]%N /\
  vg_get_edge (gl_graph x) 0 1 = Some (turn 0 50) /\ vg_get_edge (gl_graph x) 2 3 = None.
Proof.
  destruct (scene_exists shared [false; false; false; false] false (fun r => forallb (fun u => bool_decide (is_Some (rc_views r !! u))) [0; 1; 2; 3]%N = true /\ couple_run r)) as (r & _ & H1 & H2 & HR); [vm_compute; reflexivity|vm_compute; repeat split|].
  set (so := solvers_with (fun _ _ => nonlinear_positions along)). exists r.
  assert (Hso : solvers_ok so) by (apply solvers_with_ok, (position_estimators_contract N ord_id (fun _ _ _ => V3 0 0 0) along)).
  assert (Hex : views_exist couple r). { intros a b [i Hi]%has_edge_iff. rewrite forallb_forall in H2. specialize (H2 a). rewrite <- elem_of_list_In, bool_decide_eq_true in H2. apply H2. clear H2. rewrite couple_lookup in Hi. repeat (destruct (decide _) as [[[-> ->]|[-> ->]]|_] in Hi; [set_solver|set_solver|]). discriminate Hi. }
  clear H2.
  assert (Hmax : (0 <= go_max_degrees linear_options)%R) by (cbn [go_max_degrees linear_options]; lra).
  destruct (poses_lemma (fun _ => plain_orders) so linear_options (fun _ => plain_prior) ord_id (fun _ => ord_id) couple_ops r scene_heap ∅ Hso Hmax couple_ids Hex H1) as (c1 & c2 & R1 & L1 & Hc2 & _ & H). fold couple in H, R1.
  assert (E1 : vg_has_edge c1 0 1 = true). { apply has_edge_iff. exists (turn 0 50). apply R1. rewrite couple_lookup. split; [reflexivity|]. exists (turn 0 50). split; [rewrite couple_lookup; reflexivity|]. cbn; lia. }
  assert (O1 : forall a b i, vg_get_edge c1 a b = Some i -> same_pair 0 1 a b /\ i = turn 0 50).
  { intros a b i Hi. apply (restricted_edge _ _ _ _ _ _ R1) in Hi as [Hi (j & Hj & Hm)]. rewrite Hi in Hj. injection Hj as <-. rewrite couple_lookup in Hi. destruct (decide _) in Hi; [injection Hi as <-; cbn in Hm; lia|]. destruct (decide _) in Hi; [|discriminate Hi]. injection Hi as <-. done. }
  assert (Keep : forall c c' (P : forall a b i, vg_get_edge c a b = Some i -> same_pair 0 1 a b /\ i = turn 0 50), (exists a b, vg_has_edge c a b = true) -> largest_part c c' ->
    (forall a b i, vg_get_edge c' a b = Some i -> same_pair 0 1 a b /\ i = turn 0 50) /\ exists a b, vg_has_edge c' a b = true).
  { intros c c' P He L. split; [|by apply (largest_some c)]. intros a b i Hi. apply (P a b). by apply (largest_edges _ _ _ _ _ L). }
  destruct (Keep c1 c2 O1 (ex_intro _ 0%N (ex_intro _ 1%N E1)) L1) as [O2 E2].
  destruct H as [[Hn _]|(_ & r' & h' & s' & init & ok & os & Hp & _ & H3 & H4)]; [destruct E2 as (a & b & K); by rewrite Hn in K|].
  change (so_rotations so) with at_rest in H3. pose proof (at_rest_lookup (vg_edges c2) init) as Hl. rewrite H3 in Hl. cbn [snd] in Hl. unfold at_rest in H3. injection H3 as <- _.
  destruct H4 as (c3 & os3 & (d1 & d2 & d3 & d4 & d5 & os2 & S1 & S2 & _ & S4 & S5 & S6 & S7 & _) & B & _ & Hre & Ho3 & _ & HE).
  assert (Od : forall a b i, vg_get_edge d1 a b = Some i -> same_pair 0 1 a b /\ i = turn 0 50) by (intros a b i Hi; apply (restricted_edge _ _ _ _ _ _ S1) in Hi as [Hi _]; by apply O2).
  assert (Ed : exists a b, vg_has_edge d1 a b = true).
  { destruct E2 as (a & b & Hab). exists a, b. pose proof Hab as [i Hi]%has_edge_iff. destruct (O2 _ _ _ Hi) as [_ ->]. apply has_edge_iff. exists (turn 0 50). apply S1. split; [done|].
    assert (Ha : forall u v, vg_has_edge c2 u v = true -> os !! u = Some (V3 0 0 0)). { intros u v Huv. rewrite Hl, decide_True; [done|]. apply ends_spec, end_of_edge; [done|]. by exists v. }
    exists mid, (V3 0 0 0), (V3 0 0 0). split; [exists (turn 0 50); split; [done|]; rewrite zero_turn; by destruct (decide _)|]. split; [by apply (Ha a b)|]. split; [apply (Ha b a); apply has_edge_iff; exists (turn 0 50); by rewrite edge_sym|].
    rewrite rot_of_aa_zero. change (mtrans mid) with mid. rewrite !mmul_id_l, angle_mid. cbn [go_max_degrees linear_options]. lra. }
  cbv [refined rigid_part translations_filtered linear_options go_refine_translations go_rigid go_filter_translations] in S4, S5, S6. subst d3 d4 d5.
  destruct (Keep d1 d2 Od Ed S2) as [Od2 Ed2]. destruct (Keep d2 c3 Od2 Ed2 S7) as [O3 E3]. clear Keep S1 S2 S7 Od Ed Od2 Ed2 O1 E1 R1 L1 E2.
  assert (G01 : vg_get_edge c3 0 1 = Some (turn 0 50)). { destruct E3 as (a & b & [i Hi]%has_edge_iff). destruct (O3 _ _ _ Hi) as [[[-> ->]|[-> ->]] ->]; [done|]. by rewrite edge_sym. }
  assert (End : forall u, end_of (vg_edges c3) u <-> u = 0%N \/ u = 1%N).
  { intros u. rewrite end_of_edge by done. split; [intros (v & [i Hi]%has_edge_iff); destruct (O3 _ _ _ Hi) as [[[-> _]|[-> _]] _]; [by left|by right]|].
    intros [->| ->]; [exists 1%N|exists 0%N]; apply has_edge_iff; exists (turn 0 50); [done|by rewrite edge_sym]. }
  assert (End2 : forall u, u ∈ ends (vg_edges c2) -> u = 0%N \/ u = 1%N). { intros u Hu. apply ends_spec, end_of_edge in Hu as (v & [i Hi]%has_edge_iff); [|done]. destruct (O2 _ _ _ Hi) as [[[-> _]|[-> _]] _]; [by left|by right]. }
  assert (Os : os3 = couple_orientations).
  { assert (S0 : forall u, u = 0%N \/ u = 1%N -> os3 !! u = Some (V3 0 0 0)). { intros u Hu. pose proof (proj2 (End u) Hu) as Hu'. apply end_of_edge in Hu' as (v & Hv); [|done]. destruct (B u v Hv) as [q Hq]. rewrite Hq. apply Ho3 in Hq. rewrite Hl in Hq. destruct (decide _); [done|discriminate Hq]. }
    apply map_eq. intros u. destruct (decide (u = 0%N \/ u = 1%N)) as [Hu|Hu]; [rewrite S0 by done; by destruct Hu as [->| ->]|].
    transitivity (@None v3); [|unfold couple_orientations; rewrite lookup_insert_ne, lookup_singleton_ne by (intros <-; apply Hu; auto); done].
    destruct (os3 !! u) as [q|] eqn:Hq; [|done]. apply Ho3 in Hq. rewrite Hl in Hq. destruct (decide _) as [I|]; [|discriminate Hq]. by apply End2 in I. }
  destruct (nonlinear_positions_total N along) as (Htot & Hnl & _). destruct (Hnl (vg_edges c3) os3) as (ps & Eps & Hps).
  { intros u Hu. apply end_of_edge in Hu as (v & Hv); [|done]. by apply (B u v). }
  { intros K. assert (Hz : end_of (vg_edges c3) 0%N) by (apply End; by left). rewrite K in Hz. destruct Hz as (p & i & Hz & _). by rewrite lookup_empty in Hz. }
  assert (Eqp : ps = couple_positions).
  { apply map_eq. intros u. apply option_eq. intros x. rewrite Hps, End. unfold along, couple_positions. cbn [snd]. rewrite lookup_insert_Some, lookup_singleton_Some. split.
    - intros [[->| ->] ->]; [left|right]; [by rewrite decide_True by done|by rewrite decide_False by done].
    - intros [[<- <-]|[_ [<- <-]]]; (split; [auto|]); [by rewrite decide_True by done|by rewrite decide_False by done]. }
  change (so_positions so r' h') with (nonlinear_positions along) in HE. rewrite Eps in HE. cbn [mbind outcome_bind] in HE. change (along (vg_edges c3) os3).1 with true in HE. cbn iota in HE. subst os3 ps.
  unfold couple_run in HR. rewrite Hp in HR. unfold estimate_globally. fold couple in HE. cbn zeta. rewrite HE. cbn [mbind outcome_bind po_positions po_orientations po_recon po_heap po_graph po_sizes].
  change (gr_positions plain_orders) with (@ord_id (N * v3)). destruct (set_estimated_poses _ _ _ _ _) as [r2| | |]; [|destruct HR..]. cbn [mbind outcome_bind].
  change (Z.to_nat (go_retriangulations linear_options + 1)) with 2%nat. destruct (structure_rounds _ _ _ _ _ _) as [[s [|]]| | |]; [|destruct HR..]. cbn [mbind outcome_bind]. destruct HR as [HR1 HR2].
  eexists. split; [exact Hso|]. split; [exact Htot|]. split; [exact Hmax|]. split; [exact couple_ids|]. split; [exact Hex|]. split; [exact H1|]. split; [apply still_ok|]. split; [apply easy_ok|]. split; [cbn; lia|].
  split; [reflexivity|]. cbn [gl_summary gl_graph is_success is_views is_tracks]. split; [reflexivity|]. split; [exact HR1|]. split; [exact HR2|]. split; [exact G01|].
  destruct (vg_get_edge c3 2 3) as [i|] eqn:K; [|reflexivity]. apply O3 in K as [[[K _]|[K _]] _]; discriminate K.
Qed.

(** C132: with 60 matches needed, nothing is enough; and the same run where the estimator of positions fails. *)
Example global_few_sample : let opts := GlobalOptions easy_options 60 LinearRotations 5 false false false 48 (8 / 100) 1 true in
  has_valid_ids couple /\ (forall a b, ~ enough couple (go_min_matches opts) a b) /\ vg_has_edge couple 0 1 = true.
Proof.
  intros opts. split; [apply couple_ids|]. split; [|apply has_edge_iff; exists (turn 0 50); rewrite couple_lookup; reflexivity].
  intros a b (i & Hi & Hm). rewrite couple_lookup in Hi. repeat (destruct (decide _) in Hi; [injection Hi as <-; cbn in Hm; lia|]). discriminate Hi.
Qed.
Example global_fails_sample : let so := solvers_with (fun _ _ _ _ => Ok (false, ∅)) in
  solvers_ok so /\ forall r h m os, exists ps, so_positions so r h m os = Ok (false, ps).
Proof.
  intros so. split; [|by eexists]. apply solvers_with_ok. intros r h m os ok ps [= <- <-] u [x Hx]. by rewrite lookup_empty in Hx.
Qed.
(** The least unsquared deviation estimator on one edge. *)
Example lud_sample : lud_positions ord_id (fun _ _ u => (along ∅ ∅).2 u) {[(0%N, 1%N) := turn 0 50]} couple_orientations = Ok (true, couple_positions).
Proof. vm_compute. reflexivity. Qed.
