(** Properties C64-C67: rotations on a view graph. *)
From stdpp Require Import gmap sorting.
From Coq Require Import Reals Lra.
From Verif Require Import Base ViewGraph_Model ViewGraph_Spec ViewGraph_Proofs.
From Verif Require Import TripletExtractor_Model TripletExtractor_Spec TripletExtractor_Props.
From Verif Require Import Camera_Model Camera_Proofs PriorityQueue_Model RotationGraph_Model RotationGraph_Spec.
From Verif Require Import RotationGraph_Proofs RotationGraph_Tree.
Open Scope R_scope.

(** * C64: orientations from the maximum spanning tree *)

(** For every history of a view graph with an edge: the call succeeds and gives an orientation to every view of the
    largest connected component and to no other.  There is a spanning tree of the component with the most verified
    matches, and the orientations satisfy R_b = R_ab R_a on each of its edges. *)
Theorem orientations_from_mst_exact : forall (f : mat3 -> vec3) (H : edge_heap) (o : order N) (oe : order (N * N))
    (on : order N) (oc ov : order (N * gset N)) (oi : order N) (ow : order ((N * N) * two_view)) (om : order (N * N))
    (ops : list (vg_op two_view)) (init : gmap N vec3),
  let c := (vg_run vg_empty ops).1 in
  let g := (ag_run ag_empty ops).1 in
  aa_canonical f -> has_valid_ids c -> (exists a b, vg_has_edge c a b = true) ->
  (forall X v, ag_largest_component g X -> v ∈ X -> init !! v = None) ->
  exists X T root R, orientations_from_mst f H o oe on oc ov oi ow om c init = Ok (true, R) /\
    ag_largest_component g X /\ maximum_tree c X T /\ root ∈ X /\ R !! root = Some (V3 0 0 0) /\
    (forall v, v ∈ X -> is_Some (R !! v)) /\ (forall v, v ∉ X -> R !! v = init !! v) /\
    (forall a b, (a, b) ∈ T -> chained c R a b).
Proof.
  intros f H o oe on oc ov oi ow om ops init c g Hf Hids (a & b & Hab) Hinit.
  destruct (vrel_run ops _ _ vrel_empty) as [Hr _]. fold c g in Hr.
  destruct (vrel_answers _ _ Hr) as (_ & Hhe & _).
  apply (orientations_from_mst_ok f H o oe on oc ov oi ow om c g init); [done|done| | |].
  - by apply (has_valid_ids_rel c g Hr).
  - exists a, b. by apply Hhe.
  - intros X HX v Hv. by apply (Hinit X).
Qed.
Print Assumptions orientations_from_mst_exact.

(** If the relative rotations are those of some orientations [Q], the result is [Q] up to one common rotation. *)
Theorem orientations_from_mst_ground_truth : forall (f : mat3 -> vec3) (H : edge_heap) (o : order N) (oe : order (N * N))
    (on : order N) (oc ov : order (N * gset N)) (oi : order N) (ow : order ((N * N) * two_view)) (om : order (N * N))
    (ops : list (vg_op two_view)) (init : gmap N vec3) (Q : N -> mat3),
  let c := (vg_run vg_empty ops).1 in
  let g := (ag_run ag_empty ops).1 in
  aa_canonical f -> has_valid_ids c -> (exists a b, vg_has_edge c a b = true) ->
  (forall X v, ag_largest_component g X -> v ∈ X -> init !! v = None) ->
  (forall v, rotation (Q v)) ->
  (forall a b i, (a < b)%N -> vg_get_edge c a b = Some i -> rot_of_aa (tv_rotation i) = mmul (Q b) (mtrans (Q a))) ->
  exists X root R, orientations_from_mst f H o oe on oc ov oi ow om c init = Ok (true, R) /\
    ag_largest_component g X /\
    forall v, v ∈ X -> exists w, R !! v = Some w /\ rot_of_aa w = mmul (Q v) (mtrans (Q root)).
Proof.
  intros f H o oe on oc ov oi ow om ops init Q c g Hf Hids He Hinit HQ Hrel.
  destruct (orientations_from_mst_exact f H o oe on oc ov oi ow om ops init Hf Hids He Hinit)
    as (X & T & root & R & E & HX & [HT _] & Hroot & HR0 & _ & _ & Hch).
  exists X, root, R. split; [exact E|]. split; [exact HX|].
  destruct (vrel_run ops _ _ vrel_empty) as [Hr _].
  apply (chained_exact c g X T root R Q Hr HT Hroot HR0 Hch); [done|].
  intros a b M _ _ Hlt (i & Hi & ->). rewrite decide_True by done. by apply Hrel.
Qed.
Print Assumptions orientations_from_mst_ground_truth.

(** A view graph without edges does not make the call return false: it aborts. *)
Theorem orientations_from_mst_no_edges : forall (f : mat3 -> vec3) (H : edge_heap) (o : order N) (oe : order (N * N))
    (on : order N) (oc ov : order (N * gset N)) (oi : order N) (ow : order ((N * N) * two_view)) (om : order (N * N))
    (ops : list (vg_op two_view)) (init : gmap N vec3),
  let c := (vg_run vg_empty ops).1 in
  (forall a b, vg_has_edge c a b = false) ->
  orientations_from_mst f H o oe on oc ov oi ow om c init = CheckFail.
Proof.
  intros f H o oe on oc ov oi ow om ops init c Hno.
  destruct (vrel_run ops _ _ vrel_empty) as [Hr _]. fold c in Hr.
  destruct (vrel_answers _ _ Hr) as (_ & Hhe & _).
  eapply orientations_from_mst_abort; [exact Hr|]. intros a b Hab. apply Hhe in Hab. by rewrite Hno in Hab.
Qed.
Print Assumptions orientations_from_mst_no_edges.

(** An instance of the heap contract, for the examples: sorted lists. *)
Definition by_matches (h1 h2 : two_view * (N * N)) : Prop := (tv_matches h1.1 <= tv_matches h2.1)%Z.
Global Instance by_matches_dec : RelDecision by_matches.
Proof. intros h1 h2. unfold by_matches. apply _. Defined.
Global Instance by_matches_total : Total by_matches.
Proof. intros h1 h2. unfold by_matches. lia. Qed.
Global Instance by_matches_trans : Transitive by_matches.
Proof. intros h1 h2 h3. unfold by_matches. lia. Qed.
Lemma sorted_is_heap l : StronglySorted by_matches l -> is_heap sort_heap_element l.
Proof.
  intros Hs j x y Hj Hx Hy. unfold sort_heap_element. apply bool_decide_eq_false. apply Z.le_ngt.
  assert (Hlt : ((j - 1) / 2 < j)%nat).
  { destruct j as [|j]; [lia|]. cbn [Nat.sub]. rewrite Nat.sub_0_r.
    pose proof (Nat.div_le_upper_bound j 2 j ltac:(lia) ltac:(lia)). lia. }
  revert Hlt Hx Hy. generalize ((j - 1) / 2)%nat. clear Hj. intros k Hlt Hx Hy. revert k j Hlt Hx Hy.
  induction Hs as [|a l _ IH Ha]; intros k j Hlt Hx Hy; [by rewrite lookup_nil in Hx|].
  destruct j as [|j]; [lia|]. cbn [lookup list_lookup] in Hy. destruct k as [|k].
  - assert (x = a) as -> by (cbn in Hx; congruence). rewrite list.Forall_forall in Ha. apply Ha.
    by eapply elem_of_list_lookup_2.
  - cbn in Hx. apply (IH k j); [lia|done|done].
Qed.
Definition sorted_heap : edge_heap.
Proof.
  refine (EdgeHeap (merge_sort by_matches)
    (fun l => match l with [] => [] | x :: l => merge_sort by_matches l ++ [x] end) _ _).
  - intros l x _. split; [apply merge_sort_Permutation|]. apply sorted_is_heap. apply (StronglySorted_merge_sort by_matches).
  - intros x l _. exists (merge_sort by_matches l). split; [done|]. split; [apply merge_sort_Permutation|].
    apply sorted_is_heap. apply (StronglySorted_merge_sort by_matches).
Defined.

(** Histories with valid ids. *)
Definition op_valid {E} (op : vg_op E) : Prop :=
  match op with VAddEdge a b _ => (a < kInvalidViewId)%N /\ (b < kInvalidViewId)%N | _ => True end.
Lemma run_valid_ids {E} (ops : list (vg_op E)) : Forall op_valid ops -> has_valid_ids (vg_run vg_empty ops).1.
Proof.
  intros Hops v Hv. destruct (vrel_run ops _ _ vrel_empty) as [Hr _].
  destruct (vrel_answers _ _ Hr) as (A1 & _). apply A1 in Hv. revert v Hv. clear A1 Hr.
  assert (Hg : ids_valid (ag_empty (E := E))) by (intros v Hv; by apply elem_of_empty in Hv).
  revert Hg. generalize (ag_empty (E := E)).
  induction Hops as [|op ops Hop _ IH]; intros g Hg; [exact Hg|].
  assert (Hg1 : ids_valid (ag_step g op).1).
  { destruct op as [a b e|a b|o v|a b h]; cbn [ag_step].
    - case_decide; [done|]. intros v. cbn [fst ag_views]. destruct Hop. rewrite !elem_of_union, !elem_of_singleton.
      intros [[->| ->]|?]; [done|done|by apply Hg].
    - destruct (ag_label g a b); done.
    - case_decide; [|done]. intros x. cbn [fst ag_views]. rewrite elem_of_difference. intros [? _]. by apply Hg.
    - done. }
  specialize (IH _ Hg1). cbn [ag_run]. destruct (ag_step g op) as [g1 r]. cbn [fst] in IH.
  destruct (ag_run g1 ops) as [g2 rs]. exact IH.
Qed.
Local Ltac valid_ids := apply run_valid_ids; repeat constructor; unfold kInvalidViewId; lia.

(** A sample history: the triangle 1 - 2 - 3 and the triangle 2 - 3 - 4, with any values on the edges. *)
Definition sample_ops {E} (i12 i23 i13 i24 i34 i45 : E) : list (vg_op E) :=
  [VAddEdge 1 2 i12; VAddEdge 2 3 i23; VAddEdge 3 1 i13; VAddEdge 2 4 i24; VAddEdge 3 4 i34; VAddEdge 4 5 i45]%N.
Lemma sample_lookup {E} (i12 i23 i13 i24 i34 i45 : E) a b :
  vg_get_edge (vg_run vg_empty (sample_ops i12 i23 i13 i24 i34 i45)).1 a b =
    if decide (same_pair 4 5 a b) then Some i45 else
    if decide (same_pair 3 4 a b) then Some i34 else
    if decide (same_pair 2 4 a b) then Some i24 else
    if decide (same_pair 3 1 a b) then Some i13 else
    if decide (same_pair 2 3 a b) then Some i23 else
    if decide (same_pair 1 2 a b) then Some i12 else None.
Proof.
  destruct (vrel_run (sample_ops i12 i23 i13 i24 i34 i45) _ _ vrel_empty) as [Hr _].
  destruct (vrel_answers _ _ Hr) as (_ & _ & A3 & _). rewrite A3. reflexivity.
Qed.
Lemma sample_valid_ids {E} (i12 i23 i13 i24 i34 i45 : E) : has_valid_ids (vg_run vg_empty (sample_ops i12 i23 i13 i24 i34 i45)).1.
Proof.
  valid_ids.
Qed.

(** Non-vacuity: the orientations of a sample graph. *)
Definition turn (k : R) (n : Z) : two_view := TwoView 1 1 (V3 1 0 0) (V3 k 0 0) n.
Example orientations_sample : forall i12 i23 i13 i24 i34 i45,
  exists X T root R,
    orientations_from_mst aa_of_rot sorted_heap ord_rev ord_id ord_rev ord_id ord_rev ord_id ord_rev ord_id
      (vg_run vg_empty (sample_ops i12 i23 i13 i24 i34 i45)).1 ∅ = Ok (true, R) /\
    ag_largest_component (ag_run ag_empty (sample_ops i12 i23 i13 i24 i34 i45)).1 X /\
    maximum_tree (vg_run vg_empty (sample_ops i12 i23 i13 i24 i34 i45)).1 X T /\ root ∈ X /\ R !! root = Some (V3 0 0 0) /\
    (forall v, v ∈ X -> is_Some (R !! v)) /\
    (forall a b, (a, b) ∈ T -> chained (vg_run vg_empty (sample_ops i12 i23 i13 i24 i34 i45)).1 R a b).
Proof.
  intros i12 i23 i13 i24 i34 i45.
  destruct (orientations_from_mst_exact aa_of_rot sorted_heap ord_rev ord_id ord_rev ord_id ord_rev ord_id ord_rev ord_id
    (sample_ops i12 i23 i13 i24 i34 i45) ∅) as (X & T & root & R & E & H1 & H2 & H3 & H4 & H5 & _ & H7).
  - apply aa_of_rot_canonical.
  - apply sample_valid_ids.
  - exists 1%N, 2%N. unfold vg_has_edge. reflexivity.
  - intros X v _ _. apply lookup_empty.
  - exists X, T, root, R. exact (conj E (conj H1 (conj H2 (conj H3 (conj H4 (conj H5 H7)))))).
Qed.
Example ground_truth_sample : forall (Q : N -> mat3) r12 r23 r13 r24 r34 r45,
  (forall v, rotation (Q v)) ->
  rot_of_aa r12 = mmul (Q 2%N) (mtrans (Q 1%N)) -> rot_of_aa r23 = mmul (Q 3%N) (mtrans (Q 2%N)) ->
  rot_of_aa r13 = mmul (Q 3%N) (mtrans (Q 1%N)) -> rot_of_aa r24 = mmul (Q 4%N) (mtrans (Q 2%N)) ->
  rot_of_aa r34 = mmul (Q 4%N) (mtrans (Q 3%N)) -> rot_of_aa r45 = mmul (Q 5%N) (mtrans (Q 4%N)) ->
  let ops := sample_ops (TwoView 1 1 (V3 1 0 0) r12 50) (TwoView 1 1 (V3 1 0 0) r23 40) (TwoView 1 1 (V3 1 0 0) r13 45)
               (TwoView 1 1 (V3 1 0 0) r24 70) (TwoView 1 1 (V3 1 0 0) r34 30)
               (TwoView 1 1 (V3 1 0 0) r45 60) in
  exists X root R,
    orientations_from_mst aa_of_rot sorted_heap ord_id ord_id ord_id ord_id ord_id ord_id ord_id ord_id
      (vg_run vg_empty ops).1 ∅ = Ok (true, R) /\
    ag_largest_component (ag_run ag_empty ops).1 X /\
    forall v, v ∈ X -> exists w, R !! v = Some w /\ rot_of_aa w = mmul (Q v) (mtrans (Q root)).
Proof.
  intros Q r12 r23 r13 r24 r34 r45 HQ E12 E23 E13 E24 E34 E45 ops.
  apply orientations_from_mst_ground_truth.
  - apply aa_of_rot_canonical.
  - valid_ids.
  - exists 1%N, 2%N. unfold vg_has_edge. reflexivity.
  - intros X v _ _. apply lookup_empty.
  - exact HQ.
  - intros a b i Hlt. unfold ops. rewrite sample_lookup.
    destruct (decide (same_pair 4 5 a b)) as [[[-> ->]|[-> ->]]|_]; [|lia|].
    { intros E. assert (i = TwoView 1 1 (V3 1 0 0) r45 60) as -> by congruence. exact E45. }
    destruct (decide (same_pair 3 4 a b)) as [[[-> ->]|[-> ->]]|_]; [|lia|].
    { intros E. assert (i = TwoView 1 1 (V3 1 0 0) r34 30) as -> by congruence. exact E34. }
    destruct (decide (same_pair 2 4 a b)) as [[[-> ->]|[-> ->]]|_]; [|lia|].
    { intros E. assert (i = TwoView 1 1 (V3 1 0 0) r24 70) as -> by congruence. exact E24. }
    destruct (decide (same_pair 3 1 a b)) as [[[-> ->]|[-> ->]]|_]; [lia| |].
    { intros E. assert (i = TwoView 1 1 (V3 1 0 0) r13 45) as -> by congruence. exact E13. }
    destruct (decide (same_pair 2 3 a b)) as [[[-> ->]|[-> ->]]|_]; [|lia|].
    { intros E. assert (i = TwoView 1 1 (V3 1 0 0) r23 40) as -> by congruence. exact E23. }
    destruct (decide (same_pair 1 2 a b)) as [[[-> ->]|[-> ->]]|_]; [|lia|discriminate].
    intros E. assert (i = TwoView 1 1 (V3 1 0 0) r12 50) as -> by congruence. exact E12.
Qed.

(** Orientations that are there before the call are kept: views of the component with an entry are not updated. *)
Theorem orientations_from_mst_reused_output_refuted :
  exists ops init R, let c := (vg_run vg_empty ops).1 in
    has_valid_ids c /\
    orientations_from_mst aa_of_rot sorted_heap ord_id ord_id ord_id ord_id ord_id ord_id ord_id ord_id c init = Ok (true, R) /\
    vg_has_edge c 1 2 = true /\ ~ chained c R 1 2.
Proof.
  exists [VAddEdge 1 2 (turn PI 10)]%N, {[2%N := V3 0 0 0]}, (<[1%N := V3 0 0 0]> {[2%N := V3 0 0 0]}).
  cbn zeta. split_and!.
  - valid_ids.
  - generalize (turn PI 10). intros i. vm_compute. reflexivity.
  - reflexivity.
  - intros (M & wa & wb & (i & Hi & HM) & Ha & Hb & E).
    rewrite lookup_insert in Ha. rewrite lookup_insert_ne, lookup_singleton in Hb by done.
    assert (wa = V3 0 0 0) as -> by congruence. assert (wb = V3 0 0 0) as -> by congruence.
    assert (Hi' : vg_get_edge (vg_run vg_empty [VAddEdge 1 2 (turn PI 10)]%N).1 1 2 = Some (turn PI 10)) by reflexivity.
    assert (i = turn PI 10) as -> by congruence. clear Hi Hi'.
    rewrite decide_True in HM by lia. rewrite rot_of_aa_zero, mmul_id_r in E. subst M.
    apply (f_equal trace) in E. unfold turn in E. cbn [tv_rotation] in E. rewrite trace_rot_of_aa in E.
    assert (norm3 (V3 PI 0 0) = PI) as En.
    { unfold norm3, dot. cbn [x3 y3 z3]. replace (PI * PI + 0 * 0 + 0 * 0) with (PI * PI) by ring.
      apply sqrt_square. left. exact PI_RGT_0. }
    rewrite En, cos_PI in E. unfold trace, mid in E. cbn [x3 y3 z3 row0 row1 row2] in E. lra.
Qed.
Print Assumptions orientations_from_mst_reused_output_refuted.

(** * C65: FilterViewPairsFromOrientation *)

(** For every history: exactly the edges stay whose relative rotation is within the threshold of the one of the given
    orientations; edges of views without orientation go.  Views and the values on the edges do not change.  The
    comparison is "at most", and a negative threshold aborts. *)
Theorem orientation_filter_exact : forall (f : mat3 -> vec3) (oe : order ((N * N) * two_view)) (op : order (N * N))
    (ops : list (vg_op two_view)) (orientations : gmap N vec3) (max : R),
  let c := (vg_run vg_empty ops).1 in
  aa_canonical f ->
  (0 <= max -> exists c', filter_from_orientation f oe op orientations max c = Ok c' /\
     restricted c c' (agrees c orientations max)) /\
  (max < 0 -> filter_from_orientation f oe op orientations max c = CheckFail).
Proof.
  intros f oe op ops os max c Hf. destruct (vrel_run ops _ _ vrel_empty) as [Hr _]. fold c in Hr. split; intros Hmax.
  - destruct (filter_orientation_ok f Hf oe op os max c _ Hr Hmax) as (c' & E & Hres & _). by exists c'.
  - unfold filter_from_orientation. destruct (Rlt_dec max 0); [done|lra].
Qed.
Print Assumptions orientation_filter_exact.

(** Angles used in the examples. *)
Lemma angle_mid : angle_degrees mid = 0.
Proof.
  unfold angle_degrees, trace, mid. cbn [x3 y3 z3 row0 row1 row2]. replace ((1 + 1 + 1 - 1) / 2) with 1 by field.
  rewrite acos_1. ring.
Qed.
Lemma norm_pi : norm3 (V3 PI 0 0) = PI.
Proof.
  unfold norm3, dot. cbn [x3 y3 z3]. replace (PI * PI + 0 * 0 + 0 * 0) with (PI * PI) by ring.
  apply sqrt_square. left. exact PI_RGT_0.
Qed.
Lemma angle_pi : angle_degrees (rot_of_aa (V3 PI 0 0)) = 180.
Proof.
  unfold angle_degrees. rewrite trace_rot_of_aa, norm_pi, cos_PI.
  replace ((1 + 2 * -1 - 1) / 2) with (- (1)) by field. rewrite acos_opp, acos_1. field. apply PI_neq0.
Qed.
Lemma zero_turn n : rot_of_aa (tv_rotation (turn 0 n)) = mid.
Proof. unfold turn. cbn [tv_rotation]. apply rot_of_aa_zero. Qed.

(** Non-vacuity: with orientation 0 for the views 1 and 2 and half a turn for 3, and relative rotations 0, the edge
    1 - 2 stays; 1 - 3 is off by 180 degrees, and 4 has no orientation. *)
Definition sample_graph : view_graph two_view :=
  (vg_run vg_empty (sample_ops (turn 0 50) (turn 0 40) (turn 0 45) (turn PI 70) (turn 0 30) (turn 0 60))).1.
Lemma sample_relative a b M : relative sample_graph a b M <->
  exists i, (if decide (same_pair 4 5 a b) then Some (turn 0 60) else
    if decide (same_pair 3 4 a b) then Some (turn 0 30) else
    if decide (same_pair 2 4 a b) then Some (turn PI 70) else
    if decide (same_pair 3 1 a b) then Some (turn 0 45) else
    if decide (same_pair 2 3 a b) then Some (turn 0 40) else
    if decide (same_pair 1 2 a b) then Some (turn 0 50) else None) = Some i /\
    M = if decide (a < b)%N then rot_of_aa (tv_rotation i) else mtrans (rot_of_aa (tv_rotation i)).
Proof. unfold relative, sample_graph. by setoid_rewrite sample_lookup. Qed.

Example orientation_filter_sample :
  let os : gmap N vec3 := {[1%N := V3 0 0 0; 2%N := V3 0 0 0; 3%N := V3 PI 0 0]} in
  exists c', filter_from_orientation aa_of_rot ord_rev ord_id os 10 sample_graph = Ok c' /\
    vg_get_edge c' 2 1 = Some (turn 0 50) /\ vg_get_edge c' 1 3 = None /\ vg_get_edge c' 3 4 = None.
Proof.
  intros os.
  destruct (orientation_filter_exact aa_of_rot ord_rev ord_id
    (sample_ops (turn 0 50) (turn 0 40) (turn 0 45) (turn PI 70) (turn 0 30) (turn 0 60)) os 10 aa_of_rot_canonical) as [Hmain _].
  destruct (Hmain ltac:(lra)) as (c' & E & Hc & _). fold sample_graph in E, Hc. exists c'. split; [exact E|].
  assert (H1 : os !! 1%N = Some (V3 0 0 0)) by reflexivity.
  assert (H2 : os !! 2%N = Some (V3 0 0 0)) by reflexivity.
  assert (H3 : os !! 3%N = Some (V3 PI 0 0)) by reflexivity.
  assert (H4 : os !! 4%N = None) by reflexivity.
  assert (Hm : mtrans mid = mid) by reflexivity.
  split; [|split].
  - apply Hc. split; [unfold sample_graph; rewrite sample_lookup; reflexivity|].
    exists mid, (V3 0 0 0), (V3 0 0 0). split; [apply sample_relative; exists (turn 0 50); split; [reflexivity|]|].
    + rewrite decide_False by lia. by rewrite zero_turn.
    + split; [done|]. split; [done|]. rewrite rot_of_aa_zero, Hm, !mmul_id_l, angle_mid. lra.
  - destruct (vg_get_edge c' 1 3) as [i|] eqn:Ei; [|done]. exfalso. apply Hc in Ei as [_ (M & wa & wb & HM & Ea & Eb & Hle)].
    assert (wa = V3 0 0 0) as -> by congruence. assert (wb = V3 PI 0 0) as -> by congruence.
    apply sample_relative in HM as (j & Hj & ->).
    assert (j = turn 0 45) as -> by (assert (Hq : Some (turn 0 45) = Some j) by exact Hj; congruence). rewrite decide_True in Hle by lia.
    rewrite zero_turn, rot_of_aa_zero, Hm, mmul_id_l, mmul_id_r, angle_pi in Hle. lra.
  - destruct (vg_get_edge c' 3 4) as [i|] eqn:Ei; [|done]. exfalso. apply Hc in Ei as [_ (M & wa & wb & HM & Ea & Eb & Hle)].
    congruence.
Qed.

(** * C66: FilterViewGraphCyclesByRotation *)

(** For every history with less than 2^32 triangles: exactly the edges stay that lie on a triangle of the graph whose
    rotations, chained around it, turn by less than the threshold. *)
Theorem cycle_filter_exact : forall (f : mat3 -> vec3) (ot : order (N * N)) (ord_e : order (N * N * list N)) (ord_c : order N)
    (ord_g : order (N * gset N)) (ord_i : order N) (srt : size_sort) (op : order (N * N))
    (ops : list (vg_op two_view)) (max : R),
  let c := (vg_run vg_empty ops).1 in
  aa_canonical f -> fewer_triangles (elements (dom (vg_edges c))) (2 ^ 32) ->
  exists c', filter_cycles f ot ord_e ord_c ord_g ord_i srt op max c = Ok c' /\
    restricted c c' (fun a b => exists w, good_cycle c max a b w).
Proof.
  intros f ot ord_e ord_c ord_g ord_i srt op ops max c Hf Hfew. destruct (vrel_run ops _ _ vrel_empty) as [Hr _]. fold c in Hr.
  destruct (filter_cycles_ok f ot ord_e ord_c ord_g ord_i srt op max c _ Hf Hr Hfew) as (c' & E & Hres & _). by exists c'.
Qed.
Print Assumptions cycle_filter_exact.

Lemma few_triangles edges (n : N) : (N.of_nat (length edges * length edges * length edges) < n)%N -> fewer_triangles edges n.
Proof.
  intros Hn ts Hnd Hts.
  enough (length ts <= length edges * length edges * length edges)%nat by lia.
  set (all := e1 ← edges; e2 ← edges; e3 ← edges; [(e1.1, e1.2, e2.2)] : list triplet).
  assert (Hlen : forall (l : list (N * N)) B (h : N * N -> list B) k, (forall e, length (h e) = k) ->
    length (l ≫= h) = (length l * k)%nat).
  { intros l B h k Hk. induction l as [|e l IH]; [done|]. rewrite bind_cons, app_length, IH, Hk. cbn [length]. lia. }
  assert (length all = length edges * length edges * length edges)%nat as <-.
  { unfold all. rewrite (Hlen _ _ _ (length edges * (length edges * 1))%nat); [lia|].
    intros e. apply Hlen. intros e'. by apply Hlen. }
  apply submseteq_length, NoDup_submseteq; [done|]. intros [[x y] z] Ht. apply Hts in Ht as (_ & H1 & H2 & H3).
  unfold all. apply elem_of_list_bind. exists (x, y). split; [|done].
  apply elem_of_list_bind. exists (y, z). split; [|done]. apply elem_of_list_bind. exists (x, z). split; [|done].
  apply elem_of_list_singleton. reflexivity.
Qed.

(** Non-vacuity: the triangle 1 - 2 - 3 closes; 2 - 3 - 4 is off by half a turn, so 2 - 4 and 3 - 4 go; 4 - 5 is on no
    triangle. *)
Example cycle_filter_sample :
  exists c', filter_cycles aa_of_rot ord_rev ord_id ord_rev ord_id ord_rev merge_by_size ord_id 10 sample_graph = Ok c' /\
    vg_get_edge c' 1 2 = Some (turn 0 50) /\ vg_get_edge c' 4 5 = None /\ vg_get_edge c' 2 4 = None.
Proof.
  destruct (cycle_filter_exact aa_of_rot ord_rev ord_id ord_rev ord_id ord_rev merge_by_size ord_id
    (sample_ops (turn 0 50) (turn 0 40) (turn 0 45) (turn PI 70) (turn 0 30) (turn 0 60)) 10 aa_of_rot_canonical) as (c' & E & Hc & _).
  { apply few_triangles. generalize (turn 0 50) (turn 0 40) (turn 0 45) (turn PI 70) (turn 0 30) (turn 0 60).
    intros. vm_compute. reflexivity. }
  fold sample_graph in E, Hc. exists c'. split; [exact E|].
  assert (Hm : mtrans mid = mid) by reflexivity.
  split; [|split].
  - apply Hc. split; [unfold sample_graph; rewrite sample_lookup; reflexivity|].
    exists 3%N, mid, mid, mid. split; [|split; [|split]].
    + apply sample_relative. exists (turn 0 50). split; [reflexivity|]. rewrite decide_True by lia. by rewrite zero_turn.
    + apply sample_relative. exists (turn 0 40). split; [reflexivity|]. rewrite decide_True by lia. by rewrite zero_turn.
    + apply sample_relative. exists (turn 0 45). split; [reflexivity|]. rewrite decide_False by lia. by rewrite zero_turn.
    + rewrite !mmul_id_l, angle_mid. lra.
  - destruct (vg_get_edge c' 4 5) as [i|] eqn:Ei; [|done]. exfalso. apply Hc in Ei as [_ (w & M1 & M2 & M3 & _ & H2 & H3 & _)].
    apply sample_relative in H2 as (j & Hj & _). apply sample_relative in H3 as (k & Hk & _).
    assert (w = 4%N) as ->.
    { clear Hk. repeat match goal with _ : context [decide (same_pair ?a ?b 5 w)] |- _ =>
        destruct (decide (same_pair a b 5 w)) as [[[? ?]|[? ?]]|_]; try lia end. done. }
    discriminate Hk.
  - destruct (vg_get_edge c' 2 4) as [i|] eqn:Ei; [|done]. exfalso.
    apply Hc in Ei as [_ (w & M1 & M2 & M3 & H1 & H2 & H3 & H)].
    apply sample_relative in H1 as (i1 & Hi1 & HM1). apply sample_relative in H2 as (i2 & Hi2 & HM2).
    apply sample_relative in H3 as (i3 & Hi3 & HM3).
    assert (w = 3%N) as ->.
    { destruct (decide (w = 5%N)) as [->|]; [discriminate Hi3|]. destruct (decide (w = 2%N)) as [->|]; [discriminate Hi3|].
      clear Hi1 Hi3. repeat match goal with _ : context [decide (same_pair ?a ?b 4 w)] |- _ =>
        destruct (decide (same_pair a b 4 w)) as [[[? ?]|[? ?]]|_]; try lia end. done. }
    assert (i1 = turn PI 70) as -> by (assert (Hq : Some (turn PI 70) = Some i1) by exact Hi1; congruence).
    assert (i2 = turn 0 30) as -> by (assert (Hq : Some (turn 0 30) = Some i2) by exact Hi2; congruence).
    assert (i3 = turn 0 40) as -> by (assert (Hq : Some (turn 0 40) = Some i3) by exact Hi3; congruence).
    rewrite decide_True in HM1 by lia. rewrite decide_False in HM2 by lia. rewrite decide_False in HM3 by lia.
    rewrite zero_turn in HM2, HM3. subst M1 M2 M3. rewrite Hm, !mmul_id_l in H.
    unfold turn in H. cbn [tv_rotation] in H. rewrite angle_pi in H. lra.
Qed.

(** * C67: relative poses of two cameras *)

(** MultiplyRotations is composition. *)
Theorem multiply_rotations_composes : forall (f : mat3 -> vec3) (a b : vec3), aa_canonical f ->
  rot_of_aa (multiply_rotations f a b) = mmul (rot_of_aa a) (rot_of_aa b) /\ norm3 (multiply_rotations f a b) <= PI.
Proof.
  intros f a b Hf. split; [by apply multiply_rotations_ok|]. apply Hf. apply rotation_mmul; apply rot_of_aa_rotation.
Qed.
Print Assumptions multiply_rotations_composes.

(** The relative pose takes a point from the frame of the first camera to that of the second: X2 = R (X1 - s t), with
    s = 1 without normalization, and a unit vector t with it. *)
Theorem two_view_pose : forall (f : mat3 -> vec3) (norm : bool) (f1 f2 : R) (c1 c2 : pose) (i : two_view), aa_canonical f ->
  let j := two_view_from_cameras f norm f1 c1 f2 c2 i in
  tv_focal1 j = f1 /\ tv_focal2 j = f2 /\ tv_matches j = tv_matches i /\
  (norm = true -> p_pos c1 <> p_pos c2 -> norm3 (tv_position j) = 1) /\
  forall X, exists s, (norm = false -> s = 1) /\ (p_pos c1 <> p_pos c2 -> 0 < s) /\
    mapply (rot_of_aa (p_aa c2)) (vsub X (p_pos c2)) =
      mapply (rot_of_aa (tv_rotation j)) (vsub (mapply (rot_of_aa (p_aa c1)) (vsub X (p_pos c1))) (vscale s (tv_position j))).
Proof.
  intros f norm f1 f2 c1 c2 i Hf j. split; [done|]. split; [done|]. split; [done|]. split.
  - destruct (two_view_relative f norm f1 c1 f2 c2 i (V3 0 0 0) Hf) as (s & _ & _ & H & _). exact H.
  - intros X. destruct (two_view_relative f norm f1 c1 f2 c2 i X Hf) as (s & H1 & H2 & _ & H3). by exists s.
Qed.
Print Assumptions two_view_pose.

(** SwapCameras is an involution, and gives the relative pose of the cameras in the other order. *)
Theorem swap_cameras_involution : forall i j, swap_cameras i = Ok j -> swap_cameras j = Ok i.
Proof. exact swap_swap. Qed.
Print Assumptions swap_cameras_involution.

Theorem swap_cameras_inverts : forall (f : mat3 -> vec3) (norm : bool) (f1 f2 : R) (c1 c2 : pose) (i : two_view),
  aa_canonical f -> f1 <> 0 -> f2 <> 0 ->
  exists j, swap_cameras (two_view_from_cameras f norm f1 c1 f2 c2 i) = Ok j /\
    let k := two_view_from_cameras f norm f2 c2 f1 c1 i in
    tv_focal1 j = tv_focal1 k /\ tv_focal2 j = tv_focal2 k /\ tv_position j = tv_position k /\
    rot_of_aa (tv_rotation j) = rot_of_aa (tv_rotation k) /\ tv_matches j = tv_matches k.
Proof. intros f norm f1 f2 c1 c2 i. apply two_view_swap. Qed.
Print Assumptions swap_cameras_inverts.

(** A zero focal length aborts SwapCameras. *)
Theorem swap_cameras_zero_focal : forall i, tv_focal1 i = 0 \/ tv_focal2 i = 0 -> swap_cameras i = CheckFail.
Proof.
  intros i H. unfold swap_cameras. destruct (Req_EM_T (tv_focal1 i) 0); [done|].
  destruct (Req_EM_T (tv_focal2 i) 0); [done|tauto].
Qed.
Print Assumptions swap_cameras_zero_focal.

(** Non-vacuity. *)
Example swap_sample : exists j, swap_cameras (TwoView 2 3 (V3 1 0 0) (V3 0 0 0) 7) = Ok j /\
  tv_focal1 j = 3 /\ tv_position j = V3 (-1) 0 0 /\ aa_canonical aa_of_rot.
Proof.
  eexists. split.
  - unfold swap_cameras. cbn [tv_focal1 tv_focal2 tv_position tv_rotation tv_matches].
    destruct (Req_EM_T 2 0); [lra|]. destruct (Req_EM_T 3 0); [lra|]. reflexivity.
  - cbn [tv_focal1 tv_position]. split; [done|]. split; [|apply aa_of_rot_canonical].
    rewrite aa_rotate_matrix, rot_of_aa_zero, mapply_id. unfold vopp, vscale. cbn [x3 y3 z3]. f_equal; ring.
Qed.
