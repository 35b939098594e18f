(** Properties C90-C92: FilterViewPairsFromRelativeTranslation. *)
From stdpp Require Import gmap.
From Coq Require Import Reals Lra.
From Verif Require Import Base ViewGraph_Model ViewGraph_Spec ViewGraph_Proofs Camera_Model Camera_Proofs RotationGraph_Model RotationGraph_Spec
  RotationGraph_Proofs Alignment_Spec Alignment_Proofs TranslationFilter_Model TranslationFilter_Spec TranslationFilter_Proofs TranslationFilter_More.
Open Scope R_scope.

(** * C90: translations that come from positions are all kept *)

(** For every history of the view graph, every choice of axes, every order of iteration of the containers and every
    schedule of the iterations: if there are positions of the views from which all relative translations come, up to
    scale, no edge is removed. *)
Theorem translation_filter_keeps_consistent : forall (oe : order ((N * N) * two_view)) (oo : order (N * N))
    (op : order ((N * N) * R)) (on : order (N * mfas_node)) (ow : order (N * R)) (sched ob : order ((N * N) * R))
    (axes : list vec3) (n : Z) (tol : R) (orientations : gmap N vec3) (ops : list (vg_op two_view)),
  let c := (vg_run vg_empty ops).1 in
  oriented c orientations -> consistent_translations c orientations -> 0 <= tol -> (0 <= n)%Z ->
  exists c', filter_translations oe oo op on ow sched ob axes n tol orientations c = Ok c' /\
    restricted c c' (fun _ _ => True).
Proof.
  intros oe oo op on ow sched ob axes n tol os ops c HO [pos HC] Htol Hn. destruct (vrel_run ops _ _ vrel_empty) as [Hr _]. fold c in Hr.
  destruct (filter_ok oe oo op on ow sched ob axes n tol os c _ Hr HO) as (c' & E & (R1 & R2 & R3) & _). exists c'. split; [done|]. split; [|done].
  intros a b i. rewrite R1. assert (keeps op on ow axes (tol * IZR n) (rotated os (vg_edges c)) a b); [|tauto]. unfold keeps.
  rewrite (Rsum_ext _ (fun _ => 0 * 0)); [|intros axis _; rewrite Rmult_0_l; apply (consistent_gain op on ow _ axis pos)].
  - rewrite (Rsum_scale 0 (fun _ => 0)). rewrite Rmult_0_l. apply Rmult_le_pos; [done|]. by apply IZR_le.
  - by eapply rotated_keys.
  - intros k t Ht. apply (HC k.1 k.2 t). by eapply T_direction.
Qed.
Print Assumptions translation_filter_keeps_consistent.

(** Triangles used in the examples: the views 1, 2 and 3, with orientation 0. *)
Definition shift (x y z : R) : two_view := TwoView 1 1 (V3 x y z) (V3 0 0 0) 50.
Definition triangle (i12 i23 i13 : two_view) : list (vg_op two_view) := [VAddEdge 1 2 i12; VAddEdge 2 3 i23; VAddEdge 3 1 i13]%N.
Definition upright : gmap N vec3 := {[1%N := V3 0 0 0; 2%N := V3 0 0 0; 3%N := V3 0 0 0]}.
Lemma triangle_lookup i12 i23 i13 a b :
  vg_get_edge (vg_run vg_empty (triangle i12 i23 i13)).1 a b =
    if decide (view_id_pair a b = (1, 3)%N) then Some i13 else
    if decide (view_id_pair a b = (2, 3)%N) then Some i23 else
    if decide (view_id_pair a b = (1, 2)%N) then Some i12 else None.
Proof.
  unfold vg_get_edge. change (vg_edges (vg_run vg_empty (triangle i12 i23 i13)).1) with (<[(1, 3)%N := i13]> (<[(2, 3)%N := i23]> (<[(1, 2)%N := i12]> (∅ : gmap (N * N) two_view)))).
  destruct (decide (view_id_pair a b = (1, 3)%N)) as [->|N1]; [done|]. destruct (decide (view_id_pair a b = (2, 3)%N)) as [->|N2]; [done|].
  destruct (decide (view_id_pair a b = (1, 2)%N)) as [->|N3]; [done|]. by rewrite !lookup_insert_ne by congruence.
Qed.
Lemma pair_is a b x y : (x < y)%N -> view_id_pair a b = (x, y) -> (a = x /\ b = y /\ (a < b)%N) \/ (a = y /\ b = x /\ ~ (a < b)%N).
Proof. intros L. unfold view_id_pair. destruct (decide (a < b)%N); intros [= <- <-]; [left|right]; done. Qed.
Lemma triangle_direction i12 i23 i13 a b t : direction (vg_run vg_empty (triangle i12 i23 i13)).1 upright a b t ->
  (a = 1%N /\ b = 2%N /\ t = tv_position i12) \/ (a = 2%N /\ b = 3%N /\ t = tv_position i23) \/ (a = 1%N /\ b = 3%N /\ t = tv_position i13) \/
  (a = 2%N /\ b = 1%N /\ t = vopp (tv_position i12)) \/ (a = 3%N /\ b = 2%N /\ t = vopp (tv_position i23)) \/ (a = 3%N /\ b = 1%N /\ t = vopp (tv_position i13)).
Proof.
  intros (i & o & Hi & Ho & ->). assert (o = V3 0 0 0) as ->.
  { unfold upright in Ho. rewrite !lookup_insert_Some, lookup_singleton_Some in Ho. naive_solver. }
  rewrite rot_of_aa_zero. assert (Hm : mtrans mid = mid) by reflexivity. rewrite Hm, mapply_id. rewrite triangle_lookup in Hi.
  destruct (decide (view_id_pair a b = (1, 3)%N)) as [E|_]; [injection Hi as <-; apply pair_is in E as [(-> & -> & L)|(-> & -> & L)]; [rewrite decide_True by done|rewrite decide_False by done|lia]; tauto|].
  destruct (decide (view_id_pair a b = (2, 3)%N)) as [E|_]; [injection Hi as <-; apply pair_is in E as [(-> & -> & L)|(-> & -> & L)]; [rewrite decide_True by done|rewrite decide_False by done|lia]; tauto|].
  destruct (decide (view_id_pair a b = (1, 2)%N)) as [E|_]; [injection Hi as <-; apply pair_is in E as [(-> & -> & L)|(-> & -> & L)]; [rewrite decide_True by done|rewrite decide_False by done|lia]; tauto|done].
Qed.
Lemma direction_triangle i12 i23 i13 :
  let c := (vg_run vg_empty (triangle i12 i23 i13)).1 in
  direction c upright 1 2 (tv_position i12) /\ direction c upright 2 3 (tv_position i23) /\ direction c upright 3 1 (vopp (tv_position i13)).
Proof.
  cbn zeta. assert (Hm : mtrans mid = mid) by reflexivity. split; [|split]; eexists _, (V3 0 0 0); (split; [rewrite triangle_lookup; reflexivity|]); (split; [reflexivity|]); rewrite rot_of_aa_zero, Hm, mapply_id; reflexivity.
Qed.
Lemma triangle_oriented i12 i23 i13 : oriented (vg_run vg_empty (triangle i12 i23 i13)).1 upright.
Proof.
  intros a b L He. unfold vg_has_edge in He. pose proof (triangle_lookup i12 i23 i13 a b) as Hl. unfold vg_get_edge in Hl. rewrite Hl in He.
  destruct (decide (view_id_pair a b = (1, 3)%N)) as [E|_]; [apply pair_is in E as [(-> & -> & _)|(-> & -> & ?)]; [by eexists|done|lia]|].
  destruct (decide (view_id_pair a b = (2, 3)%N)) as [E|_]; [apply pair_is in E as [(-> & -> & _)|(-> & -> & ?)]; [by eexists|done|lia]|].
  destruct (decide (view_id_pair a b = (1, 2)%N)) as [E|_]; [apply pair_is in E as [(-> & -> & _)|(-> & -> & ?)]; [by eexists|done|lia]|done].
Qed.

(** Non-vacuity: the views 1, 2 and 3 at the origin and on two axes; all three edges stay. *)
Example keeps_consistent_sample : forall axes,
  let c := (vg_run vg_empty (triangle (shift 1 0 0) (shift (-1) 1 0) (shift 0 2 0))).1 in
  exists c', filter_translations ord_rev ord_id ord_rev ord_id ord_rev ord_rev ord_id axes 48 0.08 upright c = Ok c' /\
    vg_get_edge c' 1 2 = Some (shift 1 0 0) /\ vg_get_edge c' 3 2 = Some (shift (-1) 1 0) /\ vg_get_edge c' 1 3 = Some (shift 0 2 0).
Proof.
  intros axes c. destruct (translation_filter_keeps_consistent ord_rev ord_id ord_rev ord_id ord_rev ord_rev ord_id axes 48 0.08 upright (triangle (shift 1 0 0) (shift (-1) 1 0) (shift 0 2 0))) as (c' & E & R1 & _).
  - apply triangle_oriented.
  - exists (fun v => if decide (v = 2%N) then V3 1 0 0 else if decide (v = 3%N) then V3 0 1 0 else V3 0 0 0).
    intros a b t Ht. apply triangle_direction in Ht.
    destruct Ht as [(-> & -> & ->)|[(-> & -> & ->)|[(-> & -> & ->)|[(-> & -> & ->)|[(-> & -> & ->)|(-> & -> & ->)]]]]];
      [exists 1|exists 1|exists 2|exists 1|exists 1|exists 2]; (split; [lra|]); cbv -[Rplus Rmult Rminus Ropp IZR]; f_equal; ring.
  - lra.
  - lia.
  - exists c'. split; [exact E|]. split; [|split]; apply R1; (split; [|done]); rewrite triangle_lookup; reflexivity.
Qed.

(** * C91: which edges are removed *)

(** For every history: the call succeeds exactly when every edge has an orientation of its first view (it aborts
    otherwise).  For every axis there is a strict ranking of the views, and exactly the edges stay whose steps against
    the rankings sum up to at most the tolerance times the number of iterations.  Views and the values on the edges
    that stay do not change, and the schedule of the iterations and the order in which the edges are visited make no
    difference. *)
Theorem translation_filter_exact : forall (op : order ((N * N) * R)) (on : order (N * mfas_node)) (ow : order (N * R))
    (axes : list vec3) (n : Z) (tol : R) (orientations : gmap N vec3) (ops : list (vg_op two_view)),
  let c := (vg_run vg_empty ops).1 in
  (oriented c orientations ->
   exists rank : vec3 -> N -> nat,
     (forall axis a b, vg_has_edge c a b = true -> rank axis a <> rank axis b) /\
     forall (oe : order ((N * N) * two_view)) (oo : order (N * N)) (sched ob : order ((N * N) * R)),
     exists c', filter_translations oe oo op on ow sched ob axes n tol orientations c = Ok c' /\
       restricted c c' (fun a b => exists t, direction c orientations a b t /\
         Rsum (fun axis => penalty (rank axis) axis a b t) axes <= tol * IZR n)) /\
  (~ oriented c orientations -> forall (oe : order ((N * N) * two_view)) (oo : order (N * N)) (sched ob : order ((N * N) * R)),
   filter_translations oe oo op on ow sched ob axes n tol orientations c = CheckFail).
Proof.
  intros op on ow axes n tol os ops c. destruct (vrel_run ops _ _ vrel_empty) as [Hr _]. fold c in Hr. split.
  - intros HO. exists (fun axis => rank_of op on ow (rotated os (vg_edges c)) axis). split.
    + intros axis a b He. destruct (direction_exists c os a b _ Hr HO He) as [t Ht]. by destruct (gain_penalty op on ow c os a b t axis _ Hr Ht) as [_ ?].
    + intros oe oo sched ob. destruct (filter_ok oe oo op on ow sched ob axes n tol os c _ Hr HO) as (c' & E & (R1 & R2 & R3) & _). exists c'. split; [done|]. split; [|done].
      intros a b i. rewrite R1. split; intros [Hi Hk]; (split; [done|]).
      * assert (He : vg_has_edge c a b = true) by (unfold vg_has_edge; unfold vg_get_edge in Hi; by rewrite Hi). destruct (direction_exists c os a b _ Hr HO He) as [t Ht]. exists t. split; [done|].
        unfold keeps in Hk. erewrite Rsum_ext; [exact Hk|]. intros axis _. symmetry. apply (gain_penalty op on ow c os a b t axis _ Hr Ht).
      * destruct Hk as (t & Ht & Hk). unfold keeps. erewrite Rsum_ext; [exact Hk|]. intros axis _. apply (gain_penalty op on ow c os a b t axis _ Hr Ht).
  - intros HO oe oo sched ob. assert (exists k i, vg_edges c !! k = Some i /\ os !! k.1 = None) as (k & i & Hk & Ho).
    { apply Classical_Prop.NNPP. intros NE. apply HO. intros a b L He. unfold vg_has_edge, view_id_pair in He. rewrite decide_True in He by done. destruct (vg_edges c !! (a, b)) as [i|] eqn:Ei; [|done].
      apply not_eq_None_Some. intros Z. apply NE. eauto. }
    unfold filter_translations. by rewrite (rotate_fail oe os (vg_edges c) k i).
Qed.
Print Assumptions translation_filter_exact.

(** With axes of length at most one, an edge stays if its translation is no longer than the tolerance: a tolerance of
    one removes no unit translation. *)
Theorem translation_filter_short : forall (oe : order ((N * N) * two_view)) (oo : order (N * N))
    (op : order ((N * N) * R)) (on : order (N * mfas_node)) (ow : order (N * R)) (sched ob : order ((N * N) * R))
    (axes : list vec3) (tol : R) (orientations : gmap N vec3) (ops : list (vg_op two_view)) (a b : N) (i : two_view),
  let c := (vg_run vg_empty ops).1 in
  oriented c orientations -> Forall (fun axis => dot axis axis <= 1) axes -> 0 <= tol ->
  vg_get_edge c a b = Some i -> dot (tv_position i) (tv_position i) <= tol * tol ->
  exists c', filter_translations oe oo op on ow sched ob axes (Z.of_nat (length axes)) tol orientations c = Ok c' /\
    vg_get_edge c' a b = Some i.
Proof.
  intros oe oo op on ow sched ob axes tol os ops a b i c HO HA Htol Hi Hlen. destruct (vrel_run ops _ _ vrel_empty) as [Hr _]. fold c in Hr.
  destruct (filter_ok oe oo op on ow sched ob axes (Z.of_nat (length axes)) tol os c _ Hr HO) as (c' & E & (R1 & _) & _). exists c'. split; [done|]. apply R1. split; [done|].
  unfold keeps. rewrite <- INR_IZR_INZ, Rmult_comm. apply Rsum_le_const. intros axis Ha. rewrite list.Forall_forall in HA. apply HA in Ha. clear HA.
  assert (He : vg_has_edge c a b = true) by (unfold vg_has_edge; unfold vg_get_edge in Hi; by rewrite Hi).
  destruct (direction_exists c os a b _ Hr HO He) as [t Ht]. destruct (direction_norm c os a b t Ht) as (j & Hj & Hn). assert (j = i) as -> by congruence.
  destruct (direction_T c os a b t _ Hr Ht) as [[L HT]|[L HT]]; unfold view_id_pair.
  - rewrite decide_True by done. eapply Rle_trans; [by apply gain_bound|]. apply abs_dot_le; [done|by rewrite Hn|done].
  - rewrite decide_False by lia. eapply Rle_trans; [by apply gain_bound|]. rewrite dot_vopp_l, Rabs_Ropp. apply abs_dot_le; [done|by rewrite Hn|done].
Qed.
Print Assumptions translation_filter_short.

(** Non-vacuity of both: the triangle below is contradictory, but its translations have length one. *)
Definition round : list (vg_op two_view) := triangle (shift 1 0 0) (shift 1 0 0) (shift (-1) 0 0).
Example translation_filter_short_sample :
  let c := (vg_run vg_empty round).1 in
  exists c', filter_translations ord_rev ord_id ord_rev ord_id ord_rev ord_rev ord_id [V3 1 0 0; V3 0 (-1) 0] 2 1 upright c = Ok c' /\
    vg_get_edge c' 3 1 = Some (shift (-1) 0 0).
Proof.
  apply (translation_filter_short ord_rev ord_id ord_rev ord_id ord_rev ord_rev ord_id [V3 1 0 0; V3 0 (-1) 0] 1 upright round 3 1 (shift (-1) 0 0)).
  - apply triangle_oriented.
  - apply list.Forall_cons. split; [unfold dot; cbn; lra|]. apply list.Forall_cons. split; [unfold dot; cbn; lra|]. apply list.Forall_nil. done.
  - lra.
  - unfold round. rewrite triangle_lookup. reflexivity.
  - unfold dot. cbn. lra.
Qed.
Example translation_filter_abort_sample : forall oe oo op on ow sched ob axes,
  filter_translations oe oo op on ow sched ob axes 48 0.08 {[1%N := V3 0 0 0; 3%N := V3 0 0 0]} (vg_run vg_empty round).1 = CheckFail.
Proof.
  intros. destruct (translation_filter_exact op on ow axes 48 0.08 {[1%N := V3 0 0 0; 3%N := V3 0 0 0]} round) as [_ H]. apply H. intros HO.
  destruct (HO 2%N 3%N) as [o Ho]; [lia| |by vm_compute in Ho]. pose proof (triangle_lookup (shift 1 0 0) (shift 1 0 0) (shift (-1) 0 0) 2 3) as Hl. unfold vg_get_edge in Hl. fold round in Hl. unfold vg_has_edge. rewrite Hl. reflexivity.
Qed.

(** * C92: contradictory cycles lose an edge *)

(** For every history: if the steps of a closed walk all go forward along an axis, or all backward, by more than the
    tolerance times the number of steps, for every axis that is used, an edge of the walk is removed. *)
Theorem translation_filter_breaks_cycle : forall (oe : order ((N * N) * two_view)) (oo : order (N * N))
    (op : order ((N * N) * R)) (on : order (N * mfas_node)) (ow : order (N * R)) (sched ob : order ((N * N) * R))
    (axes : list vec3) (tol : R) (orientations : gmap N vec3) (ops : list (vg_op two_view)) (v : N) (rest : list N),
  let c := (vg_run vg_empty ops).1 in
  let steps := cycle_steps v rest in
  let margin := tol * INR (length steps) in
  oriented c orientations -> axes <> [] -> 0 <= tol ->
  (forall axis, axis ∈ axes -> forward_cycle c orientations axis margin steps \/ forward_cycle c orientations (vopp axis) margin steps) ->
  exists c', filter_translations oe oo op on ow sched ob axes (Z.of_nat (length axes)) tol orientations c = Ok c' /\
    exists a b, (a, b) ∈ steps /\ vg_has_edge c a b = true /\ vg_has_edge c' a b = false.
Proof.
  intros oe oo op on ow sched ob axes tol os ops v rest c steps margin HO NE Htol HF. destruct (vrel_run ops _ _ vrel_empty) as [Hr _]. fold c in Hr.
  destruct (filter_ok oe oo op on ow sched ob axes (Z.of_nat (length axes)) tol os c _ Hr HO) as (c' & E & (R1 & _) & _). exists c'. split; [done|].
  assert (Hm : 0 <= margin) by (apply Rmult_le_pos; [done|apply pos_INR]).
  destruct (pigeonhole op on ow (rotated os (vg_edges c)) axes steps tol NE) as ([a b] & Hab & L).
  { intros axis Ha. apply (forward_gain op on ow _ axis margin v rest); [by eapply rotated_keys|done|]. destruct (HF axis Ha) as [H|H]; [left; by eapply forward_cycle_T|right; by eapply backward_cycle_T]. }
  exists a, b. split; [done|]. split.
  - destruct axes as [|axis axes']; [done|]. assert (HD : exists t, direction c os a b t).
    { destruct (HF axis ltac:(by left)) as [H|H]; unfold forward_cycle in H; rewrite list.Forall_forall in H; destruct (H _ Hab) as (t & Ht & _); eauto. }
    destruct HD as (t & i & o & Hi & _). unfold vg_has_edge. unfold vg_get_edge in Hi. by rewrite Hi.
  - unfold vg_has_edge. destruct (vg_edges c' !! view_id_pair a b) as [i|] eqn:Ei; [|done]. exfalso. fold (vg_get_edge c' a b) in Ei. apply R1 in Ei as [_ Hk]. unfold keeps in Hk. rewrite <- INR_IZR_INZ in Hk. cbn [fst snd] in L. lra.
Qed.
Print Assumptions translation_filter_breaks_cycle.

(** Non-vacuity: from 1 to 2, from 2 to 3 and from 3 back to 1, always by one along the first axis. *)
Example breaks_cycle_sample :
  let c := (vg_run vg_empty round).1 in
  exists c', filter_translations ord_rev ord_id ord_rev ord_id ord_rev ord_rev ord_id [V3 1 0 0; V3 (-1) 0 0] 2 0.08 upright c = Ok c' /\
    exists a b, (a, b) ∈ [(1, 2); (2, 3); (3, 1)]%N /\ vg_has_edge c a b = true /\ vg_has_edge c' a b = false.
Proof.
  apply (translation_filter_breaks_cycle ord_rev ord_id ord_rev ord_id ord_rev ord_rev ord_id [V3 1 0 0; V3 (-1) 0 0] 0.08 upright round 1%N [2; 3]%N); [apply triangle_oriented|done|lra|].
  destruct (direction_triangle (shift 1 0 0) (shift 1 0 0) (shift (-1) 0 0)) as (D1 & D2 & D3). fold round in D1, D2, D3.
  intros axis Ha. apply elem_of_cons in Ha as [->|Ha]; [left|apply elem_of_list_singleton in Ha as ->; right];
    (apply list.Forall_cons; split; [eexists; split; [exact D1|unfold dot, vopp; cbn; lra]|]; apply list.Forall_cons; split; [eexists; split; [exact D2|unfold dot, vopp; cbn; lra]|];
     apply list.Forall_cons; split; [eexists; split; [exact D3|unfold dot, vopp; cbn; lra]|]; apply list.Forall_nil; done).
Qed.
