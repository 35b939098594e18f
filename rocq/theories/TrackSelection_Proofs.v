(** Proofs about the choice of tracks for bundle adjustment. *)
From stdpp Require Import prelude gmap sorting.
From Coq Require Import QArith_base QArith Qcanon Lqa.
From Verif Require Import Base Reconstruction_Model SfmQueries_Model SfmQueries_Spec SfmQueries_Proofs
  TrackSelection_Model TrackSelection_Spec.

(** Rounding towards zero. *)
Lemma Qc_le_Z (y : Qc) (i : Z) : (Q2Qc (i # 1) <= y)%Qc <-> (i * Zpos (Qden y) <= Qnum y)%Z.
Proof.
  unfold Qcle. cbn [this Q2Qc]. rewrite (Qred_correct (i # 1)). unfold Qle. cbn [Qnum Qden]. lia.
Qed.
Lemma Qc_le_Z' (y : Qc) (i : Z) : (y <= Q2Qc (i # 1))%Qc <-> (Qnum y <= i * Zpos (Qden y))%Z.
Proof.
  unfold Qcle. cbn [this Q2Qc]. rewrite (Qred_correct (i # 1)). unfold Qle. cbn [Qnum Qden]. lia.
Qed.
Lemma Qc_lt_Z (y : Qc) (i : Z) : (Q2Qc (i # 1) < y)%Qc <-> (i * Zpos (Qden y) < Qnum y)%Z.
Proof.
  unfold Qclt. cbn [this Q2Qc]. rewrite (Qred_correct (i # 1)). unfold Qlt. cbn [Qnum Qden]. lia.
Qed.
Lemma Qc_lt_Z' (y : Qc) (i : Z) : (y < Q2Qc (i # 1))%Qc <-> (Qnum y < i * Zpos (Qden y))%Z.
Proof.
  unfold Qclt. cbn [this Q2Qc]. rewrite (Qred_correct (i # 1)). unfold Qlt. cbn [Qnum Qden]. lia.
Qed.
Lemma quot_cell n d i : (0 < d)%Z -> Z.quot n d = i <->
  if decide (0 < i)%Z then (i * d <= n)%Z /\ (n < (i + 1) * d)%Z
  else if decide (i < 0)%Z then ((i - 1) * d < n)%Z /\ (n <= i * d)%Z
  else ((-1) * d < n)%Z /\ (n < 1 * d)%Z.
Proof.
  intros Hd. pose proof (Z.quot_rem n d ltac:(lia)) as E.
  assert (Hb : (0 <= n -> 0 <= Z.rem n d < d)%Z) by (intros ?; by apply Z.rem_bound_pos).
  assert (Hb' : (n <= 0 -> - d < Z.rem n d <= 0)%Z).
  { intros Hn. pose proof (Z.rem_bound_pos (- n) d ltac:(lia) Hd) as Hr. rewrite Z.rem_opp_l in Hr by lia. lia. }
  revert E Hb Hb'. generalize (Z.quot n d) (Z.rem n d). intros a b E Hb Hb'.
  assert (Hc : (0 <= n \/ n <= 0)%Z) by lia.
  repeat case_decide; (split; [intros ->|intros [Ha1 Ha2]]); destruct Hc as [Hc|Hc];
    try specialize (Hb Hc); try specialize (Hb' Hc); try nia.
Qed.
Lemma trunc_in_cell (x w : Qc) i : trunc (x / w)%Qc = i <-> in_cell w x i.
Proof.
  unfold in_cell, trunc. cbv zeta. rewrite quot_cell by lia.
  repeat case_decide; by rewrite ?Qc_le_Z, ?Qc_le_Z', ?Qc_lt_Z, ?Qc_lt_Z'.
Qed.

Section proofs.
Context {F C D : Type} (sq_error : view F C -> D -> F -> Qc) (pos : F -> Qc * Qc).
Implicit Types r : recon F C D.

Lemma cell_of_sound size f : size <> 0%Z -> exists c, cell_of pos size f = Ok c /\
  forall c', feature_in_cell pos size f c' <-> c' = c.
Proof.
  intros Hs. unfold cell_of. rewrite decide_False by done. eexists. split; [reflexivity|].
  intros [i j]. unfold feature_in_cell. cbn [fst snd]. rewrite <- !trunc_in_cell.
  assert (E : forall x, (x * (1 / Q2Qc (size # 1)))%Qc = (x / Q2Qc (size # 1))%Qc).
  { intros x. unfold Qcdiv. ring. }
  rewrite !E. split; [intros [-> ->]; done|]. intros [= -> ->]. done.
Qed.

(** Statistics. *)
Lemma error_loop_sound r t T vs : forall sum n,
  (forall u, u ∈ vs -> exists v, rc_views r !! u = Some v /\ is_Some (v_feats v !! t)) ->
  error_loop sq_error r t T vs sum n =
    Ok ((sum + sum_list (filter (view_est r) vs) (error_in sq_error r t T))%Qc, (n + length (filter (view_est r) vs))%nat).
Proof.
  induction vs as [|u vs IH]; intros sum n Hex.
  { cbn. rewrite Nat.add_0_r. do 2 f_equal. ring. }
  destruct (Hex u ltac:(by left)) as (v & Hv & [f Hf]). cbn [error_loop]. rewrite Hv.
  assert (Hex' : forall u, u ∈ vs -> exists v, rc_views r !! u = Some v /\ is_Some (v_feats v !! t)).
  { intros w Hw. apply Hex. by right. }
  rewrite filter_cons. destruct (v_est v) eqn:He.
  - rewrite decide_True by (unfold view_est; rewrite Hv; cbn; by rewrite He).
    rewrite Hf. cbn [or_ub mbind outcome_bind]. rewrite IH by done. unfold sum_list. cbn [foldr length].
    assert (Herr : error_in sq_error r t T u = sq_error v (t_data T) f) by (unfold error_in; by rewrite Hv, Hf).
    rewrite Herr. do 2 f_equal; [ring|lia].
  - rewrite decide_False by (unfold view_est; rewrite Hv; cbn; by rewrite He). by apply IH.
Qed.

Definition stat_of r (threshold : Z) (t : N) (s : statistics) : Prop :=
  exists T, rc_tracks r !! t = Some T /\
    let us := estimated_observers r T in
    s.1 = Z.min (Z.of_nat (size us)) threshold /\
    s.2 = if decide (size us = 0%nat) then None
          else Some (sum_over us (error_in sq_error r t T) / Q2Qc (Z.of_nat (size us) # 1))%Qc.

Lemma track_statistics_sound (o : order N) r t T threshold : consistent r -> rc_tracks r !! t = Some T ->
  exists s, track_statistics sq_error o r t threshold = Ok s /\ stat_of r threshold t s.
Proof.
  intros Hc HT. unfold track_statistics. rewrite HT. cbn [or_ub mbind outcome_bind].
  set (vs := (o : order N) (elements (t_views T))).
  assert (Hvs : vs ≡ₚ elements (t_views T)) by apply ord_perm.
  rewrite error_loop_sound.
  2: { intros u. rewrite Hvs, elem_of_elements. intros Hu. apply Hc. by exists T. }
  cbn [mbind outcome_bind]. rewrite Nat.add_0_l.
  assert (Hobs : filter (view_est r) vs ≡ₚ elements (estimated_observers r T)).
  { apply NoDup_Permutation.
    - apply NoDup_filter. rewrite Hvs. apply NoDup_elements.
    - apply NoDup_elements.
    - intros u. unfold estimated_observers. rewrite elem_of_elements, elem_of_list_filter, elem_of_filter, Hvs, elem_of_elements. done. }
  assert (Hlen : length (filter (view_est r) vs) = size (estimated_observers r T)) by (rewrite Hobs; done).
  assert (Hsum : (0 + sum_list (filter (view_est r) vs) (error_in sq_error r t T))%Qc =
     sum_over (estimated_observers r T) (error_in sq_error r t T)).
  { unfold sum_over. fold (sum_list (elements (estimated_observers r T)) (error_in sq_error r t T)).
    rewrite (sum_list_perm _ _ _ Hobs). ring. }
  rewrite Hsum, Hlen. eexists. split; [reflexivity|]. exists T. done.
Qed.

(** [stats] holds the statistics of the estimated tracks seen by the views in [us]. *)
Definition stats_for r (threshold : Z) (seen : N -> Prop) (stats : gmap N statistics) : Prop :=
  (forall t, is_Some (stats !! t) <-> seen t /\ est_track r t) /\
  (forall t s, stats !! t = Some s -> stat_of r threshold t s).

Lemma stats_for_iff r threshold P Q stats : (forall t, P t <-> Q t) ->
  stats_for r threshold P stats -> stats_for r threshold Q stats.
Proof. intros HPQ [H1 H2]. split; [|done]. intros t. rewrite H1, HPQ. done. Qed.

Lemma stat_track_loop (o : order N) r threshold ts : consistent r -> forall m P, stats_for r threshold P m ->
  exists m', run_steps (stat_track_step sq_error o r threshold) m ts = Ok m' /\
    stats_for r threshold (fun t => P t \/ t ∈ ts) m'.
Proof.
  intros Hc. induction ts as [|t ts IH]; intros m P Hm.
  { exists m. split; [done|]. eapply stats_for_iff; [|exact Hm]. intros t. rewrite elem_of_nil. tauto. }
  cbn [run_steps].
  assert (Hstep : exists m1, stat_track_step sq_error o r threshold m t = Ok m1 /\ stats_for r threshold (fun t' => P t' \/ t' = t) m1).
  { unfold stat_track_step. destruct Hm as [H1 H2]. destruct (m !! t) as [s|] eqn:Hmt.
    - exists m. split; [done|]. split; [|done]. intros t'. rewrite H1. split; [tauto|]. intros [[? | ->] He]; [tauto|].
      apply H1. by rewrite Hmt.
    - destruct (rc_tracks r !! t) as [T|] eqn:HT.
      + destruct (t_est T) eqn:He.
        * destruct (track_statistics_sound o r t T threshold Hc HT) as (s & Hs & Hst). rewrite Hs. cbn [mbind outcome_bind].
          eexists. split; [reflexivity|]. split.
          -- intros t'. destruct (decide (t = t')) as [<- | Hne].
             ++ rewrite lookup_insert. split; [|by intros _]. intros _. split; [by right|]. by exists T.
             ++ rewrite lookup_insert_ne by done. rewrite H1. naive_solver.
          -- intros t' s' [[<- <-] | [Hne Hl]]%lookup_insert_Some; [done|]. by apply H2.
        * exists m. split; [done|]. split; [|done]. intros t'. rewrite H1. split; [tauto|].
          intros [[? | ->] Hest]; [tauto|]. destruct Hest as (T' & HT' & He'). congruence.
      + exists m. split; [done|]. split; [|done]. intros t'. rewrite H1. split; [tauto|].
        intros [[? | ->] Hest]; [tauto|]. destruct Hest as (T' & HT' & He'). congruence. }
  destruct Hstep as (m1 & Hs & Hm1). rewrite Hs. cbn [mbind outcome_bind].
  destruct (IH m1 _ Hm1) as (m' & Hrun & Hm'). exists m'. split; [done|].
  eapply stats_for_iff; [|exact Hm']. intros t'. cbn. rewrite elem_of_cons. tauto.
Qed.

Lemma compute_statistics_sound (o : order N) r (views : gset N) threshold : consistent r ->
  (forall u, u ∈ views -> is_Some (rc_views r !! u)) ->
  exists m, compute_statistics sq_error o r views threshold = Ok m /\
    stats_for r threshold (fun t => exists u, u ∈ views /\ sees r u t) m.
Proof.
  intros Hc Hex. unfold compute_statistics.
  assert (H : forall us m P, (forall u, u ∈ us -> is_Some (rc_views r !! u)) -> stats_for r threshold P m ->
    exists m', run_steps (stat_view_step sq_error o r threshold) m us = Ok m' /\
      stats_for r threshold (fun t => P t \/ exists u, u ∈ us /\ sees r u t) m').
  { induction us as [|u us IH]; intros m P Hus Hm.
    - exists m. split; [done|]. eapply stats_for_iff; [|exact Hm]. intros t. split; [by left|].
      intros [? | (u & []%elem_of_nil & _)]. done.
    - cbn [run_steps]. destruct (Hus u ltac:(by left)) as [v Hv].
      destruct (stat_track_loop o r threshold ((o : order N) (elements (dom (v_feats v)))) Hc m P Hm) as (m1 & H1 & Hm1).
      assert (Hs : stat_view_step sq_error o r threshold m u = Ok m1).
      { unfold stat_view_step. rewrite Hv. exact H1. }
      rewrite Hs. cbn [mbind outcome_bind].
      destruct (IH m1 _ ltac:(intros w Hw; apply Hus; by right) Hm1) as (m' & Hrun & Hm').
      exists m'. split; [done|]. eapply stats_for_iff; [|exact Hm']. intros t. cbn.
      rewrite ord_perm, elem_of_elements, elem_of_dom. split.
      + intros [[? | ?] | (w & Hw & Hsee)]; [by left| |].
        * right. exists u. split; [by left|]. by exists v.
        * right. exists w. split; [by right|done].
      + intros [? | (w & [-> | Hw]%elem_of_cons & Hsee)]; [by left; left| |right; by exists w].
        left. right. destruct Hsee as (v' & Hv' & Hf). by simplify_eq. }
  destruct (H ((o : order N) (elements views)) ∅ (fun _ => False)) as (m & Hrun & Hm).
  - intros u. rewrite ord_perm, elem_of_elements. apply Hex.
  - split; [intros t; rewrite lookup_empty; split; [by intros [? ?]|tauto]|].
    intros t s. by rewrite lookup_empty.
  - exists m. split; [done|]. eapply stats_for_iff; [|exact Hm]. intros t. cbn. split.
    + intros [[] | (u & Hu & Hs)]. rewrite ord_perm, elem_of_elements in Hu. by exists u.
    + intros (u & Hu & Hs). right. exists u. by rewrite ord_perm, elem_of_elements.
Qed.

(** The smallest element. *)
Lemma min_element_in e l : min_element e l = e \/ min_element e l ∈ l.
Proof.
  unfold min_element. revert e. induction l as [|x l IH]; intros e; cbn [foldl]; [by left|].
  destruct (lt_statistics x.2 e.2).
  - destruct (IH x) as [-> | H]; right; [by left|by right].
  - destruct (IH e) as [-> | H]; [by left|right; by right].
Qed.
Definition finite (s : statistics) : Prop := is_Some s.2.
Lemma lt_statistics_spec a b x y : a.2 = Some x -> b.2 = Some y ->
  lt_statistics a b = true <-> ((a.1 < b.1)%Z \/ (a.1 = b.1 /\ (x < y)%Qc)).
Proof.
  intros Ha Hb. unfold lt_statistics, lt_double. rewrite Ha, Hb.
  rewrite orb_true_iff, andb_true_iff, negb_true_iff, !bool_decide_eq_true, bool_decide_eq_false. split.
  - intros [? | [H1 H2]]; [by left|]. destruct (decide (a.1 = b.1)); [by right|]. left. lia.
  - intros [? | [H1 H2]]; [by left|]. right. split; [lia|done].
Qed.
Lemma lt_statistics_trans_neg a b c : finite a -> finite b -> finite c ->
  lt_statistics b a = true -> lt_statistics c a = false -> lt_statistics c b = false.
Proof.
  intros [x Hx] [y Hy] [z Hz] H1 H2. apply not_true_iff_false. intros H3.
  apply not_true_iff_false in H2. destruct H2.
  rewrite (lt_statistics_spec _ _ _ _ Hz Hx). rewrite (lt_statistics_spec _ _ _ _ Hy Hx) in H1.
  rewrite (lt_statistics_spec _ _ _ _ Hz Hy) in H3.
  destruct H1 as [? | [? ?]], H3 as [? | [? ?]]; try (left; lia). right. split; [lia|].
  by eapply Qclt_trans.
Qed.
Lemma lt_statistics_irrefl a : lt_statistics a a = false.
Proof.
  apply not_true_iff_false. unfold lt_statistics, lt_double. rewrite orb_true_iff, andb_true_iff, bool_decide_eq_true.
  intros [? | [_ H]]; [lia|]. destruct a.2; [|done]. apply bool_decide_eq_true in H. by apply Qclt_not_eq in H.
Qed.
Lemma lt_statistics_asym_trans a b c : finite a -> finite b -> finite c ->
  lt_statistics b a = true -> lt_statistics c b = true -> lt_statistics c a = true.
Proof.
  intros [x Hx] [y Hy] [z Hz] H1 H3.
  rewrite (lt_statistics_spec _ _ _ _ Hz Hx). rewrite (lt_statistics_spec _ _ _ _ Hy Hx) in H1.
  rewrite (lt_statistics_spec _ _ _ _ Hz Hy) in H3.
  destruct H1 as [? | [? ?]], H3 as [? | [? ?]]; try (left; lia). right. split; [lia|].
  by eapply Qclt_trans.
Qed.
Lemma min_element_min e l : (forall x, x ∈ e :: l -> finite x.2) ->
  forall x, x ∈ e :: l -> lt_statistics x.2 (min_element e l).2 = false.
Proof.
  unfold min_element. revert e. induction l as [|y l IH]; intros e Hfin x Hx; cbn [foldl].
  { apply elem_of_list_singleton in Hx as ->. apply lt_statistics_irrefl. }
  destruct (lt_statistics y.2 e.2) eqn:Hlt.
  - assert (Hfin' : forall x, x ∈ y :: l -> finite x.2) by (intros z Hz; apply Hfin; by right).
    apply elem_of_cons in Hx as [-> | Hx]; [|by apply IH].
    assert (Hy : lt_statistics y.2 (foldl (fun best e => if lt_statistics e.2 best.2 then e else best) y l).2 = false)
      by (apply IH; [done|by left]).
    apply not_true_iff_false. intros Hbad. apply not_true_iff_false in Hy. apply Hy.
    eapply lt_statistics_asym_trans; [| | |exact Hbad|exact Hlt].
    + apply Hfin'. destruct (min_element_in y l) as [E | E]; unfold min_element in E; [rewrite E; by left|by right].
    + apply Hfin. by left.
    + apply Hfin. right. by left.
  - assert (Hfin' : forall x, x ∈ e :: l -> finite x.2).
    { intros z [-> | Hz]%elem_of_cons; apply Hfin; [by left|right; by right]. }
    apply elem_of_cons in Hx as [-> | Hx]; [apply IH; [done|by left]|].
    apply elem_of_cons in Hx as [-> | Hx]; [|apply IH; [done|by right]].
    assert (He : lt_statistics e.2 (foldl (fun best e => if lt_statistics e.2 best.2 then e else best) e l).2 = false)
      by (apply IH; [done|by left]).
    set (b := foldl _ e l) in *.
    assert (Hb : finite b.2).
    { apply Hfin'. destruct (min_element_in e l) as [E | E]; unfold min_element in E; fold b in E; [rewrite E; by left|by right]. }
    destruct (lt_statistics b.2 e.2) eqn:Hbe.
    + eapply lt_statistics_trans_neg; [| | |exact Hbe|exact Hlt]; [apply Hfin; by left|done|apply Hfin; right; by left].
    + destruct (Hfin e ltac:(by left)) as [qe Hqe]. destruct Hb as [qb Hqb]. destruct (Hfin y ltac:(right; by left)) as [qy Hqy].
      apply not_true_iff_false. apply not_true_iff_false in He, Hbe, Hlt.
      rewrite (lt_statistics_spec _ _ _ _ Hqe Hqb) in He. rewrite (lt_statistics_spec _ _ _ _ Hqb Hqe) in Hbe.
      rewrite (lt_statistics_spec _ _ _ _ Hqy Hqe) in Hlt. rewrite (lt_statistics_spec _ _ _ _ Hqy Hqb).
      assert (e.2.1 = b.2.1) by lia.
      assert (qe = qb).
      { apply Qcle_antisym; apply Qcnot_lt_le; intros ?; [apply Hbe|apply He]; by right. }
      subst qb. intros [? | [? ?]]; apply Hlt; [left; lia|right; split; [lia|done]].
Qed.

(** The grid of a view. *)
Record grid_inv r (size : Z) (stats : gmap N statistics) (v : view F C) (ts : list N)
    (grid : gmap (Z * Z) (list (N * statistics))) : Prop := {
  gi_ne : forall c, grid !! c <> Some [];
  gi_in : forall c l t s, grid !! c = Some l -> (t, s) ∈ l ->
    t ∈ ts /\ est_track r t /\ stats !! t = Some s /\ exists f, v_feats v !! t = Some f /\ cell_of pos size f = Ok c;
  gi_all : forall t f c, t ∈ ts -> est_track r t -> v_feats v !! t = Some f -> cell_of pos size f = Ok c ->
    exists l s, grid !! c = Some l /\ (t, s) ∈ l }.

Lemma grid_loop_sound r size stats v ts : size <> 0%Z ->
  (forall t, t ∈ ts -> is_Some (v_feats v !! t)) -> (forall t, t ∈ ts -> est_track r t -> is_Some (stats !! t)) ->
  forall done grid, grid_inv r size stats v done grid ->
  exists grid', run_steps (grid_step pos r size stats v) grid ts = Ok grid' /\ grid_inv r size stats v (done ++ ts) grid'.
Proof.
  intros Hs. induction ts as [|t ts IH]; intros Hf Hst dn grid Hg.
  { exists grid. rewrite app_nil_r. done. }
  cbn [run_steps].
  assert (Hstep : exists g1, grid_step pos r size stats v grid t = Ok g1 /\ grid_inv r size stats v (dn ++ [t]) g1).
  { unfold grid_step.
    assert (Hskip : ~ est_track r t -> grid_inv r size stats v (dn ++ [t]) grid).
    { intros Hno. destruct Hg as [G1 G2 G3]. split; [done| |].
      - intros c l t' s Hc Hin. destruct (G2 c l t' s Hc Hin) as (A & B). split; [set_solver|done].
      - intros t' f c [Ht | ->%elem_of_list_singleton]%elem_of_app He; [by apply G3|done]. }
    destruct (rc_tracks r !! t) as [T|] eqn:HT.
    2: { exists grid. split; [done|]. apply Hskip. intros (T & HT' & _). congruence. }
    destruct (t_est T) eqn:He.
    2: { exists grid. split; [done|]. apply Hskip. intros (T' & HT' & He'). congruence. }
    destruct (Hf t ltac:(by left)) as [f Hft]. rewrite Hft. cbn [or_ub mbind outcome_bind].
    assert (Het : est_track r t) by (by exists T).
    destruct (Hst t ltac:(by left) Het) as [s Hstt]. rewrite Hstt. cbn [or_die mbind outcome_bind].
    destruct (cell_of_sound size f Hs) as (c & Hc & _). rewrite Hc. cbn [mbind outcome_bind].
    eexists. split; [reflexivity|]. destruct Hg as [G1 G2 G3]. split.
    - intros c'. destruct (decide (c = c')) as [<- | Hne].
      + rewrite lookup_insert. intros [= E]. by destruct (default [] (grid !! c)).
      + rewrite lookup_insert_ne by done. apply G1.
    - intros c' l t' s' [[<- <-] | [Hne Hl]]%lookup_insert_Some Hin.
      + apply elem_of_app in Hin as [Hin | Hin%elem_of_list_singleton].
        * destruct (grid !! c) as [l|] eqn:Hgc; [|by apply elem_of_nil in Hin].
          destruct (G2 c l t' s' Hgc Hin) as (A & B). split; [set_solver|done].
        * injection Hin as -> ->. split; [set_solver|]. split; [done|]. split; [done|]. by exists f.
      + destruct (G2 c' l t' s' Hl Hin) as (A & B). split; [set_solver|done].
    - intros t' f' c' Ht He' Hf' Hc'. apply elem_of_app in Ht as [Ht | ->%elem_of_list_singleton].
      + destruct (G3 t' f' c' Ht He' Hf' Hc') as (l & s' & Hl & Hin).
        destruct (decide (c = c')) as [<- | Hne].
        * rewrite lookup_insert. rewrite Hl. eexists _, s'. split; [reflexivity|]. apply elem_of_app. by left.
        * rewrite lookup_insert_ne by done. by exists l, s'.
      + assert (f' = f) as -> by congruence. assert (c' = c) as -> by congruence.
        rewrite lookup_insert. eexists _, s. split; [reflexivity|]. apply elem_of_app. right. by apply elem_of_list_singleton. }
  destruct Hstep as (g1 & H1 & Hg1). rewrite H1. cbn [mbind outcome_bind].
  destruct (IH ltac:(intros ? ?; apply Hf; by right) ltac:(intros ? ?; apply Hst; by right) _ _ Hg1) as (g' & Hrun & Hg').
  exists g'. split; [done|]. by rewrite <- app_assoc in Hg'.
Qed.

Lemma cell_fold_sound grid cs : forall chosen : gset N,
  (forall t, t ∈ foldl (cell_step grid) chosen cs <->
     t ∈ chosen \/ exists c e l, c ∈ cs /\ grid !! c = Some (e :: l) /\ t = (min_element e l).1).
Proof.
  induction cs as [|c cs IH]; intros chosen t; cbn [foldl].
  { split; [by left|]. intros [? | (c & e & l & []%elem_of_nil & _)]. done. }
  rewrite IH. unfold cell_step at 1. destruct (grid !! c) as [[|e l]|] eqn:Hc.
  - split; [|intros [? | (c' & e' & l' & [-> | Hin]%elem_of_cons & Hl & Ht)]].
    + intros [? | (c' & e' & l' & Hin & Hl & Ht)]; [by left|right; exists c', e', l'; split; [by right|done]].
    + by left.
    + congruence.
    + right. by exists c', e', l'.
  - rewrite elem_of_union, elem_of_singleton.
    split; [|intros [? | (c' & e' & l' & [-> | Hin]%elem_of_cons & Hl & Ht)]].
    + intros [[-> | ?] | (c' & e' & l' & Hin & Hl & Ht)].
      * right. exists c, e, l. split; [by left|done].
      * by left.
      * right; exists c', e', l'; split; [by right|done].
    + left. by right.
    + left. left. congruence.
    + right. by exists c', e', l'.
  - split; [|intros [? | (c' & e' & l' & [-> | Hin]%elem_of_cons & Hl & Ht)]].
    + intros [? | (c' & e' & l' & Hin & Hl & Ht)]; [by left|right; exists c', e', l'; split; [by right|done]].
    + by left.
    + congruence.
    + right. by exists c', e', l'.
Qed.

(** What the first pass does for one view. *)
Definition cells_done r (size threshold : Z) (u : N) (S : gset N) : Prop :=
  forall t f c, est_track r t -> feature_is r u t f -> feature_in_cell pos size f c ->
  exists t' f', t' ∈ S /\ est_track r t' /\ feature_is r u t' f' /\ feature_in_cell pos size f' c /\
    (est_view r u -> forall t'' f'', est_track r t'' -> feature_is r u t'' f'' -> feature_in_cell pos size f'' c ->
     ~ shorter sq_error r threshold t'' t').

Lemma stat_of_finite r threshold u t s : consistent r -> stat_of r threshold t s -> sees r u t -> est_view r u -> finite s.
Proof.
  intros Hc (T & HT & _ & H2) Hsee Hest. unfold finite. rewrite H2. rewrite decide_False; [by eexists|].
  intros H0. apply size_empty_inv in H0. apply (not_elem_of_empty (C := gset N) u).
  rewrite <- (leibniz_equiv _ _ H0). unfold estimated_observers. apply elem_of_filter. split.
  - by apply view_est_iff in Hest.
  - destruct (proj2 (Hc u t) Hsee) as (T' & HT' & Hin). by simplify_eq.
Qed.

Lemma shorter_lt r threshold t t' s s' : stat_of r threshold t s -> stat_of r threshold t' s' -> finite s -> finite s' ->
  shorter sq_error r threshold t t' -> lt_statistics s s' = true.
Proof.
  intros (T & HT & H1 & H2) (T' & HT' & H1' & H2') [x Hx] [y Hy] (n & n' & e & e' & Hl & Hl' & He & He' & Hor).
  rewrite (lt_statistics_spec _ _ _ _ Hx Hy).
  destruct Hl as (T1 & E1 & ->). destruct Hl' as (T2 & E2 & ->). destruct He as (T3 & E3 & He). destruct He' as (T4 & E4 & He').
  assert (T1 = T) as -> by congruence. assert (T2 = T') as -> by congruence.
  assert (T3 = T) as -> by congruence. assert (T4 = T') as -> by congruence.
  rewrite H1, H1'. cbv zeta in He, He'. rewrite H2 in Hx. rewrite H2' in Hy.
  destruct (decide (size (estimated_observers r T) = 0%nat)); [done|].
  destruct (decide (size (estimated_observers r T') = 0%nat)); [done|].
  injection Hx as Hx. injection Hy as Hy. rewrite <- Hx, <- Hy, <- He, <- He'. tauto.
Qed.

Lemma select_cells_sound (o : order N) (oc : order (Z * Z)) r u v size threshold stats (seen : N -> Prop) st chosen :
  consistent r -> rc_views r !! u = Some v -> default size st <> 0%Z -> stats_for r threshold seen stats ->
  (forall t, sees r u t -> seen t) ->
  exists chosen', select_cells pos o oc r v size stats st chosen = Ok (Some (default size st), chosen') /\
    chosen ⊆ chosen' /\ (forall t, t ∈ chosen' -> t ∈ chosen \/ (sees r u t /\ est_track r t)) /\
    cells_done r (default size st) threshold u chosen'.
Proof.
  intros Hc Hv Hs [Hst1 Hst2] Hseen. unfold select_cells.
  set (used := default size st) in *. set (ts := (o : order N) (elements (dom (v_feats v)))).
  assert (Hts : forall t, t ∈ ts <-> is_Some (v_feats v !! t)).
  { intros t. unfold ts. by rewrite ord_perm, elem_of_elements, elem_of_dom. }
  assert (Hsee : forall t, sees r u t <-> is_Some (v_feats v !! t)).
  { intros t. unfold sees. rewrite Hv. split; [intros (? & [= <-] & ?); done|]. intros ?. by exists v. }
  destruct (grid_loop_sound r used stats v ts Hs) with (done := @nil N) (grid := (∅ : gmap (Z * Z) (list (N * statistics))))
    as (grid & Hrun & [G1 G2 G3]).
  - intros t. by rewrite Hts.
  - intros t Ht He. apply Hst1. split; [|done]. apply Hseen. by rewrite Hsee, <- Hts.
  - split.
    + intros c. by rewrite lookup_empty.
    + intros c l t s. by rewrite lookup_empty.
    + intros t f c []%elem_of_nil.
  - rewrite Hrun. cbn [mbind outcome_bind]. eexists. split; [reflexivity|]. rewrite app_nil_l in G2, G3.
    set (cs := oc (elements (dom grid))).
    assert (Hcs : forall c, c ∈ cs <-> is_Some (grid !! c)).
    { intros c. unfold cs. by rewrite ord_perm, elem_of_elements, elem_of_dom. }
    pose proof (cell_fold_sound grid cs chosen) as HF.
    assert (Hmin : forall e l, (min_element e l) ∈ e :: l).
    { intros e l. destruct (min_element_in e l) as [E|E]; [rewrite E; by left|by right]. }
    split; [intros t Ht; apply HF; by left|]. split.
    + intros t [? | (c & e & l & Hin & Hgc & ->)]%HF; [by left|]. right.
      destruct (min_element e l) as [t s] eqn:Em. pose proof (Hmin e l) as Hm. rewrite Em in Hm.
      destruct (G2 c (e :: l) t s Hgc Hm) as (A & B & _). cbn. rewrite Hsee, <- Hts. done.
    + intros t f c He (v' & Hv' & Hf) Hcell. assert (v' = v) as -> by congruence.
      destruct (cell_of_sound used f Hs) as (c0 & Hc0 & Huniq). apply Huniq in Hcell as ->.
      destruct (G3 t f c0) as (l & s & Hl & Hin); [by apply Hts; eexists|done..|].
      destruct l as [|e l]; [by apply elem_of_nil in Hin|].
      destruct (min_element e l) as [t' s'] eqn:Em. pose proof (Hmin e l) as Hm. rewrite Em in Hm.
      destruct (G2 c0 (e :: l) t' s' Hl Hm) as (A & B & Cs & f' & Hf' & Hcell').
      exists t', f'. split.
      { apply HF. right. exists c0, e, l. rewrite Em. split; [apply Hcs; by eexists|]. done. }
      split; [done|]. split; [by exists v|]. split.
      { destruct (cell_of_sound used f' Hs) as (c1 & Hc1 & Huniq'). apply Huniq'. congruence. }
      intros Hest t'' f'' He'' (v'' & Hv'' & Hf'') Hcell'' Hsh. assert (v'' = v) as -> by congruence.
      destruct (cell_of_sound used f'' Hs) as (c2 & Hc2 & Huniq''). apply Huniq'' in Hcell'' as ->.
      destruct (G3 t'' f'' c2) as (l2 & s'' & Hl2 & Hin''); [by apply Hts; eexists|done..|].
      assert (l2 = e :: l) as -> by congruence.
      assert (Hfin : forall x, x ∈ e :: l -> finite x.2).
      { intros [t0 s0] Hx. destruct (G2 c2 (e :: l) t0 s0 Hl Hx) as (A0 & B0 & C0 & _). cbn.
        eapply stat_of_finite; [done|apply Hst2, C0| |done]. by apply Hsee, Hts. }
      pose proof (min_element_min e l Hfin (t'', s'') Hin'') as Hlt. rewrite Em in Hlt. cbn in Hlt.
      destruct (G2 c2 (e :: l) t'' s'' Hl Hin'') as (_ & _ & C'' & _).
      rewrite (shorter_lt r threshold t'' t' s'' s') in Hlt; [done|by apply Hst2|by apply Hst2| | |done].
      * exact (Hfin (t'', s'') Hin'').
      * exact (Hfin (t', s') Hm).
Qed.

Lemma cells_done_mono r size threshold u S S' : S ⊆ S' -> cells_done r size threshold u S -> cells_done r size threshold u S'.
Proof.
  intros Hsub H t f c He Hf Hcell. destruct (H t f c He Hf Hcell) as (t' & f' & H1 & H2). exists t', f'. split; [by apply Hsub|done].
Qed.

Lemma cells_loop_sound (o : order N) (oc : order (Z * Z)) r size threshold stats (seen : N -> Prop) us :
  consistent r -> stats_for r threshold seen stats ->
  (forall u, u ∈ us -> is_Some (rc_views r !! u)) -> (forall u t, u ∈ us -> sees r u t -> seen t) ->
  forall st chosen, default size st <> 0%Z ->
  exists chosen', run_steps (cells_view_step pos o oc r size stats) (st, chosen) us =
      Ok (if decide (us = []) then st else Some (default size st), chosen') /\
    chosen ⊆ chosen' /\
    (forall t, t ∈ chosen' -> t ∈ chosen \/ (exists u, u ∈ us /\ sees r u t /\ est_track r t)) /\
    (forall u, u ∈ us -> cells_done r (default size st) threshold u chosen').
Proof.
  intros Hc Hst. induction us as [|u us IH]; intros Hex Hseen st chosen Hs.
  { exists chosen. split; [done|]. split; [done|]. split; [by left|]. by intros u ?%elem_of_nil. }
  cbn [run_steps]. destruct (Hex u ltac:(by left)) as [v Hv].
  destruct (select_cells_sound o oc r u v size threshold stats seen st chosen Hc Hv Hs Hst) as (c1 & H1 & Hsub & Hnew & Hcells).
  { intros t. apply Hseen. by left. }
  assert (Hstep : cells_view_step pos o oc r size stats (st, chosen) u = Ok (Some (default size st), c1)).
  { unfold cells_view_step. rewrite Hv. exact H1. }
  rewrite Hstep. cbn [mbind outcome_bind].
  destruct (IH ltac:(intros w Hw; apply Hex; by right) ltac:(intros w t Hw; apply Hseen; by right) (Some (default size st)) c1 Hs)
    as (c2 & H2 & Hsub2 & Hnew2 & Hcells2).
  exists c2. split.
  { rewrite H2. rewrite (decide_False (P := u :: us = [])) by done. by destruct (decide (us = [])). }
  split; [by etrans|]. split.
  - intros t [Ht | (w & Hw & Ht)]%Hnew2.
    + apply Hnew in Ht as [? | [? ?]]; [by left|]. right. exists u. split; [by left|done].
    + right. exists w. split; [by right|done].
  - intros w [-> | Hw]%elem_of_cons; [by eapply cells_done_mono|by apply Hcells2].
Qed.

(** The second pass. *)
Definition est_of r (v : view F C) : gset N := filter (track_est r) (dom (v_feats v)).

Lemma top_loop_sound r stats minimum (chosen : gset N) ts : forall opt est cand,
  (forall t, t ∈ ts -> est_track r t -> is_Some (stats !! t)) ->
  exists res, top_loop r stats minimum chosen ts opt est cand = Ok res /\
    match res with
    | None => (minimum <= Z.of_nat (opt + length (filter (fun t => t ∈ chosen) (filter (track_est r) ts))))%Z /\
              (0 < length (filter (fun t => t ∈ chosen) (filter (track_est r) ts)))%nat
    | Some (opt', est', cand') =>
        opt' = (opt + length (filter (fun t => t ∈ chosen) (filter (track_est r) ts)))%nat /\
        est' = (est + length (filter (track_est r) ts))%nat /\
        cand' = cand ++ filter (fun t => t ∉ chosen) (filter (track_est r) ts) /\
        (opt' = opt \/ (Z.of_nat opt' < minimum)%Z)
    end.
Proof.
  induction ts as [|t ts IH]; intros opt est cand Hst.
  { eexists. split; [reflexivity|]. cbn. rewrite !Nat.add_0_r, app_nil_r. repeat split; try done. by left. }
  cbn [top_loop].
  assert (Hst' : forall t, t ∈ ts -> est_track r t -> is_Some (stats !! t)) by (intros w Hw; apply Hst; by right).
  rewrite (filter_cons (track_est r)).
  destruct (rc_tracks r !! t) as [T|] eqn:HT.
  2: { rewrite (decide_False (P := track_est r t)) by (unfold track_est; rewrite HT; done). by apply IH. }
  destruct (t_est T) eqn:He.
  2: { rewrite (decide_False (P := track_est r t)) by (unfold track_est; rewrite HT; cbn; by rewrite He). by apply IH. }
  assert (Ht : track_est r t) by (unfold track_est; rewrite HT; cbn; by rewrite He).
  rewrite (decide_True (P := track_est r t)) by done. rewrite !filter_cons.
  destruct (decide (t ∈ chosen)) as [Hin|Hin].
  - rewrite (decide_False (P := ¬ t ∈ chosen)) by tauto. destruct (decide (minimum <= Z.of_nat (S opt))%Z) as [Hm|Hm].
    + eexists. split; [reflexivity|]. cbn [length]. lia.
    + destruct (IH (S opt) (S est) cand Hst') as (res & Hres & Hm'). exists res. split; [done|].
      destruct res as [[[opt' est'] cand']|]; cbn [length].
      * destruct Hm' as (-> & -> & -> & Hor). split; [lia|]. split; [lia|]. split; [done|]. right. lia.
      * lia.
  - rewrite (decide_True (P := ¬ t ∈ chosen)) by done.
    destruct (Hst t ltac:(by left) ltac:(by apply track_est_iff)) as [s Hs]. rewrite Hs. cbn [or_die mbind outcome_bind].
    destruct (IH opt (S est) (cand ++ [t]) Hst') as (res & Hres & Hm'). exists res. split; [done|].
    destruct res as [[[opt' est'] cand']|]; cbn [length].
    + destruct Hm' as (-> & -> & -> & Hor). split; [done|]. split; [lia|]. split; [by rewrite <- app_assoc|done].
    + done.
Qed.

Definition sel (S X : gset N) : gset N := filter (fun t => t ∈ S) X.
Definition unsel (S X : gset N) : gset N := filter (fun t => t ∉ S) X.
Lemma split_size (X S : gset N) :
  (size (sel S X) + size (unsel S X))%nat = size X.
Proof.
  rewrite <- size_union by (unfold sel, unsel; set_solver). f_equal. apply leibniz_equiv. intros x. rewrite elem_of_union. unfold sel, unsel. rewrite !elem_of_filter.
  destruct (decide (x ∈ S)); tauto.
Qed.

Lemma select_top_sound (o : order N) r u v stats threshold (seen : N -> Prop) minimum (chosen : gset N) :
  rc_views r !! u = Some v -> stats_for r threshold seen stats -> (forall t, sees r u t -> seen t) ->
  ((0 <= minimum)%Z \/ forall t, sees r u t -> est_track r t -> exists t', t' ∈ chosen /\ sees r u t' /\ est_track r t') ->
  exists X : gset N, select_top o r stats v minimum chosen = Ok (X ∪ chosen) /\ X ## chosen /\
    (forall t, t ∈ X -> sees r u t /\ est_track r t) /\
    (forall t t', t ∈ X -> t' ∉ X ∪ chosen -> sees r u t' -> est_track r t' -> (t < t')%N) /\
    (forall n, (Z.of_nat n <= minimum)%Z -> sees_many r n u -> covered r (X ∪ chosen) u n) /\
    (X <> ∅ -> (Z.of_nat (size (sel (X ∪ chosen) (est_of r v))) <= minimum)%Z).
Proof.
  intros Hv [Hst1 Hst2] Hseen Hmin. unfold select_top.
  set (ts := (o : order N) (elements (dom (v_feats v)))).
  assert (Hsee : forall t, sees r u t <-> is_Some (v_feats v !! t)).
  { intros t. unfold sees. rewrite Hv. split; [intros (? & [= <-] & ?); done|]. intros ?. by exists v. }
  assert (Hts : ts ≡ₚ elements (dom (v_feats v))) by apply ord_perm.
  assert (HE : filter (track_est r) ts ≡ₚ elements (est_of r v)).
  { apply NoDup_Permutation; [apply NoDup_filter; rewrite Hts; apply NoDup_elements|apply NoDup_elements|].
    intros t. unfold est_of. by rewrite elem_of_elements, elem_of_filter, elem_of_list_filter, Hts, elem_of_elements. }
  assert (Hest : forall t, t ∈ est_of r v <-> sees r u t /\ est_track r t).
  { intros t. unfold est_of. rewrite elem_of_filter, track_est_iff, elem_of_dom, Hsee. tauto. }
  assert (HcovI : forall S n, (n <= size (sel S (est_of r v)))%nat -> covered r S u n).
  { intros S n Hn. exists (sel S (est_of r v)). split; [done|]. intros t [H1 H2%Hest]%elem_of_filter. done. }
  assert (Hmany : forall n, sees_many r n u -> (n <= size (est_of r v))%nat).
  { intros n (X & Hn & HX). etrans; [exact Hn|]. apply subseteq_size. intros t Ht. by apply Hest, HX. }
  assert (HlS : length (filter (fun t => t ∈ chosen) (filter (track_est r) ts)) = size (sel chosen (est_of r v)))
    by (by apply elements_size_filter).
  assert (HlE : length (filter (track_est r) ts) = size (est_of r v)) by (rewrite HE; done).
  destruct (top_loop_sound r stats minimum chosen ts 0 0 []) as (res & Hres & Hm).
  { intros t Ht He. apply Hst1. split; [|done]. apply Hseen, Hsee. by rewrite Hts, elem_of_elements, elem_of_dom in Ht. }
  rewrite Hres. cbn [mbind outcome_bind].
  assert (Hnone : forall n : nat, (n <= size (sel chosen (est_of r v)))%nat -> covered r (∅ ∪ chosen) u n).
  { intros n Hn. rewrite union_empty_l_L. by apply HcovI. }
  destruct res as [[[opt est] cand]|].
  - destruct Hm as (Ho & Hes & Hca & Hor). rewrite Nat.add_0_l in Ho, Hes. rewrite HlS in Ho. rewrite HlE in Hes.
    rewrite app_nil_l in Hca. pose proof (split_size (est_of r v) chosen) as Hsp.
    destruct (decide (opt = est)) as [Heq|Hneq].
    + exists ∅. rewrite union_empty_l_L. split; [done|]. split; [set_solver|]. split; [set_solver|]. split; [set_solver|].
      split; [|done]. intros n _ Hn%Hmany. apply HcovI. rewrite ?union_empty_l_L. lia.
    + assert (HNc : NoDup cand).
      { rewrite Hca. do 2 apply NoDup_filter. rewrite Hts. apply NoDup_elements. }
      assert (Hcand : forall t, t ∈ cand <-> t ∈ est_of r v /\ t ∉ chosen).
      { intros t. rewrite Hca, elem_of_list_filter, HE, elem_of_elements. tauto. }
      assert (Hlc : length cand = size (unsel chosen (est_of r v))).
      { rewrite Hca. by apply elements_size_filter. }
      set (needed := Z.min (minimum - Z.of_nat opt) (Z.of_nat est - Z.of_nat opt)).
      assert (Hneed : (0 <= needed)%Z).
      { unfold needed. destruct Hor as [H0 | ?]; [|lia]. destruct Hmin as [? | Hmin]; [lia|].
        exfalso. assert (est_of r v <> ∅) as Hne. { intros E. rewrite E, size_empty in Hes. lia. }
        apply set_choose_L in Hne as [t Ht]. apply Hest in Ht as [Ht1 Ht2]. destruct (Hmin t Ht1 Ht2) as (t' & H1 & H2).
        assert (t' ∈ sel chosen (est_of r v)) as Hin by (apply elem_of_filter; split; [done|by apply Hest]).
        assert (size (sel chosen (est_of r v)) <> 0%nat) as Hsz.
        { intros E%size_empty_inv. rewrite (leibniz_equiv _ _ E) in Hin. by apply elem_of_empty in Hin. }
        lia. }
      rewrite decide_False by lia.
      set (k := Z.to_nat needed). set (sorted := merge_sort N.le cand).
      assert (HPs : sorted ≡ₚ cand) by apply merge_sort_Permutation.
      assert (HSs : StronglySorted N.le sorted) by (apply StronglySorted_merge_sort; apply _).
      assert (HNs : NoDup sorted) by (by rewrite HPs).
      assert (Hk : (k <= length sorted)%nat). { rewrite HPs, Hlc. unfold k, needed. lia. }
      exists (list_to_set (take k sorted)). split; [done|].
      assert (HX : forall t, t ∈ (list_to_set (take k sorted) : gset N) -> t ∈ est_of r v /\ t ∉ chosen).
      { intros t Ht%elem_of_list_to_set. apply Hcand. rewrite <- HPs. apply elem_of_take in Ht as (i & Hi & _). by eapply elem_of_list_lookup_2. }
      assert (HszX : size (list_to_set (take k sorted) : gset N) = k).
      { rewrite size_list_to_set; [rewrite take_length; lia|]. rewrite <- (take_drop k sorted) in HNs. by apply NoDup_app in HNs as (? & _). }
      assert (Hunion : sel (list_to_set (take k sorted) ∪ chosen) (est_of r v) =
        list_to_set (take k sorted) ∪ sel chosen (est_of r v)).
      { apply leibniz_equiv. intros t. rewrite !elem_of_union. unfold sel. rewrite !elem_of_filter, elem_of_union.
        split; [tauto|]. intros [Ht | [? ?]]; [|tauto]. destruct (HX t Ht). tauto. }
      assert (Hszu : size (sel (list_to_set (take k sorted) ∪ chosen) (est_of r v)) = (k + opt)%nat).
      { rewrite Hunion, size_union, HszX; [lia|]. intros t Ht1 [Ht2 _]%elem_of_filter. by destruct (HX t Ht1). }
      split; [|split; [|split; [|split]]].
      * intros t Ht1 Ht2. by destruct (HX t Ht1).
      * intros t Ht. by apply Hest, HX.
      * intros t t' Ht Ht' H1 H2.
        assert (Hd : t' ∈ drop k sorted).
        { assert (t' ∈ sorted) as Hin.
          { rewrite HPs. apply Hcand. split; [by apply Hest|]. intros Hch. apply Ht'. apply elem_of_union. by right. }
          rewrite <- (take_drop k sorted) in Hin. apply elem_of_app in Hin as [Hin | Hin]; [|done].
          destruct Ht'. apply elem_of_union. left. by apply elem_of_list_to_set. }
        apply elem_of_list_to_set in Ht. rewrite <- (take_drop k sorted) in HSs.
        assert (t <= t')%N. { eapply elem_of_StronglySorted_app; eauto. }
        assert (t <> t'). { intros ->. apply Ht'. apply elem_of_union. left. by apply elem_of_list_to_set. }
        lia.
      * intros n Hn1 Hn2%Hmany. apply HcovI. rewrite Hszu. unfold k, needed. lia.
      * intros Hne. rewrite Hszu. assert (k <> 0%nat). { intros E. apply Hne. rewrite E. done. }
        unfold k, needed in *. lia.
  - exists ∅. rewrite union_empty_l_L. split; [done|]. split; [set_solver|]. split; [set_solver|]. split; [set_solver|].
    split; [|done]. intros n Hn1 Hn2. apply HcovI. rewrite ?union_empty_l_L. lia.
Qed.

Lemma covered_mono r S S' u n : S ⊆ S' -> covered r S u n -> covered r S' u n.
Proof. intros Hsub (X & Hn & HX). exists X. split; [done|]. intros t Ht. destruct (HX t Ht). split; [by apply Hsub|done]. Qed.

Lemma top_loop_views (o : order N) r stats threshold (seen : N -> Prop) minimum us :
  stats_for r threshold seen stats ->
  (forall u, u ∈ us -> is_Some (rc_views r !! u)) -> (forall u t, u ∈ us -> sees r u t -> seen t) ->
  forall chosen : gset N,
  (forall u t, u ∈ us -> sees r u t -> est_track r t -> exists t', t' ∈ chosen /\ sees r u t' /\ est_track r t') ->
  exists chosen', run_steps (top_view_step o r stats minimum) chosen us = Ok chosen' /\ chosen ⊆ chosen' /\
    (forall t, t ∈ chosen' -> t ∈ chosen \/ (exists u, u ∈ us /\ sees r u t /\ est_track r t)) /\
    (forall u n, u ∈ us -> (Z.of_nat n <= minimum)%Z -> sees_many r n u -> covered r chosen' u n).
Proof.
  intros Hst. induction us as [|u us IH]; intros Hex Hseen chosen Hin.
  { exists chosen. split; [done|]. split; [done|]. split; [by left|]. by intros u n ?%elem_of_nil. }
  cbn [run_steps]. destruct (Hex u ltac:(by left)) as [v Hv].
  destruct (select_top_sound o r u v stats threshold seen minimum chosen Hv Hst) as (X & H1 & Hdis & HX & _ & Hcov & _).
  { intros t. apply Hseen. by left. }
  { right. intros t. apply Hin. by left. }
  assert (Hstep : top_view_step o r stats minimum chosen u = Ok (X ∪ chosen)).
  { unfold top_view_step. rewrite Hv. exact H1. }
  rewrite Hstep. cbn [mbind outcome_bind].
  destruct (IH ltac:(intros w Hw; apply Hex; by right) ltac:(intros w t Hw; apply Hseen; by right) (X ∪ chosen))
    as (c2 & H2 & Hsub2 & Hnew2 & Hcov2).
  { intros w t Hw Hs He. destruct (Hin w t ltac:(by right) Hs He) as (t' & ? & ?). exists t'. split; [set_solver|done]. }
  exists c2. split; [done|]. split; [set_solver|]. split.
  - intros t [Ht | (w & Hw & Ht)]%Hnew2.
    + apply elem_of_union in Ht as [Ht | ?]; [|by left]. right. exists u. split; [by left|]. by apply HX.
    + right. exists w. split; [by right|done].
  - intros w n [-> | Hw]%elem_of_cons Hn Hm; [|by apply Hcov2]. eapply covered_mono; [exact Hsub2|]. by apply Hcov.
Qed.

Lemma select_tracks_in_lemma (o : order N) (oc : order (Z * Z)) r (views : gset N) threshold size minimum st (chosen : gset N) :
  consistent r -> (forall u, u ∈ views -> is_Some (rc_views r !! u)) -> default size st <> 0%Z ->
  exists chosen', select_tracks_in sq_error pos o oc r views threshold size minimum st chosen =
      Ok (if decide (views = ∅) then st else Some (default size st), chosen') /\
    chosen ⊆ chosen' /\
    (forall t, t ∈ chosen' -> t ∈ chosen \/ (est_track r t /\ exists u, u ∈ views /\ sees r u t)) /\
    (forall u n, u ∈ views -> (Z.of_nat n <= minimum)%Z -> sees_many r n u -> covered r chosen' u n) /\
    (forall u, u ∈ views -> cells_done r (default size st) threshold u chosen').
Proof.
  intros Hc Hex Hs. unfold select_tracks_in.
  destruct (compute_statistics_sound o r views threshold Hc Hex) as (stats & H1 & Hst). rewrite H1. cbn [mbind outcome_bind].
  set (us := (o : order N) (elements views)).
  assert (Hus : forall u, u ∈ us <-> u ∈ views) by (intros u; unfold us; by rewrite ord_perm, elem_of_elements).
  destruct (cells_loop_sound o oc r size threshold stats _ us Hc Hst) with (st := st) (chosen := chosen)
    as (c1 & H2 & Hsub1 & Hnew1 & Hcells); [intros u; rewrite Hus; apply Hex|intros u t Hu Ht; exists u; by rewrite <- Hus|done|].
  rewrite H2. cbn [mbind outcome_bind].
  destruct (top_loop_views o r stats threshold _ minimum us Hst) with (chosen := c1) as (c2 & H3 & Hsub2 & Hnew2 & Hcov).
  { intros u; rewrite Hus; apply Hex. }
  { intros u t Hu Ht; exists u; by rewrite <- Hus. }
  { intros u t Hu Hsee He. pose proof Hsee as (v & Hv & f & Hf).
    destruct (cell_of_sound (default size st) f Hs) as (c & Hcell & Huniq).
    destruct (Hcells u Hu t f c He) as (t' & f' & H4 & H5 & (v' & Hv' & Hf') & _); [by exists v|by apply Huniq|].
    exists t'. split; [done|]. split; [|done]. exists v'. split; [done|]. by eexists. }
  rewrite H3. cbn [mbind outcome_bind]. exists c2. split.
  { do 2 f_equal. assert (us = [] <-> views = ∅) as E.
    { split; intros E.
      - apply leibniz_equiv, elem_of_equiv_empty. intros u Hu%Hus. rewrite E in Hu. by apply elem_of_nil in Hu.
      - destruct us as [|u us']; [done|]. assert (u ∈ views) as Hu by (apply Hus; by left). rewrite E in Hu. by apply elem_of_empty in Hu. }
    destruct (decide (us = [])), (decide (views = ∅)); tauto. }
  split; [by etrans|]. split; [|split].
  - intros t [Ht | (u & Hu & Hse & Hes)]%Hnew2; [|right; split; [done|]; exists u; by rewrite <- Hus].
    apply Hnew1 in Ht as [? | (u & Hu & Hse & Hes)]; [by left|]. right. split; [done|]; exists u; by rewrite <- Hus.
  - intros u n Hu. apply Hcov. by apply Hus.
  - intros u Hu. eapply cells_done_mono; [exact Hsub2|]. apply Hcells. by apply Hus.
Qed.
End proofs.
