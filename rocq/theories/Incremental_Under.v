(** Proofs about incremental reconstruction: the removal of underconstrained views and tracks. *)
From stdpp Require Import gmap sorting.
From Coq Require Import Reals QArith_base Qcanon.
From Verif Require Import Base Reconstruction_Model ViewGraph_Model SfmQueries_Model SfmQueries_Spec SfmQueries_Proofs SfmQueries_Props
  BundleAdjust_Model BundleAdjust_Spec Incremental_Model Incremental_Spec Incremental_Proofs.

Section under.
Context {F P W : Type}.
Notation recon := (recon F (list R) (list R)).
Notation heap := (gmap N intrinsics).
Notation inc := (inc F).
Implicit Types (r : recon) (h : heap) (s : inc).

Lemma flags_trans r r1 r2 us ts us' ts' : flags_cleared r r1 us ts -> flags_cleared r1 r2 us' ts' -> flags_cleared r r2 (us ∪ us') (ts ∪ ts').
Proof.
  intros (E1 & V1 & T1) (E2 & V2 & T2). split; [rewrite E2, E1; done|]. split.
  - intros u. rewrite V2, V1, <- option_fmap_compose. apply option_fmap_ext. intros v. cbn. f_equal.
    destruct (decide (u ∈ us')), (decide (u ∈ us)), (decide (u ∈ us ∪ us')); try done; set_solver.
  - intros t. rewrite T2, T1, <- option_fmap_compose. apply option_fmap_ext. intros T. cbn. f_equal.
    destruct (decide (t ∈ ts')), (decide (t ∈ ts)), (decide (t ∈ ts ∪ ts')); try done; set_solver.
Qed.
Lemma round_cleared r r1 r2 us ts : views_cleared r r1 us -> tracks_cleared r1 r2 ts -> flags_cleared r r2 us ts.
Proof.
  intros [E1 V1] [E2 T2]. assert (EV : rc_views r2 = rc_views r1) by (by rewrite E2). assert (ET : rc_tracks r1 = rc_tracks r) by (by rewrite E1).
  split; [|split].
  - rewrite E2 at 1. rewrite E1 at 1. rewrite EV. done.
  - intros u. rewrite EV. apply V1.
  - intros t. rewrite T2, ET. done.
Qed.
Lemma flags_scene r h r' us ts : flags_cleared r r' us ts -> scene r h r' h.
Proof.
  intros (E & V & T). unfold scene. rewrite E at 1 2 3 4 5 6 7. do 7 (split; [done|]). split; [|split].
  - intros u. rewrite V. destruct (rc_views r !! u); by constructor.
  - intros t. rewrite T. destruct (rc_tracks r !! t); by constructor.
  - intros p. apply heap_refl.
Qed.
Lemma flags_est r r' us ts u : flags_cleared r r' us ts -> est_view r' u <-> est_view r u /\ u ∉ us.
Proof.
  intros (E & V & T). unfold est_view. rewrite V. destruct (rc_views r !! u) as [v|]; cbn.
  - split.
    + intros (v' & [= <-] & He). cbn in He. destruct (decide (u ∈ us)); [done|]. split; [by exists v|done].
    + intros ((v' & [= <-] & He) & Hn). eexists. split; [done|]. cbn. by rewrite decide_False.
  - split; [intros (v' & ? & _)|intros ((v' & ? & _) & _)]; done.
Qed.
Lemma flags_est_track r r' us ts t : flags_cleared r r' us ts -> est_track r' t <-> est_track r t /\ t ∉ ts.
Proof.
  intros (E & V & T). unfold est_track. rewrite T. destruct (rc_tracks r !! t) as [v|]; cbn.
  - split.
    + intros (v' & [= <-] & He). cbn in He. destruct (decide (t ∈ ts)); [done|]. split; [by exists v|done].
    + intros ((v' & [= <-] & He) & Hn). eexists. split; [done|]. cbn. by rewrite decide_False.
  - split; [intros (v' & ? & _)|intros ((v' & ? & _) & _)]; done.
Qed.
Lemma flags_sees r r' us ts u t : flags_cleared r r' us ts -> sees r' u t <-> sees r u t.
Proof. intros H. apply (scene_sees r ∅ r' ∅). by eapply flags_scene. Qed.
Lemma views_flags r r' us : views_cleared r r' us -> flags_cleared r r' us ∅.
Proof. intros H. eapply round_cleared; [exact H|]. apply tracks_cleared_empty. Qed.
Lemma tracks_flags r r' ts : tracks_cleared r r' ts -> flags_cleared r r' ∅ ts.
Proof. intros H. eapply round_cleared; [apply views_cleared_empty|done]. Qed.

(** The part that is well constrained stays. *)
Lemma core_kept r r' us ts V T : flags_cleared r r' us ts -> (forall u, u ∈ us -> u ∉ V) -> (forall t, t ∈ ts -> t ∉ T) ->
  well_constrained r V T -> well_constrained r' V T.
Proof.
  intros H Hu Ht [A B]. split.
  - intros u Hin. destruct (A u Hin) as (A1 & X & A2 & A3). split; [apply (flags_est _ _ _ _ u H); split; [done|]; intros K; by apply (Hu u K)|].
    exists X. split; [done|]. intros t Htx. destruct (A3 t Htx) as [A4 A5]. split; [done|]. by apply (flags_sees _ _ _ _ u t H).
  - intros t Hin. destruct (B t Hin) as (A1 & X & A2 & A3). split; [apply (flags_est_track _ _ _ _ t H); split; [done|]; intros K; by apply (Ht t K)|].
    exists X. split; [done|]. intros u Hux. destruct (A3 u Hux) as [A4 A5]. split; [done|]. by apply (flags_sees _ _ _ _ u t H).
Qed.

Lemma loop_ok (E : nat -> env F P W) : forall fuel tick r, consistent r -> (size (estimated_views ord_id r) < fuel)%nat ->
  exists r' k tick' us ts, underconstrained_loop E fuel tick r = Ok (r', k, tick') /\ flags_cleared r r' us ts /\
    (forall u, u ∈ us -> est_view r u) /\ (forall t, t ∈ ts -> est_track r t) /\ (forall t, est_track r' t -> seen_by r' 2 t) /\
    (k <> 0%nat \/ ts = ∅ -> forall u, est_view r' u -> sees_many r' 3 u) /\
    (forall V T, well_constrained r V T -> well_constrained r' V T) /\ (k <> 0%nat -> us <> ∅).
Proof.
  induction fuel as [|fuel IH]; intros tick r Hc Hf; [lia|]. cbn [underconstrained_loop].
  destruct (underconstrained_views_exact F (list R) (list R) (e_order (E tick)) r Hc) as (r1 & us1 & -> & Hv & Hus). cbn [mbind outcome_bind].
  assert (Hc1 : consistent r1). { eapply (scene_consistent r ∅ r1 ∅); [by eapply views_cleared_scene|done]. }
  destruct (underconstrained_tracks_exact F (list R) (list R) (e_order (E tick)) r1 Hc1) as (r2 & ts1 & -> & Ht & Hts). cbn [mbind outcome_bind].
  assert (Hc2 : consistent r2). { eapply (scene_consistent r1 ∅ r2 ∅); [by eapply tracks_cleared_scene|done]. }
  pose proof (round_cleared _ _ _ _ _ Hv Ht) as H12. pose proof (views_flags _ _ _ Hv) as Hv'. pose proof (tracks_flags _ _ _ Ht) as Ht'.
  assert (T1 : forall t, est_track r1 t <-> est_track r t). { intros t. rewrite (flags_est_track _ _ _ _ t Hv'). set_solver. }
  assert (V2 : forall u, est_view r2 u <-> est_view r1 u). { intros u. rewrite (flags_est _ _ _ _ u Ht'). set_solver. }
  assert (S1 : forall u t, sees r1 u t <-> sees r u t) by (intros; by apply (flags_sees _ _ _ _ u t Hv')).
  assert (S2 : forall u t, sees r2 u t <-> sees r1 u t) by (intros; by apply (flags_sees _ _ _ _ u t Ht')).
  assert (Hcore : forall V T, well_constrained r V T -> well_constrained r2 V T).
  { intros V T HVT. assert (H1 : well_constrained r1 V T).
    { apply (core_kept _ _ _ _ V T Hv'); [|set_solver|done]. intros u Hu HV. apply Hus in Hu as [_ Hu]. apply Hu. destruct HVT as [A B]. destruct (A u HV) as (_ & X & HX & K).
      exists X. split; [done|]. intros t Htx. destruct (K t Htx) as [K1 K2]. split; [done|]. by apply B. }
    apply (core_kept _ _ _ _ V T Ht'); [set_solver| |done]. intros t Ht0 HT. apply Hts in Ht0 as [_ Ht0]. apply Ht0. destruct H1 as [A B]. destruct (B t HT) as (_ & X & HX & K).
    exists X. split; [done|]. intros u Hux. destruct (K u Hux) as [K1 K2]. split; [done|]. by apply A. }
  assert (Hseen : forall t, est_track r2 t -> seen_by r2 2 t).
  { intros t He. apply (flags_est_track _ _ _ _ t Ht') in He as [He Hn]. destruct (Classical_Prop.classic (seen_by r1 2 t)) as [(X & HX & K)|K].
    - exists X. split; [done|]. intros u Hu. destruct (K u Hu) as [K1 K2]. split; [by apply S2|by apply V2].
    - exfalso. apply Hn. by apply Hts. }
  assert (Hmany : ts1 = ∅ -> forall u, est_view r2 u -> sees_many r2 3 u).
  { intros -> u He. apply V2 in He. apply (flags_est _ _ _ _ u Hv') in He as [He Hn]. destruct (Classical_Prop.classic (sees_many r 3 u)) as [(X & HX & K)|K].
    - exists X. split; [done|]. intros t Htx. destruct (K t Htx) as [K1 K2]. split; [by apply S2, S1|]. apply (flags_est_track _ _ _ _ t Ht'). split; [by apply T1|set_solver].
    - exfalso. apply Hn. by apply Hus. }
  destruct (decide _) as [[Hk Hm]|Hd].
  - destruct (IH (S tick) r2 Hc2) as (r' & k & tick' & us & ts & -> & H2 & A1 & A2 & A3 & A4 & A5 & A6).
    { enough (size (estimated_views ord_id r2) < size (estimated_views ord_id r))%nat by lia. apply subset_size. split.
      - intros u Hu. apply estimated_views_lemma in Hu. apply estimated_views_lemma. by apply (flags_est _ _ _ _ u H12) in Hu as [? _].
      - apply size_pos_elem_of in Hk as [u Hu] || (assert (us1 <> ∅) as [u Hu]%set_choose_L by (intros ->; by rewrite size_empty in Hk)).
        intros K. assert (He : u ∈ estimated_views ord_id r2). { apply K, estimated_views_lemma. by apply Hus. }
        apply estimated_views_lemma, (flags_est _ _ _ _ u H12) in He as [_ He]. done. }
    exists r', k, tick', (us1 ∪ us), (ts1 ∪ ts). split; [done|]. split; [by eapply flags_trans|]. split; [|split; [|split; [done|split; [|split; [auto|]]]]].
    + intros u [Hu|Hu]%elem_of_union; [by apply Hus|]. by apply A1, (flags_est _ _ _ _ u H12) in Hu as [? _].
    + intros t [Hu|Hu]%elem_of_union; [by apply Hts, proj1, T1 in Hu|]. by apply A2, (flags_est_track _ _ _ _ t H12) in Hu as [? _].
    + intros [K|K]; [apply A4; by left|]. exfalso. apply Hm. apply empty_union_L in K as [-> _]. apply size_empty.
    + intros _ K. apply empty_union_L in K as [-> _]. by rewrite size_empty in Hk.
  - exists r2, (size us1), (S tick), us1, ts1. split; [done|]. split; [done|]. split; [intros u Hu; by apply Hus|]. split; [intros t Hu; by apply Hts, proj1, T1 in Hu|].
    split; [done|]. split; [|split; [done|]].
    + intros [K|K]; [|by apply Hmany]. apply Hmany. destruct (decide (ts1 = ∅)) as [|Nt]; [done|]. exfalso. apply Hd. split; [done|]. intros Z. apply Nt. by apply leibniz_equiv, size_empty_inv.
    + intros K ->. by rewrite size_empty in K.
Qed.

Lemma erase_first_ok u l : u ∈ l -> exists l', erase_first u l = Some l'.
Proof. induction l as [|x l IH]; intros H; [by apply elem_of_nil in H|]. cbn. destruct (decide (x = u)) as [->|N]; [eauto|]. apply elem_of_cons in H as [->|H]; [done|]. destruct (IH H) as [l' ->]. cbn. eauto. Qed.
Lemma erase_first_nodup u l l' : NoDup l -> erase_first u l = Some l' -> l' = filter (.≠ u) l /\ length l = S (length l') /\ u ∈ l.
Proof.
  revert l'. induction l as [|x l IH]; intros l' Hd He; [done|]. apply NoDup_cons in Hd as [Hx Hd]. cbn in He. rewrite filter_cons. destruct (decide (x = u)) as [->|N].
  - injection He as <-. rewrite decide_False by (intros K; by apply K). split; [|split; [done|by left]].
    clear IH Hd. induction l as [|y l IH]; [done|]. rewrite filter_cons. apply not_elem_of_cons in Hx as [H1 H2]. rewrite decide_True by done. f_equal. by apply IH.
  - destruct (erase_first u l) as [l1|] eqn:E1; [|done]. cbn in He. injection He as <-. destruct (IH l1 Hd eq_refl) as (-> & A & B). rewrite decide_True by done. split; [done|]. split; [cbn; by rewrite A|by right].
Qed.

(** The views of [l] that are in the reconstruction, not estimated and not in [U]: they are put back. *)
Definition put_back r (l : list N) (U : gset N) (u : N) : Prop := u ∈ l /\ u ∉ U /\ exists v, rc_views r !! u = Some v /\ v_est v = false.

Lemma filter_all (U : gset N) (L : list N) : (forall u, u ∈ L -> u ∉ U) -> filter (fun u => u ∉ U) L = L.
Proof. induction L as [|x L IH]; intros H; [done|]. rewrite filter_cons, decide_True by (apply H; by left). f_equal. apply IH. intros u Hu. apply H. by right. Qed.
Lemma filter_twice (U : gset N) x (L : list N) : x ∈ U -> filter (fun u => u ∉ U) (filter (.≠ x) L) = filter (fun u => u ∉ U) L.
Proof.
  intros Hx. induction L as [|y L IH]; [done|]. rewrite !filter_cons. destruct (decide (y ≠ x)) as [N|N].
  - rewrite filter_cons. by rewrite IH.
  - destruct (decide (y = x)) as [->|]; [|done]. destruct (decide (x ∉ U)); [done|]. done.
Qed.

Lemma relocalize_cases r l : forall U L n, NoDup L -> (forall u, u ∈ L -> u ∉ U) ->
  (exists U' L', run_steps (relocalize_step r) (U, L, n) l = Ok (U', L', (n - (Z.of_nat (length L) - Z.of_nat (length L')))%Z) /\
    (forall u, u ∈ U' <-> u ∈ U \/ put_back r l U u) /\ (forall u, put_back r l U u -> u ∈ L) /\ L' = filter (fun u => u ∉ U') L) \/
  (run_steps (relocalize_step r) (U, L, n) l = UB /\ exists u, put_back r l U u /\ u ∉ L).
Proof.
  induction l as [|x l IH]; intros U L n DL Hd.
  { left. exists U, L. cbn [run_steps]. split; [f_equal; f_equal; lia|]. split; [|split; [|symmetry; by apply filter_all]].
    - intros u. split; [auto|]. intros [?|(K & _)]; [done|]. by apply elem_of_nil in K.
    - intros u (K & _). by apply elem_of_nil in K. }
  cbn [run_steps]. remember (relocalize_step r (U, L, n) x) as st eqn:Est. unfold relocalize_step in Est.
  assert (Hskip : ~ put_back r (x :: l) U x -> forall u, put_back r (x :: l) U u <-> put_back r l U u).
  { intros Hn u. unfold put_back. split; [|intros (A & B); split; [by right|done]]. intros (A & B & C). apply elem_of_cons in A as [->|A]; [|done]. exfalso. apply Hn. split; [by left|done]. }
  assert (Hgo : ~ put_back r (x :: l) U x -> 
    (exists U' L', run_steps (relocalize_step r) (U, L, n) l = Ok (U', L', (n - (Z.of_nat (length L) - Z.of_nat (length L')))%Z) /\
      (forall u, u ∈ U' <-> u ∈ U \/ put_back r (x :: l) U u) /\ (forall u, put_back r (x :: l) U u -> u ∈ L) /\ L' = filter (fun u => u ∉ U') L) \/
    (run_steps (relocalize_step r) (U, L, n) l = UB /\ exists u, put_back r (x :: l) U u /\ u ∉ L)).
  { intros Hn. destruct (IH U L n DL Hd) as [(U' & L' & A & B & C & D)|(A & u & B & C)].
    - left. exists U', L'. split; [done|]. split; [intros u; by rewrite B, (Hskip Hn u)|]. split; [|done]. intros u Hu. by apply C, (Hskip Hn u).
    - right. split; [done|]. exists u. split; [|done]. by apply (Hskip Hn u). }
  destruct (rc_views r !! x) as [v|] eqn:Hv; [|subst st; cbn [mbind outcome_bind]; apply Hgo; intros (_ & _ & v & ? & _); congruence].
  destruct (v_est v || bool_decide (x ∈ U)) eqn:Eb.
  { subst st. cbn [mbind outcome_bind]. apply Hgo. intros (_ & K & v' & Hv' & He). assert (v' = v) as -> by congruence. rewrite He in Eb. cbn in Eb. by apply bool_decide_eq_true in Eb. }
  apply orb_false_iff in Eb as [He Hx]. apply bool_decide_eq_false in Hx. assert (Hpx : put_back r (x :: l) U x) by (split; [by left|]; split; [done|]; by exists v).
  destruct (erase_first x L) as [L1|] eqn:EL.
  2:{ right. subst st. cbn [or_ub mbind outcome_bind]. split; [done|]. exists x. split; [done|]. intros K. destruct (erase_first_ok x L K). congruence. }
  subst st. cbn [or_ub mbind outcome_bind]. destruct (erase_first_nodup x L L1 DL EL) as (HL1 & Hlen & HxL).
  assert (Hpb : forall u, put_back r l ({[x]} ∪ U) u <-> put_back r (x :: l) U u /\ u <> x).
  { intros u. unfold put_back. rewrite elem_of_cons, elem_of_union, elem_of_singleton. split.
    - intros (A & B & C). split; [split; [by right|]; split; [|done]|]; intros K; apply B; auto.
    - intros ((A & B & C) & D). split; [destruct A; done|]. split; [|done]. intros [K|K]; done. }
  assert (HinL1 : forall u, u ∈ L1 <-> u ∈ L /\ u <> x). { intros u. rewrite HL1, elem_of_list_filter. tauto. }
  destruct (IH ({[x]} ∪ U) L1 (n - 1)%Z) as [(U' & L' & A & B & C & D)|(A & u & B & C)].
  - rewrite HL1. by apply NoDup_filter.
  - intros u Hu. apply HinL1 in Hu as [Hu Hn]. rewrite elem_of_union, elem_of_singleton. intros [K|K]; [done|]. by apply (Hd u).
  - left. exists U', L'. split; [rewrite A; f_equal; f_equal; lia|]. split; [|split].
    + intros u. rewrite B, Hpb, elem_of_union, elem_of_singleton. split.
      * intros [[->|K]|[K _]]; [by right|by left|by right].
      * intros [K|K]; [left; by right|]. destruct (decide (u = x)) as [->|N]; [left; by left|by right].
    + intros u Hu. destruct (decide (u = x)) as [->|N]; [done|]. apply HinL1. apply C. by apply Hpb.
    + rewrite D, HL1. apply filter_twice. apply B. left. set_solver.
  - right. split; [done|]. exists u. apply Hpb in B as [B N]. split; [done|]. intros K. apply C. by apply HinL1.
Qed.

(** What is kept of the other members. *)
Lemma set_underconstrained_cases (E : nat -> env F P W) (graph : view_graph two_view) s : consistent (n_recon s) -> NoDup (n_reconstructed s) ->
  (forall u, u ∈ n_reconstructed s -> u ∉ n_unlocalized s) ->
  exists r' us ts, flags_cleared (n_recon s) r' us ts /\
    (forall u, u ∈ us -> est_view (n_recon s) u) /\ (forall t, t ∈ ts -> est_track (n_recon s) t) /\ (forall t, est_track r' t -> seen_by r' 2 t) /\
    (ts = ∅ -> forall u, est_view r' u -> sees_many r' 3 u) /\
    (forall V T, well_constrained (n_recon s) V T -> well_constrained r' V T) /\
    let back u := u ∈ vg_view_ids graph /\ u ∉ n_unlocalized s /\ exists v, rc_views r' !! u = Some v /\ v_est v = false in
    ((exists s', set_underconstrained E graph s = Ok s' /\ n_recon s' = r' /\ n_heap s' = n_heap s /\ n_grid s' = n_grid s /\
       n_optimized s' = (n_optimized s - (Z.of_nat (length (n_reconstructed s)) - Z.of_nat (length (n_reconstructed s'))))%Z /\
       n_reconstructed s' = filter (fun u => u ∉ n_unlocalized s') (n_reconstructed s) /\
       ((n_unlocalized s' = n_unlocalized s /\ n_reconstructed s' = n_reconstructed s) \/
        (us <> ∅ /\ (forall u, est_view r' u -> sees_many r' 3 u) /\ (forall u, u ∈ n_unlocalized s' <-> u ∈ n_unlocalized s \/ back u) /\ (forall u, back u -> u ∈ n_reconstructed s))))
     \/ (set_underconstrained E graph s = UB /\ us <> ∅ /\ exists u, back u /\ u ∉ n_reconstructed s)).
Proof.
  intros Hc Hd Hu. unfold set_underconstrained.
  destruct (loop_ok E (S (size (dom (rc_views (n_recon s))))) (n_tick s) (n_recon s) Hc) as (r' & k & tick' & us & ts & -> & Hf & A1 & A2 & A3 & A4 & A5 & A6).
  { apply le_n_S. apply subseteq_size. intros u Hin. apply estimated_views_lemma in Hin as (v & Hv & _). apply elem_of_dom. by exists v. }
  exists r', us, ts. split; [done|]. split; [done|]. split; [done|]. split; [done|]. split; [intros K; apply A4; by right|]. split; [done|]. cbn [mbind outcome_bind].
  destruct (decide (0 < k)%nat) as [Hk|Hk].
  - destruct (relocalize_cases r' (e_order (E tick') (elements (vg_view_ids graph))) (n_unlocalized s) (n_reconstructed s) (n_optimized s) Hd Hu) as [(U' & L' & B & C & D & D')|(B & u & C & D)].
    + left. cbn [n_unlocalized n_reconstructed n_optimized]. rewrite B. cbn [mbind outcome_bind]. eexists. split; [done|]. cbn [n_recon n_heap n_grid n_optimized n_unlocalized n_reconstructed with_views].
      split; [done|]. split; [done|]. split; [done|]. split; [done|]. split; [done|]. right. split; [apply A6; lia|]. split; [apply A4; lia|].
      unfold put_back in C, D. setoid_rewrite ord_perm in C. setoid_rewrite ord_perm in D. setoid_rewrite elem_of_elements in C. setoid_rewrite elem_of_elements in D. split; done.
    + right. cbn [n_unlocalized n_reconstructed n_optimized]. rewrite B. cbn [mbind outcome_bind]. split; [done|]. split; [apply A6; lia|]. exists u. split; [|done].
      unfold put_back in C. rewrite ord_perm, elem_of_elements in C. done.
  - left. eexists. split; [done|]. cbn [n_recon n_heap n_grid n_optimized n_unlocalized n_reconstructed]. split; [done|]. split; [done|]. split; [done|]. split; [lia|]. split; [symmetry; by apply filter_all|]. by left.
Qed.
End under.
