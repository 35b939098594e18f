(** Proofs about queries and changes of the estimated flags. *)
From stdpp Require Import prelude gmap strings sorting.
From Coq Require Import QArith_base Qcanon.
From Verif Require Import Base Reconstruction_Model Reconstruction_Props SfmQueries_Model SfmQueries_Spec.

(** Intersection of sorted lists. *)
Lemma set_intersection_cons a l1 b l2 :
  set_intersection (a :: l1) (b :: l2) =
    if decide (a < b)%N then set_intersection l1 (b :: l2)
    else if decide (b < a)%N then set_intersection (a :: l1) l2
    else a :: set_intersection l1 l2.
Proof. reflexivity. Qed.
Lemma set_intersection_nil_r l : set_intersection l [] = [].
Proof. by destruct l. Qed.

Lemma set_intersection_sound l1 : forall l2, StronglySorted N.lt l1 -> StronglySorted N.lt l2 ->
  StronglySorted N.lt (set_intersection l1 l2) /\ forall t, t ∈ set_intersection l1 l2 <-> t ∈ l1 /\ t ∈ l2.
Proof.
  induction l1 as [|a l1 IH1]; intros l2 H1 H2.
  { replace (set_intersection [] l2) with (@nil N) by (destruct l2; done). split; [constructor|]. set_solver. }
  induction l2 as [|b l2 IH2].
  { rewrite set_intersection_nil_r. split; [constructor|]. set_solver. }
  rewrite set_intersection_cons.
  pose proof H1 as H1'. pose proof H2 as H2'.
  apply StronglySorted_inv in H1' as [S1 A1]. apply StronglySorted_inv in H2' as [S2 A2].
  rewrite list.Forall_forall in A1, A2.
  destruct (decide (a < b)%N) as [Hab|Hab].
  - destruct (IH1 (b :: l2) S1 H2) as [HS HE]. split; [done|]. intros t. rewrite HE.
    split; [set_solver|]. intros [[-> | Ht]%elem_of_cons Ht2]; [|done].
    apply elem_of_cons in Ht2 as [-> | Ht2]; [lia|]. specialize (A2 _ Ht2). lia.
  - destruct (decide (b < a)%N) as [Hba|Hba].
    + destruct (IH2 S2) as [HS HE]. split; [done|]. intros t. rewrite HE.
      split; [set_solver|]. intros [Ht [-> | Ht2]%elem_of_cons]; [|done].
      apply elem_of_cons in Ht as [-> | Ht]; [lia|]. specialize (A1 _ Ht). lia.
    + assert (a = b) as <- by lia. destruct (IH1 l2 S1 S2) as [HS HE]. split.
      * constructor; [done|]. apply list.Forall_forall. intros t Ht%HE. apply A1. tauto.
      * intros t. rewrite !elem_of_cons, HE. naive_solver.
Qed.

(** A loop that clears flags, one key at a time. *)
Lemma flag_loop {A S : Type} (ins : gmap N A -> S) (upd : A -> A) (bad : N -> A -> bool)
    (step : S * nat -> N -> outcome (S * nat)) (m0 : gmap N A) :
  (forall m n k a, m0 !! k = Some a -> m !! k = Some a ->
     step (ins m, n) k = Ok (if bad k a then (ins (alter upd k m), Datatypes.S n) else (ins m, n))) ->
  forall ks m n, NoDup ks -> (forall k, k ∈ ks -> is_Some (m0 !! k) /\ m !! k = m0 !! k) ->
  exists m', run_steps step (ins m, n) ks =
    Ok (ins m', (n + length (filter (fun k => (bad k <$> m0 !! k) = Some true) ks))%nat) /\
    forall k, m' !! k = if decide (k ∈ ks) then (fun a => if bad k a then upd a else a) <$> m !! k else m !! k.
Proof.
  intros Hstep. induction ks as [|k ks IH]; intros m n HN Hks.
  { exists m. cbn [run_steps]. rewrite Nat.add_0_r. split; [done|]. intros k. rewrite decide_False; [done|set_solver]. }
  apply NoDup_cons in HN as [Hk HN]. destruct (Hks k ltac:(set_solver)) as [[a Ha] Hm].
  rewrite Ha in Hm. cbn [run_steps]. rewrite (Hstep m n k a Ha Hm). cbn [mbind outcome_bind].
  rewrite filter_cons.
  destruct (bad k a) eqn:Hb.
  - rewrite decide_True by (rewrite Ha; cbn; by rewrite Hb).
    destruct (IH (alter upd k m) (Datatypes.S n) HN) as (m' & Hrun & Hm').
    { intros k' Hk'. rewrite lookup_alter_ne by set_solver. apply Hks. set_solver. }
    exists m'. rewrite Hrun. split. { do 2 f_equal. cbn. lia. }
    intros k'. rewrite Hm'. destruct (decide (k' = k)) as [-> | Hne].
    + rewrite decide_False, decide_True by set_solver. rewrite lookup_alter, Hm. cbn. by rewrite Hb.
    + rewrite lookup_alter_ne by done.
      destruct (decide (k' ∈ ks)); [rewrite decide_True by set_solver|rewrite decide_False by set_solver]; done.
  - rewrite decide_False by (rewrite Ha; cbn; rewrite Hb; done).
    destruct (IH m n HN) as (m' & Hrun & Hm').
    { intros k' Hk'. apply Hks. set_solver. }
    exists m'. rewrite Hrun. split; [done|].
    intros k'. rewrite Hm'. destruct (decide (k' = k)) as [-> | Hne].
    + rewrite decide_False, decide_True by set_solver. rewrite Hm. cbn. by rewrite Hb.
    + destruct (decide (k' ∈ ks)); [rewrite decide_True by set_solver|rewrite decide_False by set_solver]; done.
Qed.

Section proofs.
Context {F C D : Type}.
Implicit Types r : recon F C D.

Lemma reachable_consistent_lemma (c0 : C) (d0 : D) (ops : list (rc_op F C D)) r rs :
  (N.of_nat (length ops) < 2 ^ 32)%N -> run_obs (rc_step c0 d0) rc_empty ops = Ok (r, rs) -> consistent r.
Proof. intros Hl Hr u t. exact (incidence_symmetric _ _ _ c0 d0 ops r rs Hl Hr u t). Qed.

(** Common tracks. *)
Lemma sorted_track_ids_sorted o (v : view F C) : StronglySorted N.lt (sorted_track_ids o v).
Proof.
  unfold sorted_track_ids. set (l := o _).
  assert (HN : NoDup (merge_sort N.le l)).
  { rewrite merge_sort_Permutation. unfold l. rewrite ord_perm. apply NoDup_elements. }
  pose proof (StronglySorted_merge_sort N.le l) as HS. revert HN HS. generalize (merge_sort N.le l).
  intros l'. induction l' as [|x l' IH]; intros HN HS; [constructor|].
  apply NoDup_cons in HN as [Hx HN]. apply StronglySorted_inv in HS as [HS HA].
  constructor; [by apply IH|]. rewrite list.Forall_forall in HA |- *. intros y Hy.
  specialize (HA y Hy). assert (x <> y) by (intros ->; done). lia.
Qed.
Lemma elem_of_sorted_track_ids o (v : view F C) t : t ∈ sorted_track_ids o v <-> is_Some (v_feats v !! t).
Proof. unfold sorted_track_ids. by rewrite merge_sort_Permutation, ord_perm, elem_of_elements, elem_of_dom. Qed.

Lemma common_loop_sound o r us : forall common, StronglySorted N.lt common ->
  (forall u, u ∈ us -> is_Some (rc_views r !! u)) ->
  exists l, common_loop o r common us = Ok l /\ StronglySorted N.lt l /\
    forall t, t ∈ l <-> t ∈ common /\ forall u, u ∈ us -> sees r u t.
Proof.
  induction us as [|u us IH]; intros common HS Hex.
  { exists common. split; [done|]. split; [done|]. intros t. split; [|tauto]. intros Ht. split; [done|]. set_solver. }
  cbn [common_loop]. destruct (decide (common = [])) as [-> | Hne].
  { exists []. split; [done|]. split; [done|]. intros t. split; [set_solver|]. intros [[]%elem_of_nil _]. }
  destruct (Hex u ltac:(set_solver)) as [v Hv]. rewrite Hv. cbn [or_die mbind outcome_bind].
  destruct (set_intersection_sound common (sorted_track_ids o v) HS (sorted_track_ids_sorted o v)) as [HS' HE].
  destruct (IH _ HS' ltac:(set_solver)) as (l & Hl & HSl & HEl).
  exists l. split; [done|]. split; [done|]. intros t. rewrite HEl, HE, elem_of_sorted_track_ids.
  split.
  - intros [[H1 H2] H3]. split; [done|]. intros u' [-> | Hu']%elem_of_cons; [|by apply H3]. by exists v.
  - intros [H1 H2]. destruct (H2 u ltac:(set_solver)) as (v' & Hv' & Hf). rewrite Hv in Hv'. injection Hv' as <-.
    repeat split; try done. intros u' Hu'. apply H2. set_solver.
Qed.

Lemma common_loop_app o r us us' : forall common,
  common_loop o r common (us ++ us') = (l ← common_loop o r common us; common_loop o r l us').
Proof.
  induction us as [|u us IH]; intros common; [done|].
  cbn [app common_loop]. destruct (decide (common = [])) as [-> | Hne].
  { cbn [mbind outcome_bind]. destruct us'; [done|]. cbn [common_loop]. by rewrite decide_True. }
  destruct (rc_views r !! u); [|done]. cbn [or_die mbind outcome_bind]. apply IH.
Qed.

Lemma find_common_tracks_lemma o r us :
  (2 <= length us)%nat -> (forall u, u ∈ us -> is_Some (rc_views r !! u)) ->
  exists l, find_common_tracks o r us = Ok l /\ StronglySorted N.lt l /\
    forall t, t ∈ l <-> forall u, u ∈ us -> sees r u t.
Proof.
  intros Hlen Hex. unfold find_common_tracks. rewrite bool_decide_eq_true_2 by lia. cbn [check mbind outcome_bind].
  destruct us as [|u us]; [cbn in Hlen; lia|].
  destruct (Hex u ltac:(set_solver)) as [v Hv]. rewrite Hv. cbn [or_die mbind outcome_bind].
  destruct (common_loop_sound o r us (sorted_track_ids o v) (sorted_track_ids_sorted o v) ltac:(set_solver))
    as (l & Hl & HS & HE).
  exists l. split; [done|]. split; [done|]. intros t. rewrite HE, elem_of_sorted_track_ids. split.
  - intros [H1 H2] u' [-> | Hu']%elem_of_cons; [by exists v|by apply H2].
  - intros H. split; [|set_solver]. destruct (H u ltac:(set_solver)) as (v' & Hv' & Hf). by simplify_eq.
Qed.

Lemma find_common_tracks_missing_lemma o r pre u post :
  (forall w, w ∈ pre -> is_Some (rc_views r !! w)) -> rc_views r !! u = None ->
  (pre = [] \/ (exists t, forall w, w ∈ pre -> sees r w t) -> find_common_tracks o r (pre ++ u :: post) = CheckFail) /\
  (pre <> [] -> ~ (exists t, forall w, w ∈ pre -> sees r w t) -> find_common_tracks o r (pre ++ u :: post) = Ok []).
Proof.
  intros Hpre Hu. unfold find_common_tracks. destruct pre as [|w pre].
  { split; [|done]. intros _. cbn [app]. destruct (bool_decide _); [|done].
    cbn [check mbind outcome_bind]. by rewrite Hu. }
  rewrite (bool_decide_eq_true_2 (1 < _)%nat) by (rewrite app_length; cbn; lia). cbn [check mbind outcome_bind app].
  destruct (Hpre w ltac:(set_solver)) as [v Hv]. rewrite Hv. cbn [or_die mbind outcome_bind].
  rewrite common_loop_app.
  destruct (common_loop_sound o r pre (sorted_track_ids o v) (sorted_track_ids_sorted o v) ltac:(set_solver))
    as (l & Hl & HS & HE).
  rewrite Hl. cbn [mbind outcome_bind common_loop].
  assert (HE' : forall t, t ∈ l <-> forall w', w' ∈ w :: pre -> sees r w' t).
  { intros t. rewrite HE, elem_of_sorted_track_ids. split.
    - intros [H1 H2] u' [-> | Hu']%elem_of_cons; [by exists v|by apply H2].
    - intros H. split; [|set_solver]. destruct (H w ltac:(set_solver)) as (v' & Hv' & Hf). by simplify_eq. }
  split.
  - intros [? | [t Ht]]; [done|]. rewrite decide_False; [by rewrite Hu|]. apply HE' in Ht. intros ->. by apply elem_of_nil in Ht.
  - intros _ Hno. destruct l as [|t l]; [done|]. destruct Hno. exists t. apply HE'. by left.
Qed.

(** Common names. *)
Lemma common_names_loop_sound (r1 r2 : recon F C D) ids :
  (forall u, u ∈ ids -> is_Some (rc_views r1 !! u)) ->
  exists l, common_names_loop r1 r2 ids = Ok l /\
    (forall n, n ∈ l <-> exists u v, u ∈ ids /\ rc_views r1 !! u = Some v /\ v_name v = n /\
       rc_view_id_from_name r2 n <> kInvalidId) /\
    ((forall u u' v v', rc_views r1 !! u = Some v -> rc_views r1 !! u' = Some v' -> v_name v = v_name v' -> u = u') ->
     NoDup ids -> NoDup l).
Proof.
  induction ids as [|u ids IH]; intros Hex.
  { exists []. split; [done|]. split; [|constructor]. intros n. split; [by intros ?%elem_of_nil|]. intros (u & v & []%elem_of_nil & _). }
  destruct IH as (l & Hl & HE & HN); [intros w Hw; apply Hex; by right|].
  destruct (Hex u ltac:(by left)) as [v Hv]. cbn [common_names_loop]. rewrite Hv, Hl.
  cbn [or_ub mbind outcome_bind]. eexists. split; [reflexivity|]. destruct (decide _) as [Hd|Hd].
  - split.
    + intros n. rewrite elem_of_cons, HE. split.
      * intros [-> | (u' & v' & H1 & H2 & H3 & H4)].
        -- exists u, v. split; [left|]. done.
        -- exists u', v'. split; [by right|]. done.
      * intros (u' & v' & [-> | Hu']%elem_of_cons & H2 & H3 & H4); [left; congruence|right; eauto 10].
    + intros Hinj [Hu HN']%NoDup_cons. constructor; [|by apply HN].
      intros (u' & v' & H1 & H2 & H3 & _)%HE. destruct Hu. by rewrite (Hinj u u' v v' Hv H2).
  - split.
    + intros n. rewrite HE. split.
      * intros (u' & v' & H1 & H2 & H3 & H4). exists u', v'. split; [by right|]. done.
      * intros (u' & v' & [-> | Hu']%elem_of_cons & H2 & H3 & H4); [|by eauto 10].
        assert (v' = v) as -> by congruence. by subst n.
    + intros Hinj [Hu HN']%NoDup_cons. by apply HN.
Qed.

Lemma find_common_views_lemma (c0 : C) (d0 : D) (ops1 ops2 : list (rc_op F C D)) (o : order N) r1 r2 rs1 rs2 :
  (N.of_nat (length ops1) < 2 ^ 32)%N -> (N.of_nat (length ops2) < 2 ^ 32)%N ->
  run_obs (rc_step c0 d0) rc_empty ops1 = Ok (r1, rs1) -> run_obs (rc_step c0 d0) rc_empty ops2 = Ok (r2, rs2) ->
  exists l, find_common_views_by_name o r1 r2 = Ok l /\ NoDup l /\
    forall n, n ∈ l <-> (exists u v, rc_views r1 !! u = Some v /\ v_name v = n) /\
                        (exists u v, rc_views r2 !! u = Some v /\ v_name v = n).
Proof.
  intros L1 L2 R1 R2.
  destruct (names_bijective _ _ _ _ _ _ _ _ L1 R1) as (A1 & _ & _).
  destruct (names_bijective _ _ _ _ _ _ _ _ L2 R2) as (A2 & B2 & C2).
  unfold find_common_views_by_name.
  destruct (common_names_loop_sound r1 r2 (o (elements (dom (rc_views r1))))) as (l & Hl & HE & HN).
  { intros u. by rewrite ord_perm, elem_of_elements, elem_of_dom. }
  exists l. split; [done|]. split.
  { apply HN.
    - intros u u' v v' Hu Hu' Heq. rewrite <- (A1 _ u v Hu eq_refl), <- (A1 _ u' v' Hu' eq_refl). by rewrite Heq.
    - rewrite ord_perm. apply NoDup_elements. }
  intros n. rewrite HE. split.
  - intros (u & v & H1 & H2 & H3 & H4). split; [by exists u, v|].
    destruct (rc_names r2 !! n) as [w|] eqn:Hw.
    + destruct (decide (exists w', w' ∈ dom (rc_views r2) /\ (v_name <$> rc_views r2 !! w') = Some n)) as [Hd|Hd].
      * destruct Hd as (w' & _ & Hw'). destruct (rc_views r2 !! w') as [v'|] eqn:Hv'; [|done].
        exists w', v'. split; [done|]. cbn in Hw'. congruence.
      * destruct H4. apply B2. intros w' v' Hv' Hn. apply Hd. exists w'. rewrite Hv'. cbn. rewrite Hn.
        split; [|done]. by apply elem_of_dom.
    + unfold rc_view_id_from_name in H4. by rewrite Hw in H4.
  - intros [(u & v & Hu & Hn) (u' & v' & Hu' & Hn')]. exists u, v. split.
    { rewrite ord_perm, elem_of_elements, elem_of_dom. by eexists. }
    split; [done|]. split; [done|]. rewrite (A2 n u' v' Hu' Hn'). by destruct (C2 _ _ Hu').
Qed.

(** Estimated views and tracks. *)
Lemma estimated_views_lemma (o : order N) r u : u ∈ estimated_views o r <-> est_view r u.
Proof.
  unfold estimated_views.
  assert (H : forall ks s, u ∈ foldl (fun s u => match rc_views r !! u with Some v => if v_est v then {[u]} ∪ s else s | None => s end) s ks
     <-> u ∈ (s : gset N) \/ (u ∈ ks /\ est_view r u)).
  { induction ks as [|k ks IH]; intros s; cbn [foldl]; [set_solver|]. rewrite IH. unfold est_view.
    rewrite elem_of_cons.
    destruct (rc_views r !! k) as [v|] eqn:Hk; [destruct (v_est v) eqn:He|].
    - rewrite elem_of_union, elem_of_singleton. split; [|naive_solver]. intros [[-> | ?] | ?]; [right|tauto..]. split; [by left|]. by exists v.
    - split; [naive_solver|]. intros [? | [[-> | ?] ?]]; [by left|naive_solver congruence|by right].
    - split; [naive_solver|]. intros [? | [[-> | ?] ?]]; [by left|naive_solver congruence|by right]. }
  rewrite H, ord_perm, elem_of_elements, elem_of_dom. unfold est_view. split.
  - intros [[]%elem_of_empty | [_ ?]]; done.
  - intros (v & Hv & He). right. split; [by exists v|by exists v].
Qed.
Lemma estimated_tracks_lemma (o : order N) r t : t ∈ estimated_tracks o r <-> est_track r t.
Proof.
  unfold estimated_tracks.
  assert (H : forall ks s, t ∈ foldl (fun s t => match rc_tracks r !! t with Some T => if t_est T then {[t]} ∪ s else s | None => s end) s ks
     <-> t ∈ (s : gset N) \/ (t ∈ ks /\ est_track r t)).
  { induction ks as [|k ks IH]; intros s; cbn [foldl]; [set_solver|]. rewrite IH. unfold est_track.
    rewrite elem_of_cons.
    destruct (rc_tracks r !! k) as [v|] eqn:Hk; [destruct (t_est v) eqn:He|].
    - rewrite elem_of_union, elem_of_singleton. split; [|naive_solver]. intros [[-> | ?] | ?]; [right|tauto..]. split; [by left|]. by exists v.
    - split; [naive_solver|]. intros [? | [[-> | ?] ?]]; [by left|naive_solver congruence|by right].
    - split; [naive_solver|]. intros [? | [[-> | ?] ?]]; [by left|naive_solver congruence|by right]. }
  rewrite H, ord_perm, elem_of_elements, elem_of_dom. unfold est_track. split.
  - intros [[]%elem_of_empty | [_ ?]]; done.
  - intros (v & Hv & He). right. split; [by exists v|by exists v].
Qed.

(** Underconstrained tracks and views. *)
Lemma set_tracks_self r : set_tracks r (rc_tracks r) = r.
Proof. by destruct r. Qed.
Lemma set_views_self r : set_views r (rc_views r) = r.
Proof. by destruct r. Qed.

Definition view_est r (u : N) : Prop := (v_est <$> rc_views r !! u) = Some true.
Definition track_est r (t : N) : Prop := (t_est <$> rc_tracks r !! t) = Some true.
Global Instance view_est_dec r u : Decision (view_est r u).
Proof. unfold view_est. apply _. Defined.
Global Instance track_est_dec r u : Decision (track_est r u).
Proof. unfold track_est. apply _. Defined.
Lemma view_est_iff r u : view_est r u <-> est_view r u.
Proof. unfold view_est, est_view. destruct (rc_views r !! u) as [v|]; cbn.
  - split; [intros [= ?]; by exists v|]. intros (v' & [= <-] & ->). done.
  - split; [done|]. by intros (v & ? & _).
Qed.
Lemma track_est_iff r u : track_est r u <-> est_track r u.
Proof. unfold track_est, est_track. destruct (rc_tracks r !! u) as [v|]; cbn.
  - split; [intros [= ?]; by exists v|]. intros (v' & [= <-] & ->). done.
  - split; [done|]. by intros (v & ? & _).
Qed.

Lemma count_views_sound r vs : forall n, (n < 2)%nat -> (forall u, u ∈ vs -> is_Some (rc_views r !! u)) ->
  exists k, count_views r n vs = Ok k /\ ((k < 2)%nat <-> (n + length (filter (view_est r) vs) < 2)%nat).
Proof.
  induction vs as [|u vs IH]; intros n Hn Hex.
  { exists n. split; [done|]. cbn. lia. }
  destruct (Hex u ltac:(set_solver)) as [v Hv]. cbn [count_views]. rewrite Hv. cbn [or_ub mbind outcome_bind].
  rewrite filter_cons. destruct (v_est v) eqn:He.
  - rewrite (decide_True (P := view_est r u)) by (unfold view_est; rewrite Hv; cbn; by rewrite He). cbn [length].
    destruct (decide (2 <= S n)%nat).
    + exists (S n). split; [done|]. lia.
    + destruct (IH (S n) ltac:(lia) ltac:(set_solver)) as (k & Hk & Hiff). exists k. split; [done|]. lia.
  - rewrite (decide_False (P := view_est r u)) by (unfold view_est; rewrite Hv; cbn; by rewrite He).
    rewrite decide_False by lia.
    destruct (IH n ltac:(lia) ltac:(set_solver)) as (k & Hk & Hiff). exists k. split; [done|]. lia.
Qed.
Lemma count_tracks_sound r ts : forall n, (n < 3)%nat -> (forall t, t ∈ ts -> is_Some (rc_tracks r !! t)) ->
  exists k, count_tracks r n ts = Ok k /\ ((k < 3)%nat <-> (n + length (filter (track_est r) ts) < 3)%nat).
Proof.
  induction ts as [|u vs IH]; intros n Hn Hex.
  { exists n. split; [done|]. cbn. lia. }
  destruct (Hex u ltac:(set_solver)) as [v Hv]. cbn [count_tracks]. rewrite Hv. cbn [or_ub mbind outcome_bind].
  rewrite filter_cons. destruct (t_est v) eqn:He.
  - rewrite (decide_True (P := track_est r u)) by (unfold track_est; rewrite Hv; cbn; by rewrite He). cbn [length].
    destruct (decide (3 <= S n)%nat).
    + exists (S n). split; [done|]. lia.
    + destruct (IH (S n) ltac:(lia) ltac:(set_solver)) as (k & Hk & Hiff). exists k. split; [done|]. lia.
  - rewrite (decide_False (P := track_est r u)) by (unfold track_est; rewrite Hv; cbn; by rewrite He).
    rewrite decide_False by lia.
    destruct (IH n ltac:(lia) ltac:(set_solver)) as (k & Hk & Hiff). exists k. split; [done|]. lia.
Qed.

Lemma elements_size_filter (X : gset N) (P : N -> Prop) `{!forall x, Decision (P x)} (l : list N) :
  l ≡ₚ elements X -> length (filter P l) = size (filter P X).
Proof.
  intros Hl. rewrite Hl. rewrite <- (size_list_to_set (C := gset N) (filter P (elements X))).
  - done.
  - apply NoDup_filter, NoDup_elements.
Qed.

Lemma seen_by_iff r n t T : consistent r -> rc_tracks r !! t = Some T ->
  seen_by r n t <-> (n <= size (filter (view_est r) (t_views T)))%nat.
Proof.
  intros Hc HT. split.
  - intros (us & Hs & Hu). etrans; [exact Hs|]. apply subseteq_size. intros u Hin. destruct (Hu u Hin) as [H1 H2].
    apply elem_of_filter. split; [by apply view_est_iff|].
    destruct (proj2 (Hc u t) H1) as (T' & HT' & Hin'). by simplify_eq.
  - intros Hs. exists (filter (view_est r) (t_views T)). split; [done|]. intros u [H1 H2]%elem_of_filter.
    split; [|by apply view_est_iff]. apply (Hc u t). by exists T.
Qed.
Lemma sees_many_iff r n u v : consistent r -> rc_views r !! u = Some v ->
  sees_many r n u <-> (n <= size (filter (track_est r) (dom (v_feats v) : gset N)))%nat.
Proof.
  intros Hc Hv. split.
  - intros (ts & Hs & Ht). etrans; [exact Hs|]. apply subseteq_size. intros t Hin. destruct (Ht t Hin) as [H1 H2].
    apply elem_of_filter. split; [by apply track_est_iff|].
    destruct H1 as (v' & Hv' & Hf). simplify_eq. by apply elem_of_dom.
  - intros Hs. exists (filter (track_est r) (dom (v_feats v))). split; [done|]. intros t [H1 H2]%elem_of_filter.
    split; [|by apply track_est_iff]. exists v. split; [done|]. by apply elem_of_dom.
Qed.

(** From the flag loop to a set of cleared tracks. *)
Lemma tracks_cleared_of r (bad : N -> track D -> bool) (ks : list N) m' :
  (forall t T, rc_tracks r !! t = Some T -> bad t T = true -> t_est T = true) ->
  (forall k, m' !! k = if decide (k ∈ ks) then (fun a => if bad k a then unestimate a else a) <$> rc_tracks r !! k else rc_tracks r !! k) ->
  tracks_cleared r (set_tracks r m') (list_to_set (filter (fun k => (bad k <$> rc_tracks r !! k) = Some true) ks)).
Proof.
  intros _ Hm'. split; [by destruct r|]. intros t. cbn [rc_tracks set_tracks]. rewrite Hm'.
  destruct (rc_tracks r !! t) as [T|] eqn:HT; [|by destruct (decide _)].
  cbn [fmap option_fmap option_map]. destruct (bad t T) eqn:Hb; destruct (decide (t ∈ ks)) as [Hin|Hin];
    cbn [fmap option_fmap option_map]; try rewrite Hb; f_equal.
  - rewrite decide_True; [done|]. rewrite elem_of_list_to_set, elem_of_list_filter, HT. cbn. by rewrite Hb.
  - rewrite decide_False; [by destruct T|]. rewrite elem_of_list_to_set, elem_of_list_filter. tauto.
  - rewrite decide_False; [by destruct T|]. rewrite elem_of_list_to_set, elem_of_list_filter, HT. cbn. rewrite Hb. naive_solver.
  - rewrite decide_False; [by destruct T|]. rewrite elem_of_list_to_set, elem_of_list_filter. tauto.
Qed.
Lemma views_cleared_of r (bad : N -> view F C -> bool) (ks : list N) m' :
  (forall k, m' !! k = if decide (k ∈ ks) then (fun a => if bad k a then unestimate_view a else a) <$> rc_views r !! k else rc_views r !! k) ->
  views_cleared r (set_views r m') (list_to_set (filter (fun k => (bad k <$> rc_views r !! k) = Some true) ks)).
Proof.
  intros Hm'. split; [by destruct r|]. intros t. cbn [rc_views set_views]. rewrite Hm'.
  destruct (rc_views r !! t) as [T|] eqn:HT; [|by destruct (decide _)].
  cbn [fmap option_fmap option_map]. destruct (bad t T) eqn:Hb; destruct (decide (t ∈ ks)) as [Hin|Hin];
    cbn [fmap option_fmap option_map]; try rewrite Hb; f_equal.
  - rewrite decide_True; [done|]. rewrite elem_of_list_to_set, elem_of_list_filter, HT. cbn. by rewrite Hb.
  - rewrite decide_False; [by destruct T|]. rewrite elem_of_list_to_set, elem_of_list_filter. tauto.
  - rewrite decide_False; [by destruct T|]. rewrite elem_of_list_to_set, elem_of_list_filter, HT. cbn. rewrite Hb. naive_solver.
  - rewrite decide_False; [by destruct T|]. rewrite elem_of_list_to_set, elem_of_list_filter. tauto.
Qed.

Lemma set_underconstrained_tracks_lemma (o : order N) r : consistent r ->
  exists r' ts, set_underconstrained_tracks o r = Ok (r', size ts) /\ tracks_cleared r r' ts /\
    forall t, t ∈ ts <-> est_track r t /\ ~ seen_by r 2 t.
Proof.
  intros Hc. unfold set_underconstrained_tracks.
  set (bad := fun (t : N) (T : track D) => t_est T && bool_decide (size (filter (view_est r) (t_views T)) < 2)%nat).
  set (ks := o (elements (dom (rc_tracks r)))).
  assert (HN : NoDup ks) by (unfold ks; rewrite ord_perm; apply NoDup_elements).
  assert (Hks : forall t, t ∈ ks <-> is_Some (rc_tracks r !! t)).
  { intros t. unfold ks. by rewrite ord_perm, elem_of_elements, elem_of_dom. }
  destruct (flag_loop (set_tracks r) unestimate bad (under_track_step o) (rc_tracks r)) with (ks := ks) (m := rc_tracks r) (n := 0%nat)
    as (m' & Hrun & Hm'); [|done|intros k Hk%Hks; done|].
  - intros m n t T HT Hm. unfold under_track_step. cbn [rc_tracks set_tracks]. rewrite Hm. cbn [or_die mbind outcome_bind].
    unfold bad. destruct (t_est T) eqn:He; cbn [andb]; [|done].
    destruct (count_views_sound r (o (elements (t_views T))) 0) as (k & Hk & Hiff); [lia| |].
    { intros u. rewrite ord_perm, elem_of_elements. intros Hu.
      destruct (proj1 (Hc u t)) as (v & Hv & _); [by exists T|]. by exists v. }
    replace (count_views (set_tracks r m) 0 (o (elements (t_views T)))) with (count_views r 0 (o (elements (t_views T)))).
    2: { clear Hk Hiff. generalize 0%nat. induction (o (elements (t_views T))) as [|u us IHu]; intros n0; [done|].
         cbn [count_views rc_views set_tracks]. destruct (rc_views r !! u); [|done]. cbn [or_ub mbind outcome_bind].
         destruct (decide _); [done|]. apply IHu. }
    rewrite Hk. cbn [mbind outcome_bind]. rewrite (elements_size_filter (t_views T)) in Hiff by apply ord_perm.
    destruct (decide (k < 2)%nat); [rewrite bool_decide_eq_true_2 by lia|rewrite bool_decide_eq_false_2 by lia]; done.
  - rewrite set_tracks_self in Hrun.
    exists (set_tracks r m'), (list_to_set (filter (fun k => (bad k <$> rc_tracks r !! k) = Some true) ks)).
    split; [|split].
    + rewrite Hrun. do 2 f_equal. rewrite size_list_to_set; [done|]. by apply NoDup_filter.
    + apply tracks_cleared_of; [|done]. intros t T _. unfold bad. by intros [? _]%andb_true_iff.
    + intros t. rewrite elem_of_list_to_set, elem_of_list_filter, Hks. unfold est_track.
      destruct (rc_tracks r !! t) as [T|] eqn:HT; cbn [fmap option_fmap option_map].
      2: { split; [intros [? _]; done|]. naive_solver. }
      rewrite (seen_by_iff r 2 t T Hc HT). unfold bad. rewrite (inj_iff Some), andb_true_iff, bool_decide_eq_true.
      split.
      * intros [[H1 H2] _]. split; [by exists T|]. lia.
      * intros [(T' & [= <-] & H1) H2]. split; [|done]. split; [done|]. lia.
Qed.

Lemma set_underconstrained_views_lemma (o : order N) r : consistent r ->
  exists r' us, set_underconstrained_views o r = Ok (r', size us) /\ views_cleared r r' us /\
    forall u, u ∈ us <-> est_view r u /\ ~ sees_many r 3 u.
Proof.
  intros Hc. unfold set_underconstrained_views.
  set (bad := fun (u : N) (v : view F C) => v_est v && bool_decide (size (filter (track_est r) (dom (v_feats v) : gset N)) < 3)%nat).
  set (ks := o (elements (dom (rc_views r)))).
  assert (HN : NoDup ks) by (unfold ks; rewrite ord_perm; apply NoDup_elements).
  assert (Hks : forall t, t ∈ ks <-> is_Some (rc_views r !! t)).
  { intros t. unfold ks. by rewrite ord_perm, elem_of_elements, elem_of_dom. }
  destruct (flag_loop (set_views r) unestimate_view bad (under_view_step o) (rc_views r)) with (ks := ks) (m := rc_views r) (n := 0%nat)
    as (m' & Hrun & Hm'); [|done|intros k Hk%Hks; done|].
  - intros m n u v Hv Hm. unfold under_view_step. cbn [rc_views set_views]. rewrite Hm. cbn [or_die mbind outcome_bind].
    unfold bad. destruct (v_est v) eqn:He; cbn [andb]; [|done].
    destruct (count_tracks_sound r (o (elements (dom (v_feats v)))) 0) as (k & Hk & Hiff); [lia| |].
    { intros t. rewrite ord_perm, elem_of_elements, elem_of_dom. intros Hf.
      destruct (proj2 (Hc u t)) as (T & HT & _); [by exists v|]. by exists T. }
    replace (count_tracks (set_views r m) 0 (o (elements (dom (v_feats v))))) with (count_tracks r 0 (o (elements (dom (v_feats v))))).
    2: { clear Hk Hiff. generalize 0%nat. induction (o (elements (dom (v_feats v)))) as [|t ts IHt]; intros n0; [done|].
         cbn [count_tracks rc_tracks set_views]. destruct (rc_tracks r !! t); [|done]. cbn [or_ub mbind outcome_bind].
         destruct (decide _); [done|]. apply IHt. }
    rewrite Hk. cbn [mbind outcome_bind]. rewrite (elements_size_filter (dom (v_feats v))) in Hiff by apply ord_perm.
    destruct (decide (k < 3)%nat); [rewrite bool_decide_eq_true_2 by lia|rewrite bool_decide_eq_false_2 by lia]; done.
  - rewrite set_views_self in Hrun.
    exists (set_views r m'), (list_to_set (filter (fun k => (bad k <$> rc_views r !! k) = Some true) ks)).
    split; [|split].
    + rewrite Hrun. do 2 f_equal. rewrite size_list_to_set; [done|]. by apply NoDup_filter.
    + by apply views_cleared_of.
    + intros t. rewrite elem_of_list_to_set, elem_of_list_filter, Hks. unfold est_view.
      destruct (rc_views r !! t) as [T|] eqn:HT; cbn [fmap option_fmap option_map].
      2: { split; [intros [? _]; done|]. naive_solver. }
      rewrite (sees_many_iff r 3 t T Hc HT). unfold bad. rewrite (inj_iff Some), andb_true_iff, bool_decide_eq_true.
      split.
      * intros [[H1 H2] _]. split; [by exists T|]. lia.
      * intros [(T' & [= <-] & H1) H2]. split; [|done]. split; [done|]. lia.
Qed.

(** Estimated poses. *)
Section poses.
  Context {P Q : Type} (pose : P -> Q -> C -> C).

  Definition posed (q : option Q) (p : P) (v : view F C) : view F C :=
    match q with
    | Some q => View (v_name v) true (v_intr v) (pose p q (v_data v)) (v_feats v)
    | None => v
    end.

  Lemma set_pose_loop (orientations : gmap N Q) ups : forall r, NoDup ups.*1 ->
    (forall u, u ∈ ups.*1 -> ~ est_view r u) ->
    exists m', run_steps (set_pose_step pose orientations) r ups = Ok (set_views r m') /\
      forall u, m' !! u = match list_to_map (M := gmap N P) ups !! u with
                          | Some p => posed (orientations !! u) p <$> rc_views r !! u
                          | None => rc_views r !! u end.
  Proof.
    induction ups as [|[u p] ups IH]; intros r HN Hne.
    { exists (rc_views r). cbn [run_steps]. rewrite set_views_self. split; [done|]. intros u. done. }
    cbn [fmap list_fmap] in HN. apply NoDup_cons in HN as [Hu HN]. cbn [run_steps].
    assert (Hnext : exists m1, set_pose_step pose orientations r (u, p) = Ok (set_views r m1) /\
       (forall w, m1 !! w = if decide (w = u) then posed (orientations !! u) p <$> rc_views r !! u else rc_views r !! w)).
    { unfold set_pose_step. cbn [fst snd]. destruct (rc_views r !! u) as [v|] eqn:Hv.
      - destruct (v_est v) eqn:He.
        { destruct (Hne u); [set_solver|]. by exists v. }
        cbn [negb check mbind outcome_bind]. destruct (orientations !! u) as [q|] eqn:Hq.
        + eexists. split; [reflexivity|]. intros w. destruct (decide (w = u)) as [-> | Hw].
          * rewrite lookup_insert. done.
          * by rewrite lookup_insert_ne.
        + exists (rc_views r). rewrite set_views_self. split; [done|]. intros w. destruct (decide (w = u)) as [-> | Hw]; [|done].
          rewrite Hv. done.
      - exists (rc_views r). rewrite set_views_self. split; [done|]. intros w. destruct (decide (w = u)) as [-> | Hw]; [|done].
        by rewrite Hv. }
    destruct Hnext as (m1 & Hs & Hm1). rewrite Hs. cbn [mbind outcome_bind].
    destruct (IH (set_views r m1) HN) as (m' & Hrun & Hm').
    { intros w Hw (v & Hv & He). cbn [rc_views set_views] in Hv. rewrite Hm1 in Hv.
      rewrite decide_False in Hv by set_solver. apply (Hne w); [set_solver|]. by exists v. }
    exists m'. split; [rewrite Hrun; by destruct r|].
    intros w. rewrite Hm'. cbn [rc_views set_views]. rewrite Hm1. cbn [list_to_map foldr fst snd].
    destruct (decide (w = u)) as [-> | Hw].
    - rewrite lookup_insert. rewrite (not_elem_of_list_to_map_1 (M := gmap N)); [done|]. done.
    - by rewrite lookup_insert_ne.
  Qed.

  Lemma set_estimated_poses_lemma (o : order (N * P)) (orientations : gmap N Q) (positions : gmap N P) r :
    (forall u, is_Some (positions !! u) -> ~ est_view r u) ->
    exists r', set_estimated_poses pose o orientations positions r = Ok r' /\ r' = set_views r (rc_views r') /\
      forall u, rc_views r' !! u =
        match rc_views r !! u, positions !! u, orientations !! u with
        | Some v, Some p, Some q => Some (View (v_name v) true (v_intr v) (pose p q (v_data v)) (v_feats v))
        | x, _, _ => x
        end.
  Proof.
    intros Hne. unfold set_estimated_poses.
    assert (HP : o (map_to_list positions) ≡ₚ map_to_list positions) by apply ord_perm.
    assert (HN : NoDup (o (map_to_list positions)).*1) by (rewrite HP; apply NoDup_fst_map_to_list).
    destruct (set_pose_loop orientations (o (map_to_list positions)) r HN) as (m' & Hrun & Hm').
    { intros u. rewrite HP. intros ((u' & p) & -> & Hin)%elem_of_list_fmap. cbn. apply Hne.
      apply elem_of_map_to_list in Hin. by eexists. }
    exists (set_views r m'). split; [done|]. split; [by destruct r|].
    intros u. cbn [rc_views set_views]. rewrite Hm'.
    rewrite (list_to_map_proper (M := gmap N) _ _ HN HP), list_to_map_to_list.
    destruct (rc_views r !! u) as [v|], (positions !! u) as [p|]; cbn; try done. by destruct (orientations !! u).
  Qed.

  (** An existing estimated view with a position aborts the call. *)
  Lemma set_estimated_poses_abort_lemma (o : order (N * P)) (orientations : gmap N Q) (positions : gmap N P) r u :
    is_Some (positions !! u) -> est_view r u -> set_estimated_poses pose o orientations positions r = CheckFail.
  Proof.
    intros [p Hp] (v & Hv & He). unfold set_estimated_poses.
    assert (Hin : (u, p) ∈ o (map_to_list positions)) by (rewrite ord_perm; by apply elem_of_map_to_list).
    assert (HN : NoDup (o (map_to_list positions)).*1).
    { rewrite (ord_perm o (map_to_list positions)). apply NoDup_fst_map_to_list. }
    revert Hin HN. generalize (o (map_to_list positions)). intros l. revert r Hv.
    induction l as [|[w p'] l IH]; intros r Hv Hin HN; [by apply elem_of_nil in Hin|].
    cbn [run_steps].
    cbn [fmap list_fmap] in HN. apply NoDup_cons in HN as [Hw HN].
    apply elem_of_cons in Hin as [Heq | Hin].
    { injection Heq as -> ->. unfold set_pose_step at 2. cbn [fst snd]. rewrite Hv, He. done. }
    assert (w <> u). { intros ->. apply Hw. apply elem_of_list_fmap. by exists (u, p). }
    unfold set_pose_step at 2. cbn [fst snd].
    destruct (rc_views r !! w) as [v'|] eqn:Hv'; [|by apply IH].
    destruct (v_est v'); [done|]. cbn [negb check mbind outcome_bind].
    destruct (orientations !! w); [|by apply IH]. apply IH; try done. cbn [rc_views set_views].
    by rewrite lookup_insert_ne.
  Qed.
End poses.

(** Outliers. *)
Section outliers.
  Context (depth : view F C -> D -> Qc) (sq_error : view F C -> D -> F -> Qc) (ray : view F C -> D -> Qc * Qc * Qc).
  Context (max_error cos_min : Qc).

  Definition sum_list (l : list N) (f : N -> Qc) : Qc := foldr (fun u s => (f u + s)%Qc) 0%Qc l.
  Lemma sum_list_perm f : forall l l', l ≡ₚ l' -> sum_list l f = sum_list l' f.
  Proof.
    unfold sum_list. induction 1; cbn [foldr]; [done|by rewrite IHPermutation|ring|congruence].
  Qed.

  Definition ray_in r (T : track D) (u : N) : Qc * Qc * Qc :=
    match rc_views r !! u with Some v => ray v (t_data T) | None => (0, 0, 0)%Qc end.

  Lemma outlier_loop_sound r t T vs : forall sum n rays,
    (forall u, u ∈ vs -> exists v, rc_views r !! u = Some v /\ is_Some (v_feats v !! t)) ->
    exists res, outlier_loop depth sq_error ray r t T vs (sum, n, rays) = Ok res /\
      match res with
      | None => exists u v, u ∈ vs /\ rc_views r !! u = Some v /\ v_est v = true /\ (depth v (t_data T) < 0)%Qc
      | Some acc =>
          (forall u v, u ∈ vs -> rc_views r !! u = Some v -> v_est v = true -> ~ (depth v (t_data T) < 0)%Qc) /\
          acc = ((sum + sum_list (filter (view_est r) vs) (error_in sq_error r t T))%Qc,
                 (n + length (filter (view_est r) vs))%nat, rays ++ (ray_in r T <$> filter (view_est r) vs))
      end.
  Proof.
    induction vs as [|u vs IH]; intros sum n rays Hex.
    { eexists. split; [reflexivity|]. cbn. split; [set_solver|]. rewrite Nat.add_0_r, app_nil_r. repeat f_equal. ring. }
    destruct (Hex u ltac:(set_solver)) as (v & Hv & [f Hf]). cbn [outlier_loop]. rewrite Hv. cbn [or_die mbind outcome_bind].
    destruct (v_est v) eqn:He.
    - destruct (decide (depth v (t_data T) < 0)%Qc) as [Hd|Hd].
      + eexists. split; [reflexivity|]. cbn. exists u, v. set_solver.
      + rewrite Hf. cbn [or_ub mbind outcome_bind].
        destruct (IH (sum + sq_error v (t_data T) f)%Qc (S n) (rays ++ [ray v (t_data T)]) ltac:(set_solver)) as (res & Hres & Hm).
        exists res. split; [done|]. destruct res as [acc|].
        * destruct Hm as [H1 ->]. split.
          { intros u' v' [-> | Hu']%elem_of_cons Hv' He'; [by simplify_eq|by eapply H1]. }
          rewrite filter_cons, decide_True by (unfold view_est; rewrite Hv; cbn; by rewrite He).
          rewrite fmap_cons. cbn [length sum_list foldr]. rewrite <- app_assoc. cbn [app].
          unfold error_in at 2. unfold ray_in at 2. rewrite Hv, Hf. f_equal. f_equal.
          -- unfold sum_list. ring.
          -- lia.
        * destruct Hm as (u' & v' & H1 & H2). exists u', v'. set_solver.
    - destruct (IH sum n rays ltac:(set_solver)) as (res & Hres & Hm).
      exists res. split; [done|]. destruct res as [acc|].
      + destruct Hm as [H1 ->]. split.
        { intros u' v' [-> | Hu']%elem_of_cons Hv' He'; [simplify_eq; congruence|by eapply H1]. }
        by rewrite filter_cons, decide_False by (unfold view_est; rewrite Hv; cbn; by rewrite He).
      + destruct Hm as (u' & v' & H1 & H2). exists u', v'. set_solver.
  Qed.

  Lemma dot_comm a b : dot a b = dot b a.
  Proof. unfold dot. ring. Qed.

  Lemma sufficient_angle_sound (g : N -> Qc * Qc * Qc) l : NoDup l ->
    sufficient_angle cos_min (g <$> l) = true <->
    exists u w, u <> w /\ u ∈ l /\ w ∈ l /\ (dot (g u) (g w) < cos_min)%Qc.
  Proof.
    induction l as [|a l IH]; intros HN.
    { cbn. split; [done|]. intros (u & w & _ & []%elem_of_nil & _). }
    apply NoDup_cons in HN as [Ha HN]. rewrite fmap_cons. cbn [sufficient_angle]. rewrite orb_true_iff, (IH HN), existsb_exists.
    split.
    - intros [(b & Hb & Hd) | (u & w & H1 & H2 & H3 & H4)].
      + apply elem_of_list_In, elem_of_list_fmap in Hb as (w & -> & Hw). apply bool_decide_eq_true in Hd.
        exists a, w. set_solver.
      + exists u, w. set_solver.
    - intros (u & w & Hne & [-> | Hu]%elem_of_cons & [-> | Hw]%elem_of_cons & Hd).
      + done.
      + left. exists (g w). split; [apply elem_of_list_In, elem_of_list_fmap; by exists w|]. by apply bool_decide_eq_true.
      + left. exists (g u). split; [apply elem_of_list_In, elem_of_list_fmap; by exists u|]. rewrite dot_comm in Hd. by apply bool_decide_eq_true.
      + right. exists u, w. done.
  Qed.

  Lemma outlier_decide (o : order N) r t T : consistent r -> rc_tracks r !! t = Some T ->
    exists res, outlier_loop depth sq_error ray r t T (o (elements (t_views T))) (0%Qc, 0%nat, []) = Ok res /\
      (outlier depth sq_error ray max_error cos_min r t T <->
       match res with
       | None => True
       | Some (sum, n, rays) =>
           ((0 < n)%nat /\ (max_error * max_error < sum / Q2Qc (Z.of_nat n # 1))%Qc) \/ sufficient_angle cos_min rays = false
       end).
  Proof.
    intros Hc HT. set (vs := (o : order N) (elements (t_views T))).
    assert (Hvs : vs ≡ₚ elements (t_views T)) by apply ord_perm.
    assert (Hin : forall u, u ∈ vs <-> u ∈ t_views T) by (intros u; by rewrite Hvs, elem_of_elements).
    destruct (outlier_loop_sound r t T vs 0%Qc 0 []) as (res & Hres & Hm).
    { intros u Hu. apply Hc. exists T. split; [done|]. by apply Hin. }
    exists res. split; [done|]. unfold outlier, behind. destruct res as [[[sum n] rays]|].
    2: { split; [done|]. intros _. left. destruct Hm as (u & v & Hu & Hm). exists u, v. rewrite <- Hin. done. }
    destruct Hm as [Hnb [= -> -> ->]]. rewrite ?Nat.add_0_l.
    assert (Hobs : filter (view_est r) vs ≡ₚ elements (estimated_observers r T)).
    { apply NoDup_Permutation.
      - apply NoDup_filter. rewrite Hvs. apply NoDup_elements.
      - apply NoDup_elements.
      - intros u. unfold estimated_observers. rewrite elem_of_elements, elem_of_list_filter, elem_of_filter, Hin. done. }
    assert (Hlen : length (filter (view_est r) vs) = size (estimated_observers r T)).
    { rewrite Hobs. done. }
    assert (Hsum : (0 + sum_list (filter (view_est r) vs) (error_in sq_error r t T))%Qc =
       sum_over (estimated_observers r T) (error_in sq_error r t T)).
    { unfold sum_over. fold (sum_list (elements (estimated_observers r T)) (error_in sq_error r t T)).
      rewrite (sum_list_perm _ _ _ Hobs). ring. }
    rewrite Hsum, Hlen. cbn [app].
    assert (Hang : sufficient_angle cos_min (ray_in r T <$> filter (view_est r) vs) = true <-> wide ray cos_min r T).
    { rewrite sufficient_angle_sound by (apply NoDup_filter; rewrite Hvs; apply NoDup_elements).
      unfold wide. split.
      - intros (u & w & Hne & Hu & Hw & Hd). rewrite Hobs, elem_of_elements in Hu, Hw.
        pose proof Hu as Hu'. pose proof Hw as Hw'. unfold estimated_observers in Hu', Hw'.
        apply elem_of_filter in Hu' as [Hu' _], Hw' as [Hw' _]. unfold ray_in, dot in Hd.
        destruct (rc_views r !! u) as [v1|] eqn:H1; [|done]. destruct (rc_views r !! w) as [v2|] eqn:H2; [|done].
        exists u, w, v1, v2. done.
      - intros (u & w & v1 & v2 & Hne & Hu & Hw & H1 & H2 & Hd). exists u, w. rewrite Hobs, !elem_of_elements.
        repeat split; try done. unfold ray_in, dot. by rewrite H1, H2. }
    rewrite <- not_true_iff_false, Hang. unfold large_error. cbn zeta.
    assert (Hsz : (0 < size (estimated_observers r T))%nat <-> estimated_observers r T <> ∅).
    { pose proof (size_empty_iff (estimated_observers r T)) as Hse. rewrite leibniz_equiv_iff in Hse. rewrite <- Hse. lia. }
    rewrite Hsz. split; [|tauto]. intros [(u & v & Hu & Hv & He & Hd)|?]; [|done].
    apply Hin in Hu. by destruct (Hnb u v Hu Hv He).
  Qed.

  Lemma outlier_loop_tracks r m t T vs : forall acc,
    outlier_loop depth sq_error ray (set_tracks r m) t T vs acc = outlier_loop depth sq_error ray r t T vs acc.
  Proof.
    induction vs as [|u vs IH]; intros acc; [done|]. cbn [outlier_loop rc_views set_tracks].
    destruct (rc_views r !! u); [|done]. cbn [or_die mbind outcome_bind]. destruct acc as [[sum n] rays].
    destruct (v_est _); [|done]. destruct (decide _); [done|]. destruct (v_feats _ !! t); [|done]. cbn [or_ub mbind outcome_bind]. done.
  Qed.

  Definition outlier_bool (o : order N) r (t : N) (T : track D) : bool :=
    match outlier_loop depth sq_error ray r t T (o (elements (t_views T))) (0%Qc, 0%nat, []) with
    | Ok None => true
    | Ok (Some (sum, n, rays)) =>
        bool_decide ((0 < n)%nat /\ (max_error * max_error < sum / Q2Qc (Z.of_nat n # 1))%Qc) || negb (sufficient_angle cos_min rays)
    | _ => false
    end.

  Lemma set_outlier_tracks_lemma (o : order N) (ids : gset N) r :
    consistent r -> (forall t, t ∈ ids -> is_Some (rc_tracks r !! t)) ->
    exists r' ts, set_outlier_tracks depth sq_error ray o ids max_error cos_min r = Ok (r', size ts) /\ tracks_cleared r r' ts /\
      forall t, t ∈ ts <-> t ∈ ids /\ exists T, rc_tracks r !! t = Some T /\ t_est T = true /\
                           outlier depth sq_error ray max_error cos_min r t T.
  Proof.
    intros Hc Hids. unfold set_outlier_tracks.
    set (bad := fun (t : N) (T : track D) => t_est T && outlier_bool o r t T).
    set (ks := o (elements ids)).
    assert (HN : NoDup ks) by (unfold ks; rewrite ord_perm; apply NoDup_elements).
    assert (Hks : forall t, t ∈ ks <-> t ∈ ids).
    { intros t. unfold ks. by rewrite ord_perm, elem_of_elements. }
    destruct (flag_loop (set_tracks r) unestimate bad (outlier_step depth sq_error ray o max_error cos_min) (rc_tracks r))
      with (ks := ks) (m := rc_tracks r) (n := 0%nat) as (m' & Hrun & Hm'); [|done|intros k Hk%Hks; split; [by apply Hids|done]|].
    - intros m n t T HT Hm. unfold outlier_step. cbn [rc_tracks set_tracks]. rewrite Hm. cbn [or_ub mbind outcome_bind].
      unfold bad. destruct (t_est T) eqn:He; cbn [andb]; [|done].
      rewrite outlier_loop_tracks. unfold outlier_bool.
      destruct (outlier_decide o r t T Hc HT) as (res & Hres & _). rewrite Hres. cbn [mbind outcome_bind].
      destruct res as [[[sum k] rays]|]; [|done].
      destruct (decide _) as [Hd|Hd].
      + rewrite bool_decide_eq_true_2 by done. done.
      + rewrite bool_decide_eq_false_2 by done. cbn [orb]. by destruct (sufficient_angle cos_min rays).
    - rewrite set_tracks_self in Hrun.
      exists (set_tracks r m'), (list_to_set (filter (fun k => (bad k <$> rc_tracks r !! k) = Some true) ks)).
      split; [|split].
      + rewrite Hrun. do 2 f_equal. rewrite size_list_to_set; [done|]. by apply NoDup_filter.
      + apply tracks_cleared_of; [|done]. intros t T _. unfold bad. by intros [? _]%andb_true_iff.
      + intros t. rewrite elem_of_list_to_set, elem_of_list_filter, Hks.
        destruct (rc_tracks r !! t) as [T|] eqn:HT; cbn [fmap option_fmap option_map].
        2: { split; [intros [? _]; done|]. naive_solver. }
        assert (Hb : outlier_bool o r t T = true <-> outlier depth sq_error ray max_error cos_min r t T).
        { destruct (outlier_decide o r t T Hc HT) as (res & Hres & ->). unfold outlier_bool. rewrite Hres.
          destruct res as [[[sum n] rays]|]; [|done]. rewrite orb_true_iff, bool_decide_eq_true, negb_true_iff. done. }
        unfold bad. rewrite (inj_iff Some), andb_true_iff, Hb. split.
        * intros [[H1 H2] H3]. split; [done|]. by exists T.
        * intros [H1 (T' & [= <-] & H2 & H3)]. done.
  Qed.

  (** Running the removal again changes nothing. *)
  Lemma set_outlier_tracks_twice_lemma (o o' : order N) (ids : gset N) r r' n :
    consistent r -> (forall t, t ∈ ids -> is_Some (rc_tracks r !! t)) ->
    set_outlier_tracks depth sq_error ray o ids max_error cos_min r = Ok (r', n) ->
    set_outlier_tracks depth sq_error ray o' ids max_error cos_min r' = Ok (r', 0%nat).
  Proof.
    intros Hc Hids Hrun.
    destruct (set_outlier_tracks_lemma o ids r Hc Hids) as (r1 & ts & H1 & [H2 H2'] & H3).
    rewrite Hrun in H1. injection H1 as <- ->.
    assert (Hv : rc_views r' = rc_views r) by (rewrite H2; done).
    assert (Hc' : consistent r').
    { intros u t. rewrite Hv, <- (Hc u t), H2'. destruct (rc_tracks r !! t) as [T|]; cbn.
      - split; intros (T' & [= <-] & Hu); eexists; done.
      - split; by intros (T' & ? & _). }
    assert (Hids' : forall t, t ∈ ids -> is_Some (rc_tracks r' !! t)).
    { intros t Ht. rewrite H2'. destruct (Hids t Ht) as [T ->]. by eexists. }
    destruct (set_outlier_tracks_lemma o' ids r' Hc' Hids') as (r2 & ts2 & G1 & [G2 G2'] & G3).
    assert (ts2 = ∅) as ->.
    { apply leibniz_equiv. apply elem_of_equiv_empty. intros t (Hin & T & HT & He & Hout)%G3.
      rewrite H2' in HT. destruct (rc_tracks r !! t) as [T0|] eqn:HT0; [|done]. cbn in HT. injection HT as <-.
      cbn [t_est] in He. destruct (decide (t ∈ ts)) as [Hts|Hts]; [done|].
      apply Hts. apply H3. split; [done|]. exists T0. split; [done|]. split; [done|].
      rewrite H2 in Hout. exact Hout. }
    rewrite G1. do 2 f_equal. rewrite G2. etrans; [|apply set_tracks_self]. f_equal. apply map_eq. intros t. rewrite G2'. destruct (rc_tracks r' !! t) as [T|]; [|done]. by destruct T.
  Qed.

  Lemma set_all_outlier_tracks_lemma (o : order N) r :
    consistent r ->
    exists r' ts, set_all_outlier_tracks depth sq_error ray o max_error cos_min r = Ok (r', size ts) /\ tracks_cleared r r' ts /\
      forall t, t ∈ ts <-> exists T, rc_tracks r !! t = Some T /\ t_est T = true /\
                           outlier depth sq_error ray max_error cos_min r t T.
  Proof.
    intros Hc. unfold set_all_outlier_tracks.
    destruct (set_outlier_tracks_lemma o (list_to_set (o (elements (dom (rc_tracks r))))) r Hc) as (r' & ts & H1 & H2 & H3).
    { intros t. by rewrite elem_of_list_to_set, ord_perm, elem_of_elements, elem_of_dom. }
    exists r', ts. split; [done|]. split; [done|]. intros t. rewrite H3.
    rewrite elem_of_list_to_set, ord_perm, elem_of_elements, elem_of_dom. split; [tauto|].
    intros (T & HT & ?). split; [by exists T|]. by exists T.
  Qed.

  Lemma set_outlier_tracks_missing_lemma (o : order N) (ids : gset N) r t :
    consistent r -> t ∈ ids -> rc_tracks r !! t = None ->
    set_outlier_tracks depth sq_error ray o ids max_error cos_min r = UB.
  Proof.
    intros Hc Hin HT. unfold set_outlier_tracks.
    assert (Hks : t ∈ (o : order N) (elements ids)) by (rewrite ord_perm; set_solver).
    revert Hks. generalize ((o : order N) (elements ids)). intros ks. generalize 0%nat.
    revert r Hc HT. induction ks as [|k ks IH]; intros r Hc HT n Hks; [by apply elem_of_nil in Hks|].
    cbn [run_steps]. unfold outlier_step at 2.
    destruct (rc_tracks r !! k) as [T|] eqn:Hk; [|done].
    cbn [or_ub mbind outcome_bind].
    assert (Hks' : t ∈ ks). { apply elem_of_cons in Hks as [-> | ?]; [congruence|done]. }
    assert (Hc' : consistent (unestimate_track_in r k) /\ rc_tracks (unestimate_track_in r k) !! t = None).
    { split.
      - intros u t'. rewrite <- (Hc u t'). cbn [rc_tracks unestimate_track_in set_tracks rc_views].
        rewrite (Hc u t'). rewrite <- (Hc u t'). destruct (decide (k = t')) as [-> | Hne].
        + rewrite lookup_alter, Hk. cbn. split; intros (T' & [= <-] & Hu); eexists; done.
        + by rewrite lookup_alter_ne.
      - cbn [rc_tracks unestimate_track_in set_tracks]. rewrite lookup_alter_ne by congruence. done. }
    destruct Hc' as [Hc' HT'].
    destruct (t_est T); [|by apply IH].
    destruct (outlier_decide o r k T Hc Hk) as (res & Hres & _). rewrite Hres. cbn [mbind outcome_bind].
    destruct res as [[[sum j] rays]|]; [|by apply IH].
    destruct (decide _); [by apply IH|]. destruct (sufficient_angle _ _); by apply IH.
  Qed.
End outliers.
End proofs.
