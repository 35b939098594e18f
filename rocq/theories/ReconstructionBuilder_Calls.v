(** Proofs about the calls that fill a reconstruction builder. *)
From stdpp Require Import gmap strings.
From Verif Require Import Base Reconstruction_Model Reconstruction_Spec Reconstruction_Proofs Reconstruction_Lemmas ViewGraph_Model TrackBuilder_Model TrackBuilder_Spec TrackBuilder_Props
  SfmQueries_Spec ReconstructionBuilder_Model ReconstructionBuilder_Spec ReconstructionBuilder_Proofs.

Lemma chosen_app {A} (Q : A -> Prop) l1 l1' l2 l2' : chosen Q l1 l1' -> chosen Q l2 l2' -> chosen Q (l1 ++ l2) (l1' ++ l2').
Proof. induction 1; intros K; cbn; [done|apply chosen_yes; auto|apply chosen_no; auto]. Qed.
Lemma chosen_ext {A} (Q Q' : A -> Prop) l l' : (forall a, a ∈ l -> Q a <-> Q' a) -> chosen Q l l' -> chosen Q' l l'.
Proof.
  intros K Hc. induction Hc as [|a l l' Ha Hc IH|a l l' Ha Hc IH]; [constructor| |].
  - apply chosen_yes; [apply K; [by left|done]|]. apply IH. intros b Hb. apply K. by right.
  - apply chosen_no; [rewrite <- K; [done|by left]|]. apply IH. intros b Hb. apply K. by right.
Qed.
Lemma chosen_one {A} (Q : A -> Prop) a : Q a -> chosen Q [a] [a].
Proof. intros. apply chosen_yes; [done|constructor]. Qed.
Lemma chosen_none {A} (Q : A -> Prop) a : ~ Q a -> chosen Q [a] [].
Proof. intros. apply chosen_no; [done|constructor]. Qed.

Lemma elem_of_concat {A} (x : A) ls : x ∈ concat ls <-> exists l, x ∈ l /\ l ∈ ls.
Proof. induction ls as [|l ls IH]; cbn [concat]; [split; [by intros ?%elem_of_nil|intros (? & _ & K); by apply elem_of_nil in K]|]. rewrite elem_of_app, IH. setoid_rewrite elem_of_cons. naive_solver. Qed.
Lemma check_Ok (c : bool) x : check c = Ok x -> c = true.
Proof. by destruct c. Qed.
Lemma run_obs_snoc {S O R} (step : S -> O -> outcome (S * R)) s l o s1 rs s2 x : run_obs step s l = Ok (s1, rs) -> step s1 o = Ok (s2, x) -> run_obs step s (l ++ [o]) = Ok (s2, rs ++ [x]).
Proof.
  revert s rs. induction l as [|o' l IH]; intros s rs; cbn [run_obs app].
  - intros [= <- <-] Hx. rewrite Hx. done.
  - destruct (step s o') as [[s' x']| | |]; cbn [mbind outcome_bind]; [|done|done|done]. destruct (run_obs step s' l) as [[s'' rs'']| | |] eqn:Er; cbn [mbind outcome_bind]; [|done|done|done].
    intros [= <- <-] Hx. rewrite (IH _ _ Er Hx). done.
Qed.
Lemma run_obs_app' {S O R} (step : S -> O -> outcome (S * R)) s l1 l2 s1 rs1 s2 rs2 : run_obs step s l1 = Ok (s1, rs1) -> run_obs step s1 l2 = Ok (s2, rs2) -> run_obs step s (l1 ++ l2) = Ok (s2, rs1 ++ rs2).
Proof.
  revert s rs1. induction l1 as [|o' l IH]; intros s rs; cbn [run_obs app].
  - intros [= <- <-] Hx. rewrite Hx. done.
  - destruct (step s o') as [[s' x']| | |]; cbn [mbind outcome_bind]; [|done|done|done]. destruct (run_obs step s' l) as [[s'' rs'']| | |] eqn:Er; cbn [mbind outcome_bind]; [|done|done|done].
    intros [= <- <-] Hx. rewrite (IH _ _ Er Hx). done.
Qed.

Section calls.
Context {F : Type} `{Countable F} {C D E P : Type}.
Context (c0 : C) (d0 : D).
Context (filename : string -> string) (with_prior : P -> C -> C) (focal_set : C -> bool) (swap : E -> outcome E).
Notation pair_match := (string * string * E * list (F * F))%type.
Notation step := (builder_step c0 filename with_prior focal_set swap).
Notation idn := rc_view_id_from_name.
Implicit Types (r : recon F C D) (b : builder F C D E P) (acc ms : list pair_match).

Definition reached (n : nat) r : Prop := exists rops rs, (length rops <= n)%nat /\ run_obs (rc_step c0 d0) rc_empty rops = Ok (r, rs).

Lemma reached_step n r op r' x : reached n r -> rc_step c0 d0 r op = Ok (r', x) -> reached (S n) r'.
Proof. intros (rops & rs & Hl & Hr) Hs. exists (rops ++ [op]), (rs ++ [x]). split; [rewrite app_length; cbn; lia|]. by eapply run_obs_snoc. Qed.
Lemma reached_le n m r : (n <= m)%nat -> reached n r -> reached m r.
Proof. intros Hle (rops & rs & Hl & Hr). exists rops, rs. split; [lia|done]. Qed.

(** Names of a reached reconstruction. *)
Lemma reached_names n r nm u : (N.of_nat n < 2 ^ 31)%N -> reached n r -> rc_names r !! nm = Some u ->
  is_Some (rc_views r !! u) /\ (u < 2 ^ 31)%N /\ forall nm', rc_names r !! nm' = Some u -> nm' = nm.
Proof.
  intros Hn (rops & rs & Hl & Hr) Hu. destruct (reach_rel c0 d0 rops r rs) as (a & _ & R & W & Hv & _); [unfold few; lia|done|].
  pose proof (proj1 (rel_names r a R nm u) Hu) as (v & Hav & Hname). split; [|split].
  - destruct (rel_view_Some' r a u v R Hav) as (x & ? & _). eauto.
  - pose proof (wf_view a W u (mk_is_Some _ _ Hav)). lia.
  - intros nm' Hu'. apply (rel_names r a R) in Hu' as (v' & Hav' & Hname'). congruence.
Qed.
Lemma idn_some n r nm : (N.of_nat n < 2 ^ 31)%N -> reached n r -> idn r nm <> kInvalidId <-> is_Some (rc_names r !! nm).
Proof.
  intros Hn Hr. unfold idn, default. destruct (rc_names r !! nm) as [u|] eqn:Eu.
  - split; [eauto|]. intros _. destruct (reached_names n r nm u Hn Hr Eu) as (_ & Hu & _). unfold kInvalidId, id. lia.
  - split; [done|]. by intros [? ?].
Qed.
Lemma idn_eq n r nm nm' : (N.of_nat n < 2 ^ 31)%N -> reached n r -> is_Some (rc_names r !! nm) -> is_Some (rc_names r !! nm') -> idn r nm = idn r nm' -> nm = nm'.
Proof.
  intros Hn Hr [u Hu] [u' Hu']. unfold idn. rewrite Hu, Hu'. cbn [default id]. intros <-. symmetry. by apply (reached_names n r nm u Hn Hr Hu).
Qed.

(** [r'] has the names and views of [r], with the same data, and possibly more. *)
Definition grows r r' : Prop :=
  (forall nm u, rc_names r !! nm = Some u -> rc_names r' !! nm = Some u) /\ (forall u v, rc_views r !! u = Some v -> rc_views r' !! u = Some v).
Lemma grows_refl r : grows r r. Proof. done. Qed.
Lemma grows_idn r r' nm : grows r r' -> is_Some (rc_names r !! nm) -> idn r' nm = idn r nm.
Proof. intros [K _] [u Hu]. unfold idn. by rewrite Hu, (K nm u Hu). Qed.


Lemma reached_next n r : (N.of_nat n < 2 ^ 31)%N -> reached n r -> (rc_next_view r <= N.of_nat n)%N /\ rc_views r !! rc_next_view r = None.
Proof.
  intros Hn (rops & rs & Hl & Hr). destruct (reach_rel c0 d0 rops r rs) as (a & _ & R & W & Hv & _); [unfold few; lia|done|].
  rewrite (rel_next_view r a R). split; [lia|]. apply (rel_view_None r a); [done|]. apply eq_None_not_Some. intros K%(wf_view a W). lia.
Qed.

Lemma add_view_group_grows n o r nm g r' id : (N.of_nat n < 2 ^ 31)%N -> reached n r -> rc_add_view_group c0 o r nm g = Ok (r', id) ->
  grows r r' /\ rc_tracks r' = rc_tracks r /\ (id = kInvalidId \/ rc_views r !! id = None).
Proof.
  intros Hn Hr. destruct (reached_next n r Hn Hr) as [Hnext Hfresh]. unfold rc_add_view_group.
  destruct (rc_names r !! nm) eqn:En; [intros [= <- <-]; split; [done|]; split; [done|]; by left|].
  destruct (decide (nm = EmptyString)); [intros [= <- <-]; split; [done|]; split; [done|]; by left|].
  intros (ptr & _ & K)%bind_Ok. injection K as <- <-.
  rewrite wrap32_pred by lia. split; [|split; [done|by right]]. split; cbn [rc_names rc_views].
  - intros nm' u Hu. unfold emplace. rewrite En. destruct (decide (nm' = nm)) as [->|]; [congruence|]. by rewrite lookup_insert_ne.
  - intros u v Hv. unfold emplace. rewrite Hfresh. destruct (decide (u = rc_next_view r)) as [->|]; [congruence|]. by rewrite lookup_insert_ne.
Qed.

Lemma set_view_lookup r u est c x : rc_views (rc_set_view r u est c) !! x = (if decide (x = u) then (fun v => View (v_name v) est (v_intr v) c (v_feats v)) <$> rc_views r !! x else rc_views r !! x).
Proof. unfold rc_set_view. cbn [rc_views set_views]. destruct (decide (x = u)) as [->|]; [by rewrite lookup_alter|by rewrite lookup_alter_ne]. Qed.

Lemma add_view_to_grows n o path p g r r' ok : (N.of_nat n < 2 ^ 31)%N -> reached n r -> add_view_to c0 filename with_prior o path p g r = Ok (r', ok) ->
  reached (2 + n) r' /\ grows r r' /\ rc_tracks r' = rc_tracks r.
Proof.
  intros Hn Hr. unfold add_view_to. intros (_ & _ & K)%bind_Ok. apply bind_Ok in K as ([r1 id] & Hadd & K).
  assert (Hadd' : reached (S n) r1 /\ grows r r1 /\ rc_tracks r1 = rc_tracks r /\ (id = kInvalidId \/ rc_views r !! id = None)).
  { destruct (decide (g = kInvalidId)).
    - split; [apply (reached_step n r (OAddView o (filename path)) r1 (RId id) Hr); cbn [rc_step]; by rewrite Hadd|].
      unfold rc_add_view in Hadd. apply bind_Ok in Hadd as ([r2 id2] & Hadd & K2). destruct (add_view_group_grows n o r _ _ r2 id2 Hn Hr Hadd) as (G & T & Hid).
      injection K2 as <- <-. split; [exact G|]. by split.
    - split; [apply (reached_step n r (OAddViewGroup o (filename path) g) r1 (RId id) Hr); cbn [rc_step]; by rewrite Hadd|].
      by apply (add_view_group_grows n o r (filename path) g r1 id Hn Hr). }
  clear Hadd. destruct Hadd' as (Hr1 & G & T & Hid).
  destruct (decide (id = kInvalidId)) as [|Hne]; [injection K as <- <-; split; [apply (reached_le (S n)); [lia|done]|done]|].
  destruct p as [p|]; [|injection K as <- <-; split; [apply (reached_le (S n)); [lia|done]|done]].
  apply bind_Ok in K as (v & Hv & K). injection K as <- <-. split; [|split; [|done]].
  - apply (reached_step (S n) r1 (OSetView id (v_est v) (with_prior p (v_data v))) _ RVoid Hr1). done.
  - destruct Hid as [|Hid]; [done|]. destruct G as [G1 G2]. split; [exact G1|]. intros u w Hw. rewrite set_view_lookup, decide_False; [by apply G2|]. intros ->. congruence.
Qed.

Lemma set_priors_reached n r r' ps : (N.of_nat (n + length ps) < 2 ^ 31)%N -> reached n r -> run_steps (set_prior_of with_prior) r ps = Ok r' ->
  reached (length ps + n) r' /\ rc_names r' = rc_names r /\ rc_tracks r' = rc_tracks r.
Proof.
  revert n r. induction ps as [|np ps IH]; intros n r Hn Hr; [intros [= <-]; done|]. cbn [run_steps]. intros (r1 & H1 & Hrun)%bind_Ok.
  unfold set_prior_of in H1. apply bind_Ok in H1 as (v & Hv & K). cbn [length] in Hn.
  assert (Hr1 : reached (S n) r1 /\ rc_names r1 = rc_names r /\ rc_tracks r1 = rc_tracks r).
  { injection K as <-. split; [|done]. by apply (reached_step n r (OSetView (rc_view_id_from_name r np.1) (v_est v) (with_prior np.2 (v_data v))) _ RVoid Hr). }
  destruct Hr1 as (Hr1 & Hn1 & Ht1). destruct (IH (S n) r1) as (Hr2 & Hn2 & Ht2); [lia|done|done|].
  split; [apply (reached_le (length ps + S n)); [cbn [length]; lia|done]|]. by rewrite Hn2, Ht2.
Qed.

(** Correspondences and edges depend on the ids of the views of the matches only. *)
Lemma corrs_ext (id id' : string -> N) ms : (forall m : pair_match, m ∈ ms -> id m.1.1.1 = id' m.1.1.1 /\ id m.1.1.2 = id' m.1.1.2) -> correspondences id ms = correspondences id' ms.
Proof.
  intros K. unfold correspondences. f_equal. induction ms as [|m ms IH]; [done|]. rewrite !fmap_cons. f_equal.
  - destruct (K m) as [-> ->]; [by left|done].
  - apply IH. intros m' Hm'. apply K. by right.
Qed.
Lemma corrs_app (id : string -> N) ms ms' : correspondences (F := F) (E := E) id (ms ++ ms') = correspondences id ms ++ correspondences id ms'.
Proof. unfold correspondences. by rewrite fmap_app, concat_app. Qed.
Definition graph_step (id : string -> N) (g : view_graph E) (m : pair_match) : outcome (view_graph E) :=
  add_match_to_graph swap (id m.1.1.1) (id m.1.1.2) m.1.2 g.
Lemma graph_ext (id id' : string -> N) ms g : (forall m : pair_match, m ∈ ms -> id m.1.1.1 = id' m.1.1.1 /\ id m.1.1.2 = id' m.1.1.2) -> run_steps (graph_step id) g ms = run_steps (graph_step id') g ms.
Proof.
  revert g. induction ms as [|m ms IH]; intros g K; [done|]. cbn [run_steps].
  assert (graph_step id g m = graph_step id' g m) as -> by (unfold graph_step; destruct (K m) as [-> ->]; [by left|done]).
  destruct (graph_step id' g m); cbn [mbind outcome_bind]; [|done|done|done]. apply IH. intros m' Hm'. apply K. by right.
Qed.

Definition known r (m : pair_match) : Prop := is_Some (rc_names r !! m.1.1.1) /\ is_Some (rc_names r !! m.1.1.2).
Lemma grows_known r r' m : grows r r' -> known r m -> known r' m.
Proof. intros [G _] [[u Hu] [u' Hu']]. split; eexists; by apply G. Qed.
Lemma grows_cal n r r' nm : (N.of_nat n < 2 ^ 31)%N -> reached n r -> grows r r' -> is_Some (rc_names r !! nm) -> calibrated focal_set r (idn r nm) <-> calibrated focal_set r' (idn r' nm).
Proof.
  intros Hn Hr G Hs. rewrite (grows_idn r r' nm G Hs). destruct Hs as [u Hu]. destruct (reached_names n r nm u Hn Hr Hu) as ([v Hv] & _).
  unfold idn. rewrite Hu. cbn [default id]. destruct G as [_ G]. pose proof (G u v Hv) as Hv'. unfold calibrated. split; intros (w & Hw & Hf); exists w; split; try done; congruence.
Qed.
Lemma grows_usable n opts r r' m : (N.of_nat n < 2 ^ 31)%N -> reached n r -> grows r r' -> known r m -> usable focal_set opts r m <-> usable focal_set opts r' m.
Proof. intros Hn Hr G [H1 H2]. unfold usable. by rewrite (grows_cal n r r' _ Hn Hr G H1), (grows_cal n r r' _ Hn Hr G H2). Qed.

Record inv (opts : options) (n : nat) (q : Prop) ms acc b : Prop := Inv {
  i_opts : b_options b = opts;
  i_reached : reached n (b_recon b);
  i_notracks : rc_tracks (b_recon b) = ∅;
  i_known : forall m, m ∈ ms -> known (b_recon b) m;
  i_sub : acc `sublist_of` ms;
  i_ne : forall m, m ∈ acc -> m.1.1.1 <> m.1.1.2;
  i_tracks : exists t0 t, tb_new (bo_min_track opts) (bo_max_track opts) = Ok t0 /\ b_tracks b = Some t /\
    run_steps tb_add t0 (correspondences (idn (b_recon b)) acc) = Ok t;
  i_graph : run_steps (graph_step (idn (b_recon b))) vg_empty acc = Ok (b_graph b);
  i_cal : bo_only_calibrated opts = true -> forall m, m ∈ acc -> calibrated focal_set (b_recon b) (idn (b_recon b) m.1.1.1) /\ calibrated focal_set (b_recon b) (idn (b_recon b) m.1.1.2);
  i_chosen : q -> chosen (usable focal_set opts (b_recon b)) ms acc }.

Lemma sub_elem {A} (l l' : list A) x : l `sublist_of` l' -> x ∈ l -> x ∈ l'.
Proof. induction 1; [by intros ?%elem_of_nil| |]; rewrite ?elem_of_cons; tauto. Qed.

Lemma inv_new opts b (q : Prop) : new_builder opts = Ok b -> inv opts 0 q [] [] b.
Proof.
  unfold new_builder. intros (_ & _ & K)%bind_Ok. apply bind_Ok in K as (t & Ht & K). injection K as <-. split; try done.
  - exists [], []. done.
  - intros m Hm. by apply elem_of_nil in Hm.
  - intros m Hm. by apply elem_of_nil in Hm.
  - exists t, t. done.
  - intros _ m Hm. by apply elem_of_nil in Hm.
  - intros _. constructor.
Qed.

Lemma inv_add_image opts n q ms acc b o path p g b' ok : (N.of_nat n < 2 ^ 31)%N -> inv opts n q ms acc b -> add_image c0 filename with_prior o b path p g = Ok (b', ok) -> inv opts (2 + n) q ms acc b'.
Proof.
  intros Hn I. unfold add_image. intros ([r1 ok1] & Hadd & K)%bind_Ok. destruct (add_view_to_grows n _ _ _ _ _ _ _ Hn (i_reached _ _ _ _ _ _ I) Hadd) as (Hr1 & G & T).
  assert (Hb' : b_options b' = b_options b /\ b_tracks b' = b_tracks b /\ b_recon b' = r1 /\ b_graph b' = b_graph b).
  { destruct ok1; cbn [negb] in K; [apply bind_Ok in K as (? & _ & K)|]; injection K as <- <-; done. }
  clear K Hadd. destruct Hb' as (Ho & Ht & Hrc & Hg). destruct I as [I1 I2 I3 I4 I5 I6 I7 I8 I9 I10].
  assert (Hid : forall m, m ∈ acc -> idn (b_recon b') m.1.1.1 = idn (b_recon b) m.1.1.1 /\ idn (b_recon b') m.1.1.2 = idn (b_recon b) m.1.1.2).
  { intros m Hm. destruct (I4 m (sub_elem _ _ _ I5 Hm)) as [H1 H2]. rewrite Hrc. split; by apply grows_idn. }
  split.
  - congruence.
  - by rewrite Hrc.
  - by rewrite Hrc, T.
  - intros m Hm. rewrite Hrc. eapply grows_known; eauto.
  - done.
  - done.
  - destruct I7 as (t0 & t & H1 & H2 & H3). exists t0, t. split; [done|]. split; [congruence|]. by rewrite (corrs_ext (idn (b_recon b')) (idn (b_recon b)) acc Hid).
  - rewrite (graph_ext (idn (b_recon b')) (idn (b_recon b)) acc _ Hid). by rewrite Hg.
  - intros Hc m Hm. destruct (I4 m (sub_elem _ _ _ I5 Hm)) as [H1 H2]. rewrite Hrc. rewrite <- (grows_cal n _ _ _ Hn I2 G H1), <- (grows_cal n _ _ _ Hn I2 G H2). by apply I9.
  - intros Hq. apply (chosen_ext (usable focal_set opts (b_recon b))); [|by apply I10]. intros m Hm. rewrite Hrc. apply (grows_usable n); auto.
Qed.

Lemma add_tracks_run u1 u2 (cs : list (F * F)) t t' : add_tracks_for_match u1 u2 cs (Some t) = Ok t' -> exists t1, t' = Some t1 /\ run_steps tb_add t ((fun c => ((u1, c.1), (u2, c.2))) <$> cs) = Ok t1.
Proof.
  revert t. unfold add_tracks_for_match. induction cs as [|c cs IH]; intros t; cbn [run_steps fmap list_fmap].
  - intros [= <-]. by exists t.
  - intros (x & Hx & K)%bind_Ok. cbn [or_ub mbind outcome_bind] in Hx. apply bind_Ok in Hx as (t1 & Ht1 & Hx). injection Hx as <-. destruct (IH t1 K) as (t2 & -> & Hr).
    exists t2. split; [done|]. rewrite Ht1. done.
Qed.

Lemma add_match_inv opts n q ms acc b n1 n2 info cs b' ok : (N.of_nat n < 2 ^ 31)%N -> inv opts n q ms acc b -> add_match focal_set swap b n1 n2 info cs = Ok (b', ok) ->
  exists acc', inv opts n q (ms ++ [(n1, n2, info, cs)]) acc' b' /\ b_recon b' = b_recon b.
Proof.
  intros Hn I. unfold add_match. intros (_ & H1%check_Ok & K)%bind_Ok. apply bind_Ok in K as (_ & H2%check_Ok & K).
  apply negb_true_iff, bool_decide_eq_false in H1, H2.
  set (r := b_recon b) in *. destruct I as [I1 I2 I3 I4 I5 I6 I7 I8 I9 I10]. fold r in I2, I3, I4, I7, I8, I9, I10.
  pose proof (proj1 (idn_some n r n1 Hn I2) H1) as Hs1. pose proof (proj1 (idn_some n r n2 Hn I2) H2) as Hs2. clear H1 H2.
  apply bind_Ok in K as (skip & Hskip & K). rewrite I1 in Hskip.
  assert (Hsk : if skip then bo_only_calibrated opts = true /\ ~ (calibrated focal_set r (idn r n1) /\ calibrated focal_set r (idn r n2))
                else bo_only_calibrated opts = true -> calibrated focal_set r (idn r n1) /\ calibrated focal_set r (idn r n2)).
  { destruct (bo_only_calibrated opts); [|by injection Hskip as <-]. apply bind_Ok in Hskip as (v1 & Hv1 & Hskip).
    apply or_ub_Ok in Hv1. destruct (focal_set (v_data v1)) eqn:E1; cbn [negb] in Hskip.
    - apply bind_Ok in Hskip as (v2 & Hv2 & Hskip). apply or_ub_Ok in Hv2. destruct (focal_set (v_data v2)) eqn:E2; injection Hskip as <-; cbn [negb].
      + intros _. split; eexists; eauto.
      + split; [done|]. intros [_ (w & Hw & Hf)]. congruence.
    - injection Hskip as <-. split; [done|]. intros [(w & Hw & Hf) _]. congruence. }
  clear Hskip. set (m := (n1, n2, info, cs) : pair_match).
  assert (Hkn : forall m', m' ∈ ms ++ [m] -> known r m').
  { intros m' [Hm|Hm%elem_of_list_singleton]%elem_of_app; [by apply I4|]. subst m'. by split. }
  destruct skip.
  - injection K as <- <-. exists acc. split; [|done]. split; try done.
    + by apply sublist_inserts_r.
    + intros Hq. fold r. rewrite <- (app_nil_r acc). apply chosen_app; [by apply I10|]. apply chosen_none. intros [_ Hu]. destruct Hsk as [Hc Hsk]. by apply Hsk, Hu.
  - apply bind_Ok in K as (g & Hg & K). apply bind_Ok in K as (t' & Ht & K). destruct I7 as (t0 & t & T0 & T1 & T2). rewrite T1 in Ht.
    apply add_tracks_run in Ht as (t1 & -> & Ht). injection K as <- <-. destruct (decide (n1 = n2)) as [<-|Hne].
    + exists acc. split; [|done]. cbn [b_recon b_options b_tracks b_graph b_paths b_matcher] in *.
      assert (Hcs : cs = []). { destruct cs as [|c cs]; [done|]. cbn [fmap list_fmap run_steps] in Ht. apply bind_Ok in Ht as (? & Ht & _). unfold tb_add in Ht. cbn [fst] in Ht. by rewrite bool_decide_eq_false_2 in Ht by naive_solver. }
      subst cs. injection Ht as <-.
      assert (Hgg : g = b_graph b). { unfold add_match_to_graph in Hg. rewrite decide_False in Hg by lia. cbn [mbind outcome_bind] in Hg. unfold vg_add_edge in Hg. rewrite decide_True in Hg by done. by injection Hg as <-. }
      subst g. split; cbn [b_recon b_options b_tracks b_graph]; fold r; try done.
      * by apply sublist_inserts_r.
      * exists t0, t. done.
      * intros Hq. rewrite <- (app_nil_r acc). apply chosen_app; [by apply I10|]. apply chosen_none. by intros [Hu _].
    + exists (acc ++ [m]). split; [|done]. split; cbn [b_recon b_options b_tracks b_graph]; fold r; try done.
      * by apply sublist_app.
      * intros m' [Hm|Hm%elem_of_list_singleton]%elem_of_app; [by apply I6|]. by subst m'.
      * exists t0, t1. split; [done|]. split; [done|]. rewrite corrs_app, run_steps_app, T2. cbn [mbind outcome_bind]. unfold correspondences. cbn [fmap list_fmap concat]. by rewrite app_nil_r.
      * rewrite run_steps_app, I8. cbn [mbind outcome_bind run_steps]. unfold graph_step. cbn [fst snd m]. by rewrite Hg.
      * intros Hc m' [Hm|Hm%elem_of_list_singleton]%elem_of_app; [by apply I9|]. subst m'. by apply Hsk.
      * intros Hq. apply chosen_app; [by apply I10|]. apply chosen_one. split; [done|]. exact Hsk.
Qed.

Lemma add_matches_inv opts n q ms acc b xs b' : (N.of_nat n < 2 ^ 31)%N -> inv opts n q ms acc b ->
  run_steps (fun b (m : pair_match) => '(b, _) ← add_match focal_set swap b m.1.1.1 m.1.1.2 m.1.2 m.2; Ok b) b xs = Ok b' -> exists acc', inv opts n q (ms ++ xs) acc' b'.
Proof.
  intros Hn. revert ms acc b. induction xs as [|[[[n1 n2] i] cs] xs IH]; intros ms acc b I; cbn [run_steps].
  - intros [= <-]. exists acc. by rewrite app_nil_r.
  - intros (b1 & H1 & K)%bind_Ok. apply bind_Ok in H1 as ([b2 ok] & H1 & K1). injection K1 as <-. destruct (add_match_inv opts n q ms acc b _ _ _ _ _ _ Hn I H1) as (acc1 & I1 & _).
    destruct (IH _ _ _ I1 K) as (acc2 & I2). exists acc2. by rewrite <- app_assoc in I2.
Qed.

(** The graph of at least one match of two views has two views. *)
Lemma vg_add_edge_size (g : view_graph E) a c i : (vg_num_views g <= vg_num_views (vg_add_edge g a c i))%nat /\ (a <> c -> 2 <= vg_num_views (vg_add_edge g a c i))%nat.
Proof.
  unfold vg_num_views, vg_add_edge. destruct (decide (a = c)); [done|]. cbn [vg_vertices]. unfold vertex_insert. rewrite <- !size_dom. split.
  - apply subseteq_size. rewrite !dom_insert_L. set_solver.
  - intros _. transitivity (size ({[a; c]} : gset N)).
    + rewrite size_union by set_solver. by rewrite !size_singleton.
    + apply subseteq_size. rewrite !dom_insert_L. set_solver.
Qed.
Lemma graph_step_inv id g m g' : graph_step id g m = Ok g' -> exists i, (oriented swap id m i \/ id m.1.1.1 = id m.1.1.2) /\ g' = vg_add_edge g (id m.1.1.1) (id m.1.1.2) i.
Proof.
  unfold graph_step, add_match_to_graph. intros (i & Hi & K)%bind_Ok. injection K as <-. exists i. split; [|done]. unfold oriented. destruct (decide _) as [Hlt|Hge].
  - left. by right.
  - injection Hi as <-. destruct (decide (id m.1.1.1 = id m.1.1.2)); [by right|]. left. left. split; [lia|done].
Qed.
Lemma graph_size id acc g g' : run_steps (graph_step id) g acc = Ok g' -> (vg_num_views g <= vg_num_views g')%nat /\ (acc <> [] -> (forall m, m ∈ acc -> id m.1.1.1 <> id m.1.1.2) -> 2 <= vg_num_views g')%nat.
Proof.
  revert g. induction acc as [|m acc IH]; intros g; cbn [run_steps]; [intros [= <-]; done|]. intros (g1 & H1 & K)%bind_Ok.
  apply graph_step_inv in H1 as (i & _ & ->). destruct (IH _ K) as [H1 H2]. destruct (vg_add_edge_size g (id m.1.1.1) (id m.1.1.2) i) as [H3 H4]. split; [lia|].
  intros _ Hne. specialize (H4 (Hne m ltac:(by left))). lia.
Qed.

Lemma inv_id_ne opts n q ms acc b : (N.of_nat n < 2 ^ 31)%N -> inv opts n q ms acc b -> forall m, m ∈ acc -> idn (b_recon b) m.1.1.1 <> idn (b_recon b) m.1.1.2.
Proof.
  intros Hn I m Hm Heq. destruct (i_known _ _ _ _ _ _ I m (sub_elem _ _ _ (i_sub _ _ _ _ _ _ I) Hm)) as [H1 H2].
  apply (i_ne _ _ _ _ _ _ I m Hm). by apply (idn_eq n (b_recon b) _ _ Hn (i_reached _ _ _ _ _ _ I)).
Qed.

Lemma extract_inv opts n (q : Prop) ms acc b ps xs b' ok : (N.of_nat (n + length ps) < 2 ^ 31)%N -> inv opts n q ms acc b -> (q -> bo_only_calibrated opts = false \/ ms = []) ->
  extract with_prior focal_set swap b ps xs = Ok (b', ok) -> exists acc', inv opts (length ps + n) q (ms ++ xs) acc' b'.
Proof.
  intros Hn I Hq. unfold extract. intros (_ & H1%check_Ok%bool_decide_eq_true & K)%bind_Ok. apply bind_Ok in K as (_ & _ & K).
  apply bind_Ok in K as (r1 & Hr1 & K). apply bind_Ok in K as (b1 & Hb1 & K). injection K as <- <-.
  assert (Hacc : acc = []).
  { destruct acc as [|m acc]; [done|]. assert (2 <= vg_num_views (b_graph b))%nat; [|lia]. apply (graph_size _ _ _ _ (i_graph _ _ _ _ _ _ I)); [done|]. apply (inv_id_ne opts n q ms (m :: acc)); [lia|done]. }
  subst acc. destruct (set_priors_reached n (b_recon b) r1 ps Hn (i_reached _ _ _ _ _ _ I) Hr1) as (Hr & Hnames & Htr).
  eapply (add_matches_inv opts (length ps + n) q ms []); [lia| |exact Hb1]. destruct I as [I1 I2 I3 I4 I5 I6 I7 I8 I9 I10]. split; cbn [b_recon b_options b_tracks b_graph]; try done.
  - by rewrite Htr.
  - intros m Hm. destruct (I4 m Hm). unfold known. by rewrite Hnames.
  - intros _ m Hm. by apply elem_of_nil in Hm.
  - intros Hqq. apply (chosen_ext (usable focal_set opts (b_recon b))); [|by apply I10]. intros m Hm. destruct (Hq Hqq) as [Hc| ->]; [|by apply elem_of_nil in Hm].
    unfold usable. rewrite Hc. clear. split; intros [? ?]; by split.
Qed.

Lemma calls_inv opts n (q : Prop) ops ms acc b b' rs : (N.of_nat (n + 2 * length ops + priors_of ops) < 2 ^ 31)%N -> inv opts n q ms acc b ->
  (q -> bo_only_calibrated opts = false \/ forall ops1 ps xs ops2, ops = ops1 ++ BExtract ps xs :: ops2 -> ms ++ matches_of ops1 = []) ->
  run_obs step b ops = Ok (b', rs) -> exists acc', inv opts (n + 2 * length ops + priors_of ops) q (ms ++ matches_of ops) acc' b'.
Proof.
  revert n ms acc b rs. induction ops as [|op ops IH]; intros n ms acc b rs Hn I Hq; cbn [run_obs].
  - intros [= <- <-]. exists acc. unfold matches_of. cbn [fmap list_fmap concat length priors_of foldr]. rewrite app_nil_r. by replace (n + 2 * 0 + 0)%nat with n by lia.
  - intros ([b1 x] & Hstep & K)%bind_Ok. apply bind_Ok in K as ([b2 rs2] & Hrun & K). injection K as <- <-. cbn [length] in *.
    set (d := match op with BExtract ps _ => length ps | _ => 0%nat end). set (xs := match op with BAddMatch n1 n2 i cs => [(n1, n2, i, cs)] | BExtract _ ms => ms | _ => [] end).
    assert (Hp : priors_of (op :: ops) = (d + priors_of ops)%nat) by done. assert (Hx : matches_of (op :: ops) = xs ++ matches_of ops) by done.
    assert (H1 : exists acc1, inv opts (2 + d + n) q (ms ++ xs) acc1 b1).
    { destruct op as [o path p g|n1 n2 i cs|ps ms']; cbn [builder_step] in Hstep; unfold d, xs.
      - exists acc. rewrite app_nil_r. eapply (inv_add_image opts n q ms acc b); [lia|done|exact Hstep].
      - destruct (add_match_inv opts n q ms acc b n1 n2 i cs b1 x) as (acc1 & I1 & _); [lia|done|done|]. exists acc1. destruct I1 as [J1 J2 J3 J4 J5 J6 J7 J8 J9 J10]. split; try done. by apply (reached_le n); [lia|].
      - destruct (extract_inv opts n q ms acc b ps ms' b1 x) as (acc1 & I1); [rewrite Hp in Hn; unfold d in Hn; lia|done| |done|].
        { intros Hqq. destruct (Hq Hqq) as [Hc|Hc]; [by left|]. right. specialize (Hc [] ps ms' ops eq_refl). by rewrite app_nil_r in Hc. }
        exists acc1. destruct I1 as [J1 J2 J3 J4 J5 J6 J7 J8 J9 J10]. split; try done. by apply (reached_le (length ps + n)); [lia|]. }
    destruct H1 as (acc1 & I1). destruct (IH (2 + d + n)%nat (ms ++ xs) acc1 b1 rs2) as (acc2 & I2); [rewrite Hp in Hn; lia|done| |done|].
    + intros Hqq. destruct (Hq Hqq) as [Hc|Hc]; [by left|]. right. intros ops1 ps' xs' ops2 ->. rewrite <- app_assoc. apply (Hc (op :: ops1) ps' xs' ops2). done.
    + exists acc2. rewrite Hx, app_assoc. replace (n + 2 * S (length ops) + priors_of (op :: ops))%nat with (2 + d + n + 2 * length ops + priors_of ops)%nat by (rewrite Hp; lia). done.
Qed.

(** The edges of a list of matches. *)
Lemma view_id_pair_eq a a' c d : view_id_pair a a' = view_id_pair c d <-> a = c /\ a' = d \/ a = d /\ a' = c.
Proof. unfold view_id_pair. repeat case_decide; split; intros K; try (injection K as -> ->); try lia; try (destruct K as [[-> ->]|[-> ->]]); try done; try (f_equal; lia); lia. Qed.
Lemma vg_get_add_edge (g : view_graph E) a a' i c d : a <> a' -> vg_get_edge (vg_add_edge g a a' i) c d = if decide (view_id_pair a a' = view_id_pair c d) then Some i else vg_get_edge g c d.
Proof.
  intros Hne. unfold vg_get_edge, vg_add_edge. rewrite decide_False by done. cbn [vg_edges]. destruct (decide _) as [->|]; [by rewrite lookup_insert|by rewrite lookup_insert_ne].
Qed.
Lemma graph_edges id acc g : run_steps (graph_step id) vg_empty acc = Ok g -> (forall m, m ∈ acc -> id m.1.1.1 <> id m.1.1.2) ->
  forall a c i, vg_get_edge g a c = Some i <-> exists m, last_match id acc a c m /\ oriented swap id m i.
Proof.
  revert g. induction acc as [|m acc IH] using rev_ind; intros g; [intros [= <-] _ a c i|].
  - split; [unfold vg_get_edge; cbn; by rewrite lookup_empty|]. intros (m & (ms1 & ms2 & Hm & _) & _). by destruct ms1.
  - rewrite run_steps_app. intros (g1 & H1 & K)%bind_Ok. cbn [run_steps] in K. apply bind_Ok in K as (g2 & H2 & K). injection K as <-. intros Hne a c i.
    apply graph_step_inv in H2 as (j & Hj & ->). assert (Hm : id m.1.1.1 <> id m.1.1.2) by (apply Hne; set_solver). destruct Hj as [Hj|]; [|done].
    assert (Hu : forall i', oriented swap id m i' -> i' = j). { intros i'. destruct Hj as [[? ->]|[? Hj]]; intros [[? ->]|[? Hi]]; try lia; congruence. }
    assert (Hjm : view_id_pair (id m.1.1.1) (id m.1.1.2) = view_id_pair a c <-> joins id a c m). { rewrite view_id_pair_eq. unfold joins. clear. naive_solver. }
    rewrite vg_get_add_edge by done. destruct (decide _) as [Hd|Hd].
    + apply Hjm in Hd. split.
      * intros [= <-]. exists m. split; [|done]. exists acc, []. split; [done|]. split; [done|]. by intros ? ?%elem_of_nil.
      * intros (m' & (ms1 & ms2 & Hs & Hj' & Hl) & Ho). destruct ms2 as [|x ms2 _] using rev_ind.
        -- apply app_inj_tail in Hs as [_ <-]. f_equal. symmetry. by apply Hu.
        -- exfalso. rewrite app_comm_cons, app_assoc in Hs. apply app_inj_tail in Hs as [_ <-]. apply (Hl m); [set_solver|done].
    + rewrite (IH g1 H1) by (intros; apply Hne; set_solver). split.
      * intros (m' & (ms1 & ms2 & -> & Hj' & Hl) & Ho). exists m'. split; [|done]. exists ms1, (ms2 ++ [m]). split; [by rewrite <- app_assoc|]. split; [done|].
        intros x [Hx|Hx%elem_of_list_singleton]%elem_of_app; [by apply Hl|]. subst x. by rewrite <- Hjm.
      * intros (m' & (ms1 & ms2 & Hs & Hj' & Hl) & Ho). destruct ms2 as [|x ms2 _] using rev_ind.
        -- apply app_inj_tail in Hs as [_ <-]. by apply Hjm in Hj'.
        -- rewrite app_comm_cons, app_assoc in Hs. apply app_inj_tail in Hs as [-> <-]. exists m'. split; [|done]. exists ms1, ms2. split; [done|]. split; [done|]. intros y Hy. apply Hl. set_solver.
Qed.

(** *** Before the first estimate *)
Lemma new_with_inv opts ops b : moderate opts ops -> new_with c0 filename with_prior focal_set swap opts ops b ->
  exists acc, inv opts (2 * length ops + priors_of ops) (bo_only_calibrated opts = false \/ extracted_first ops) (matches_of ops) acc b.
Proof.
  intros (_ & _ & Hm) (b0 & rs & Hnew & Hrun).
  destruct (calls_inv opts 0 (bo_only_calibrated opts = false \/ extracted_first ops) ops [] [] b0 b rs) as (acc & I); [lia|by apply inv_new| |done|by exists acc].
  intros [K|K]; [by left|]. right. exact K.
Qed.

Definition same_views r r' : Prop := rc_names r' = rc_names r /\
  forall u, option_Forall2 (fun v v' => v_name v' = v_name v /\ v_est v' = v_est v /\ v_intr v' = v_intr v /\ v_data v' = v_data v) (rc_views r !! u) (rc_views r' !! u).
Lemma same_views_refl r : same_views r r.
Proof. split; [done|]. intros u. destruct (rc_views r !! u); constructor. done. Qed.
Lemma same_views_trans r1 r2 r3 : same_views r1 r2 -> same_views r2 r3 -> same_views r1 r3.
Proof.
  intros [N1 V1] [N2 V2]. split; [congruence|]. intros u. specialize (V1 u). specialize (V2 u).
  destruct (rc_views r1 !! u), (rc_views r2 !! u), (rc_views r3 !! u); inversion V1; inversion V2; subst; try constructor. repeat match goal with H : _ /\ _ |- _ => destruct H end. repeat split; congruence.
Qed.
Lemma add_track_loop_same r t vs obs r' vs' : add_track_loop r t vs obs = Ok (r', vs') -> same_views r r'.
Proof.
  revert r vs. induction obs as [|[u f] obs IH]; intros r vs; cbn [add_track_loop]; [intros [= <- <-]; apply same_views_refl|].
  intros (v & Hv & K)%bind_Ok. apply IH in K. eapply same_views_trans; [|exact K]. split; [done|]. intros x. cbn [rc_views set_views].
  assert (rc_views r !! u = Some v) as Hv' by (destruct (rc_views r !! u); [by injection Hv as ->|done]).
  destruct (decide (x = u)) as [->|]; [rewrite lookup_insert, Hv'; constructor; done|]. rewrite lookup_insert_ne by done. destruct (rc_views r !! x); constructor. done.
Qed.
Lemma add_tracks_same tracks : forall r r' rs, run_obs (rc_step c0 d0) r (OAddTrack <$> tracks) = Ok (r', rs) -> same_views r r'.
Proof.
  induction tracks as [|tr tracks IH]; intros r r' rs; cbn [fmap list_fmap run_obs]; [intros [= <- <-]; apply same_views_refl|].
  intros ([r1 x] & H1 & K)%bind_Ok. apply bind_Ok in K as ([r2 rs2] & H2 & K). injection K as <- <-. eapply same_views_trans; [|by eapply IH].
  cbn [rc_step] in H1. apply bind_Ok in H1 as ([r3 id] & H1 & K). injection K as <- _. unfold rc_add_track in H1.
  destruct (decide _); [injection H1 as <- _; apply same_views_refl|]. destruct (duplicate_views tr); [injection H1 as <- _; apply same_views_refl|].
  destruct (rc_tracks r !! rc_next_track r); [done|]. apply bind_Ok in H1 as ([r4 vs] & H1 & K). injection K as <- _. apply add_track_loop_same in H1. exact H1.
Qed.

(** There are no more tracks than ends of correspondences. *)
Lemma tracks_count mn mx (cs : list (corr F)) tracks : (2 <= mn)%N -> (0 < mx)%N -> Forall (fun e => e.1.1 <> e.2.1) cs -> are_tracks mn mx cs tracks -> (length tracks <= 2 * length cs)%nat.
Proof.
  intros Hmn Hmx Hne Ht. destruct (track_builder_valid F mn mx cs tracks Hmn Hmx Hne Ht) as [Hv Hd]. clear Ht.
  set (fs := concat ((fun e : corr F => [e.1; e.2]) <$> cs)).
  assert (Hl : length fs = (2 * length cs)%nat). { subst fs. clear. induction cs as [|e cs IH]; [done|]. cbn [fmap list_fmap concat app length] in *. lia. }
  assert (Hfs : forall k, occurs cs k -> k ∈ fs).
  { intros k (e & He & Hk). subst fs. apply elem_of_concat. exists [e.1; e.2]. split; [destruct Hk as [->| ->]; set_solver|]. apply elem_of_list_fmap. by exists e. }
  assert (Hh : exists hs, Forall2 (fun tr k => k ∈ tr) tracks hs).
  { clear -Hv. induction tracks as [|tr tracks IH]; [exists []; constructor|]. destruct IH as [hs Hhs]; [intros; apply Hv; by right|].
    destruct (Hv tr ltac:(by left)) as (_ & Hl & _). destruct tr as [|k tr]; [cbn in Hl; lia|]. exists (k :: hs). constructor; [by left|done]. }
  destruct Hh as [hs Hhs]. rewrite (Forall2_length _ _ _ Hhs), <- Hl. apply submseteq_length, NoDup_submseteq.
  - apply NoDup_alt. intros i j k Hi Hj. destruct (Forall2_lookup_r _ _ _ _ _ Hhs Hi) as (tr & Htr & K). destruct (Forall2_lookup_r _ _ _ _ _ Hhs Hj) as (tr' & Htr' & K'). by apply (Hd i j tr tr' k).
  - intros k [i Hi]%elem_of_list_lookup. destruct (Forall2_lookup_r _ _ _ _ _ Hhs Hi) as (tr & Htr & K). apply Hfs. destruct (Hv tr) as (_ & _ & _ & Ho & _); [by eapply elem_of_list_lookup_2|]. by apply Ho.
Qed.

Lemma part_all r (V : N -> Prop) : ok r -> (forall u, is_Some (rc_views r !! u) -> V u) -> part r V (fun _ => True) r.
Proof.
  intros (a & R & W) HV.
  assert (Hsees : forall u t, sees r u t -> V u). { intros u t (v & Hv & _). apply HV. eauto. }
  split; [intros u; split; [intros Hu; split; [done|by apply HV]|tauto]|].
  split. { intros u v v' Hv Hv'. assert (v' = v) as -> by congruence. repeat split; try done; tauto. }
  split. { intros t. split; [|tauto]. intros Ht. split; [done|]. split; [done|]. destruct Ht as [T HT].
    destruct (rel_track_Some r a t T R HT) as (aT & _ & _ & _ & Hok). destruct (decide (t_views T = ∅)) as [He|[u Hu]%set_choose_L].
    - right. intros u Hs. apply (sees_obs r a u t R W) in Hs. apply Hok in Hs. set_solver.
    - left. exists u. assert (sees r u t) as Hs; [|split; [done|by eapply Hsees]]. apply (sees_obs r a u t R W). by apply Hok. }
  split. { intros t x x' Hx Hx'. assert (x' = x) as -> by congruence. split; [done|]. split; [done|]. intros u. split; [|tauto]. intros Hu. split; [done|].
    destruct (rel_track_Some r a t x R Hx) as (aT & _ & _ & _ & Hok). apply Hok in Hu. apply (Hsees u t). by apply (sees_obs r a u t R W). }
  split.
  - intros nm u. split; [|tauto]. intros Hn. split; [done|]. apply (rel_names r a R) in Hn as (v & Hav & _). apply HV. destruct (rel_view_Some' r a u v R Hav) as (x & ? & _). eauto.
  - intros u gr. split; [|tauto]. intros Hg. split; [done|]. rewrite (rel_vgroup r a R) in Hg. destruct (a_views a !! u) as [v|] eqn:Hav; [|done]. apply HV. destruct (rel_view_Some' r a u v R Hav) as (x & ? & _). eauto.
Qed.

Lemma part_ext r (V V' T : N -> Prop) e : ok r -> (forall u, is_Some (rc_views r !! u) -> V u <-> V' u) -> part r V T e -> part r V' T e.
Proof.
  intros (a & R & W) HV (P1 & P2 & P3 & P4 & P5 & P6).
  assert (Hs : forall u t, sees r u t -> V u <-> V' u). { intros u t (v & Hv & _). apply HV. eauto. }
  split; [|split; [done|split; [|split; [|split]]]].
  - intros u. rewrite P1. clear -HV. specialize (HV u). tauto.
  - intros t. rewrite P3. clear -Hs. assert (K : (exists u, sees r u t /\ V u) <-> exists u, sees r u t /\ V' u); [|by rewrite K]. split; intros (u & H1 & H2); exists u; (split; [done|]); by apply (Hs u t).
  - intros t x x' Hx Hx'. destruct (P4 t x x' Hx Hx') as (K1 & K2 & K3). split; [done|]. split; [done|]. intros u. rewrite K3.
    destruct (rel_track_Some r a t x R Hx) as (aT & _ & _ & _ & Hok). split; intros [Hu Hx2]; (split; [done|]); apply Hok in Hu; apply (sees_obs r a u t R W) in Hu; by apply (Hs u t).
  - intros nm u. rewrite P5. split; intros [Hn HVu]; (split; [done|]); apply (rel_names r a R) in Hn as (v & Hav & _); destruct (rel_view_Some' r a u v R Hav) as (x & ? & _); apply HV; eauto.
  - intros u gr. rewrite P6. split; intros [Hg HVu]; (split; [done|]); rewrite (rel_vgroup r a R) in Hg; (destruct (a_views a !! u) as [v|] eqn:Hav; [|done]); destruct (rel_view_Some' r a u v R Hav) as (x & ? & _); apply HV; eauto.
Qed.

Lemma graph_vertices id acc g g' : run_steps (graph_step id) g acc = Ok g' -> forall u, is_Some (vg_vertices g' !! u) -> is_Some (vg_vertices g !! u) \/ exists m, m ∈ acc /\ (u = id m.1.1.1 \/ u = id m.1.1.2).
Proof.
  revert g. induction acc as [|m acc IH]; intros g; cbn [run_steps]; [intros [= <-]; by left|]. intros (g1 & H1 & K)%bind_Ok u Hu. apply graph_step_inv in H1 as (i & _ & ->).
  destruct (IH _ K u Hu) as [Hs|(m' & Hm' & Hu')]; [|right; exists m'; split; [by right|done]].
  unfold vg_add_edge in Hs. destruct (decide _); [by left|]. cbn [vg_vertices] in Hs. unfold vertex_insert in Hs.
  destruct (decide (u = id m.1.1.2)) as [->|]; [right; exists m; split; [by left|by right]|]. rewrite lookup_insert_ne in Hs by done.
  destruct (decide (u = id m.1.1.1)) as [->|]; [right; exists m; split; [by left|by left]|]. rewrite lookup_insert_ne in Hs by done. by left.
Qed.

(** Uncalibrated views that are not in the graph leave it alone. *)
Lemma uncalibrated_graph o l : forall (s s' : recon F C D * view_graph E) (g : view_graph E), (forall u, is_Some (vg_vertices g !! u) -> calibrated focal_set s.1 u) -> ok s.1 -> s.2 = g ->
  (forall u, u ∈ l -> is_Some (rc_views s.1 !! u)) -> NoDup l ->
  run_steps (uncalibrated_view focal_set o) s l = Ok s' -> s'.2 = g.
Proof.
  induction l as [|u l IH]; intros s s' g Hg Hok Hs Hl Hnd; cbn [run_steps]; [by intros [= <-]|]. intros (s1 & H1 & K)%bind_Ok.
  apply NoDup_cons in Hnd as [Hnu Hnd]. unfold uncalibrated_view in H1. apply bind_Ok in H1 as (v & Hv & H1). apply or_ub_Ok in Hv.
  destruct (focal_set (v_data v)) eqn:Ef; cbn [negb] in H1.
  - injection H1 as <-. eapply (IH s); [done|done|done| |done|done]. intros x Hx. apply Hl. by right.
  - destruct Hok as (a & R & W). destruct (remove_view_refines o s.1 a u R W) as (r1 & Hr1 & R1 & W1). rewrite Hr1 in H1. cbn [mbind outcome_bind] in H1. injection H1 as <-.
    assert (Hgu : vg_vertices g !! u = None). { apply eq_None_not_Some. intros Hx. destruct (Hg u Hx) as (w & Hw & Hf). congruence. }
    assert (Hrest : forall x v', x <> u -> a_views a !! x = Some v' -> a_views (spec_remove_view a u).1 !! x = Some v').
    { intros x v' Hx Hav. unfold spec_remove_view. destruct (decide (is_Some (a_views a !! u))); [|done]. cbn [fst a_views]. by rewrite lookup_delete_ne. }
    assert (Hkeep : forall x w, x <> u -> rc_views s.1 !! x = Some w -> exists w', rc_views r1 !! x = Some w' /\ v_data w' = v_data w).
    { intros x w Hx Hw. destruct (rel_view_Some s.1 a x w R Hw) as (aw & Haw & _ & _ & _ & Hd & _). destruct (rel_view_Some' r1 _ x aw R1 (Hrest x aw Hx Haw)) as (w' & Hw' & _ & _ & _ & Hd' & _). exists w'. split; [done|congruence]. }
    eapply (IH (r1, (vg_remove_view o s.2 u).1)); [| | | |done|exact K].
    + intros x Hx. cbn [fst]. destruct (Hg x Hx) as (w & Hw & Hf). destruct (decide (x = u)) as [->|Hxu]; [rewrite Hgu in Hx; by destruct Hx|]. destruct (Hkeep x w Hxu Hw) as (w' & Hw' & Hd). exists w'. split; [done|]. by rewrite Hd.
    + exists (spec_remove_view a u).1. done.
    + cbn [snd]. rewrite Hs. unfold vg_remove_view. by rewrite Hgu.
    + intros x Hx. cbn [fst]. destruct (Hl x ltac:(by right)) as [w Hw]. destruct (Hkeep x w) as (w' & Hw' & _); [by intros ->|done|]. eauto.
Qed.

Lemma prepare_new opts ops b os : moderate opts ops -> new_with c0 filename with_prior focal_set swap opts ops b ->
  exists acc, inv opts (2 * length ops + priors_of ops) (bo_only_calibrated opts = false \/ extracted_first ops) (matches_of ops) acc b /\
  (acc = [] -> prepare d0 focal_set os b = CheckFail) /\
  (acc <> [] -> exists b1 rt tracks ids, prepare d0 focal_set os b = Ok b1 /\
     run_obs (rc_step c0 d0) (b_recon b) (OAddTrack <$> tracks) = Ok (rt, RId <$> ids) /\ kInvalidId ∉ ids /\
     are_tracks (Z.to_N (bo_min_track opts)) (Z.to_N (bo_max_track opts)) (correspondences (idn (b_recon b)) acc) tracks /\
     ok rt /\ ok (b_recon b1) /\ same_views (b_recon b) rt /\ part rt (admitted focal_set b) (fun _ => True) (b_recon b1) /\
     b_graph b1 = b_graph b /\ b_options b1 = opts).
Proof.
  intros Hm Hw. destruct (new_with_inv opts ops b Hm Hw) as (acc & I). exists acc. split; [done|]. destruct Hm as (Hmin & Hmax & Hcount). unfold prepare. split.
  - intros ->. pose proof (i_graph _ _ _ _ _ _ I) as Hg. injection Hg as <-. done.
  - intros Hacc. assert (Hg : (2 <= vg_num_views (b_graph b))%nat).
    { apply (graph_size _ _ _ _ (i_graph _ _ _ _ _ _ I)); [done|]. eapply inv_id_ne; [|exact I]. lia. }
    rewrite bool_decide_eq_true_2 by done. cbn [check mbind outcome_bind]. rewrite decide_True by (by rewrite (i_notracks _ _ _ _ _ _ I), map_size_empty).
    destruct (i_tracks _ _ _ _ _ _ I) as (t0 & t & T0 & T1 & T2). rewrite T1. cbn [or_ub mbind outcome_bind].
    set (cs := correspondences (idn (b_recon b)) acc) in *. destruct (i_reached _ _ _ _ _ _ I) as (rops & rs & Hlr & Hr).
    assert (Hne : Forall (fun e => e.1.1 <> e.2.1) cs).
    { apply Forall_forall. intros e He. unfold cs, correspondences in He. apply elem_of_concat in He as (l & He & Hl). apply elem_of_list_fmap in Hl as (m & -> & Hm). apply elem_of_list_fmap in He as (c & -> & _). cbn [fst].
      revert m Hm. eapply inv_id_ne; [|exact I]. lia. }
    assert (Hlen : (length cs <= length (concat ((fun m : pair_match => m.2) <$> matches_of ops)))%nat).
    { unfold cs, correspondences. pose proof (i_sub _ _ _ _ _ _ I) as Hs. clear -Hs. induction Hs as [|m l l' Hs IH|m l l' Hs IH]; [done| |]; cbn [fmap list_fmap concat]; rewrite ?app_length, ?fmap_length; lia. }
    destruct (track_builder_exact F _ _ C D c0 d0 cs (bo_min_track opts) (bo_max_track opts) rops (b_recon b) rs (or_features os) (or_ids os) (or_components os)) as (t0' & t' & t'' & rt & tracks & ids & T0' & T1' & Hb & Htr & Hids & Hat); try done; try lia.
    { intros k (e & He & Hk). unfold cs, correspondences in He. apply elem_of_concat in He as (l & He & Hl). apply elem_of_list_fmap in Hl as (m & -> & Hm). apply elem_of_list_fmap in He as (c & -> & _). cbn [fst snd] in Hk.
      destruct (i_known _ _ _ _ _ _ I m (sub_elem _ _ _ (i_sub _ _ _ _ _ _ I) Hm)) as [[u1 H1] [u2 H2]].
      destruct (reached_names (2 * length ops + priors_of ops) _ _ _ ltac:(lia) (i_reached _ _ _ _ _ _ I) H1) as (K1 & _). destruct (reached_names (2 * length ops + priors_of ops) _ _ _ ltac:(lia) (i_reached _ _ _ _ _ _ I) H2) as (K2 & _).
      destruct Hk as [->| ->]; cbn [fst]; unfold idn; [rewrite H1|rewrite H2]; done. }
    assert (t0' = t0) as -> by congruence. assert (t' = t) as -> by congruence. rewrite Hb. cbn [mbind outcome_bind].
    pose proof (tracks_count (Z.to_N (bo_min_track opts)) (Z.to_N (bo_max_track opts)) cs tracks ltac:(lia) ltac:(lia) Hne Hat) as Htc.
    pose proof (run_obs_app' _ _ _ _ _ _ _ _ Hr Htr) as Hall.
    assert (Hokt : ok rt). { destruct (reach_rel c0 d0 (rops ++ (OAddTrack <$> tracks)) rt (rs ++ (RId <$> ids))) as (a & _ & R & W & _); [|done|by exists a]. unfold few. rewrite app_length, fmap_length. lia. }
    pose proof (add_tracks_same _ _ _ _ Htr) as Hsv. rewrite (i_opts _ _ _ _ _ _ I).
    assert (Hcal : forall u, calibrated focal_set rt u <-> calibrated focal_set (b_recon b) u).
    { intros u. destruct Hsv as [_ Hsv]. specialize (Hsv u). unfold calibrated. destruct (rc_views (b_recon b) !! u) as [v|], (rc_views rt !! u) as [v'|]; inversion Hsv as [? ? (_ & _ & _ & Hd)|]; subst; split; intros (w & Hw' & Hf); try done; injection Hw' as <-; eexists; (split; [done|]); congruence. }
    assert (Hin : forall u, is_Some (rc_views rt !! u) <-> is_Some (rc_views (b_recon b) !! u)).
    { intros u. destruct Hsv as [_ Hsv]. specialize (Hsv u). inversion Hsv; split; intros [? ?]; eauto; done. }
    destruct (bo_only_calibrated opts) eqn:Ec.
    + destruct (remove_uncalibrated_part focal_set (or_ids os) rt (b_graph b) Hokt) as (r1 & g1 & Hru & Hok1 & Hp1 & _). rewrite Hru. cbn [mbind outcome_bind].
      assert (g1 = b_graph b) as ->.
      { apply (uncalibrated_graph (or_ids os) _ (rt, b_graph b) (r1, g1) (b_graph b)) in Hru; try done.
        - intros u Hu. cbn [fst]. apply Hcal. destruct (graph_vertices _ _ _ _ (i_graph _ _ _ _ _ _ I) u Hu) as [Hx|(m & Hm & Hum)]; [cbn in Hx; rewrite lookup_empty in Hx; by destruct Hx|].
          destruct (i_cal _ _ _ _ _ _ I Ec m Hm) as [K1 K2]. by destruct Hum as [->| ->].
        - intros u. cbn [fst]. rewrite ord_perm, elem_of_elements, elem_of_dom. done.
        - cbn [fst]. rewrite ord_perm. apply NoDup_elements. }
      eexists _, rt, tracks, ids. split; [reflexivity|]. cbn [b_recon b_graph b_options]. repeat (split; [done|]). split; [|done].
      assert (Hext : forall u, is_Some (rc_views rt !! u) -> calibrated focal_set rt u <-> admitted focal_set b u).
      { intros u Hu. rewrite Hcal. unfold admitted. rewrite <- Hin, (i_opts _ _ _ _ _ _ I), Ec. clear -Hu. tauto. }
      by apply (part_ext rt (calibrated focal_set rt)).
    + cbn [mbind outcome_bind]. eexists _, rt, tracks, ids. split; [reflexivity|]. cbn [b_recon b_graph b_options]. repeat (split; [done|]). split; [|done].
      apply part_all; [done|]. intros u Hu. split; [by apply Hin|]. by rewrite (i_opts _ _ _ _ _ _ I), Ec.
Qed.

Lemma prepare_given opts r g os b : reachable c0 d0 r -> given_builder opts r g = Ok b ->
  b = Builder opts None r g [] None /\
  (rc_tracks r = ∅ -> (2 <= vg_num_views g)%nat -> prepare d0 focal_set os b = UB) /\
  ((vg_num_views g < 2)%nat -> prepare d0 focal_set os b = CheckFail) /\
  (rc_tracks r <> ∅ -> (2 <= vg_num_views g)%nat -> exists b1, prepare d0 focal_set os b = Ok b1 /\ ok (b_recon b1) /\ part r (admitted focal_set b) (fun _ => True) (b_recon b1) /\ b_options b1 = opts).
Proof.
  intros (rops & rs & Hl & Hr). unfold given_builder. intros (_ & _ & K)%bind_Ok. injection K as <-. split; [done|].
  destruct (reach_rel c0 d0 rops r rs) as (a & _ & R & W & _); [unfold few; lia|done|]. assert (Hok : ok r) by (by exists a).
  unfold prepare. cbn [b_graph b_recon b_tracks b_options]. split; [|split].
  - intros Ht Hg. rewrite bool_decide_eq_true_2 by done. cbn [check mbind outcome_bind]. rewrite decide_True by (by rewrite Ht, map_size_empty). done.
  - intros Hg. rewrite bool_decide_eq_false_2 by lia. done.
  - intros Ht Hg. rewrite bool_decide_eq_true_2 by done. cbn [check mbind outcome_bind]. rewrite decide_False by (by intros ?%map_size_empty_inv). cbn [mbind outcome_bind].
    destruct (bo_only_calibrated opts) eqn:Ec.
    + destruct (remove_uncalibrated_part focal_set (or_ids os) r g Hok) as (r1 & g1 & Hru & Hok1 & Hp1 & _). rewrite Hru. cbn [mbind outcome_bind]. eexists. split; [reflexivity|]. cbn [b_recon b_options]. split; [done|]. split; [|done].
      apply (part_ext r (calibrated focal_set r)); [done| |done]. intros u Hu. unfold admitted. cbn [b_recon b_options]. rewrite Ec. clear -Hu. tauto.
    + cbn [mbind outcome_bind]. eexists. split; [reflexivity|]. cbn [b_recon b_options]. split; [done|]. split; [|done]. apply part_all; [done|]. intros u Hu. split; [done|]. cbn [b_options]. by rewrite Ec.
Qed.

Lemma prepare_made b os b1 : made c0 d0 filename with_prior focal_set swap b -> prepare d0 focal_set os b = Ok b1 ->
  ok (b_recon b1) /\ b_options b1 = b_options b /\ (forall u, in_recon (b_recon b1) u <-> admitted focal_set b u) /\
  (forall u v', rc_views (b_recon b1) !! u = Some v' -> exists v, rc_views (b_recon b) !! u = Some v /\ v_name v' = v_name v /\ v_data v' = v_data v).
Proof.
  intros [(opts & r & g & Hr & Hg)|(opts & ops & Hm & Hw)] Hp.
  - destruct (prepare_given opts r g os b Hr Hg) as (-> & H1 & H2 & H3).
    destruct (decide (2 <= vg_num_views g)%nat) as [Hge|Hlt]; [|rewrite H2 in Hp by lia; done].
    destruct (decide (rc_tracks r = ∅)) as [He|Hne]; [rewrite (H1 He Hge) in Hp; done|]. destruct (H3 Hne Hge) as (b1' & Hp' & Hok & Hpart & Ho). assert (b1' = b1) as -> by congruence.
    split; [done|]. split; [done|]. split.
    + intros u. unfold in_recon. rewrite (proj1 Hpart u). unfold admitted. cbn [b_recon b_options]. clear. tauto.
    + intros u v' Hv'. destruct (part_views _ _ _ _ _ _ Hpart Hv') as (v & Hv & _ & K1 & _ & _ & K2 & _). by exists v.
  - destruct (prepare_new opts ops b os Hm Hw) as (acc & I & H1 & H2). destruct (decide (acc = [])) as [He|Hne]; [rewrite (H1 He) in Hp; done|].
    destruct (H2 Hne) as (b1' & rt & tracks & ids & Hp' & _ & _ & _ & _ & Hok & [_ Hsv] & Hpart & _ & Ho). assert (b1' = b1) as -> by congruence.
    split; [done|]. split; [by rewrite (i_opts _ _ _ _ _ _ I)|]. split.
    + intros u. unfold in_recon. rewrite (proj1 Hpart u). split; [tauto|]. intros Ha. split; [|done]. destruct Ha as [[v Hv] _]. specialize (Hsv u). rewrite Hv in Hsv. inversion Hsv; subst. eauto.
    + intros u v' Hv'. destruct (part_views _ _ _ _ _ _ Hpart Hv') as (v & Hv & _ & K1 & _ & _ & K2 & _). specialize (Hsv u). rewrite Hv in Hsv. inversion Hsv as [v0 ? (L1 & _ & _ & L2) Hv0|]; subst. exists v0. split; [done|]. split; congruence.
Qed.
End calls.
