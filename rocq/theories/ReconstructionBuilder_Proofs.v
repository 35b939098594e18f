(** Proofs about the reconstruction builder. *)
From stdpp Require Import gmap strings.
From Verif Require Import Base Reconstruction_Model Reconstruction_Spec Reconstruction_Proofs ViewGraph_Model TrackBuilder_Model TrackBuilder_Spec
  SfmQueries_Spec ReconstructionBuilder_Model ReconstructionBuilder_Spec.

Section parts.
Context {F C D : Type}.
Implicit Types (r e : recon F C D) (a : arecon F C D).

Definition ok r : Prop := exists a, rel r a /\ wf a.

(** *** Removing the views, or the tracks, that satisfy a test *)
Lemma view_loop {S} (proj : S -> recon F C D) (step : S -> N -> outcome S) (sel : N -> aview C -> bool) a
  (Hstep : forall s a' u av, rel (proj s) a' -> wf a' -> a_views a' !! u = Some av -> a_views a !! u = Some av ->
     exists s', step s u = Ok s' /\ if sel u av then rel (proj s') (spec_remove_view a' u).1 /\ wf (spec_remove_view a' u).1
                                    else rel (proj s') a' /\ wf a') l : forall s (X : gset N),
  rel (proj s) (wo_views a X) -> wf (wo_views a X) -> NoDup l -> (forall u, u ∈ l -> u ∉ X) -> (forall u, u ∈ l -> is_Some (a_views a !! u)) ->
  exists s' X', run_steps step s l = Ok s' /\ rel (proj s') (wo_views a X') /\ wf (wo_views a X') /\
    forall u, u ∈ X' <-> u ∈ X \/ u ∈ l /\ exists av, a_views a !! u = Some av /\ sel u av = true.
Proof.
  induction l as [|w l IH]; intros s X R W Hnd HX Hex; cbn [run_steps].
  { exists s, X. do 3 (split; [done|]). intros u. split; [by left|]. intros [?|[K _]]; [done|]. by apply elem_of_nil in K. }
  apply NoDup_cons in Hnd as [Hw Hnd]. destruct (Hex w) as [av Hav]; [by left|]. assert (HwX : w ∉ X) by (apply HX; by left).
  assert (Hav' : a_views (wo_views a X) !! w = Some av) by (by rewrite wo_views_views, decide_True).
  destruct (Hstep s _ w av R W Hav' Hav) as (s1 & -> & H1). cbn [mbind outcome_bind].
  destruct (sel w av) eqn:Es.
  - rewrite (wo_views_step a X w (mk_is_Some _ _ Hav) HwX) in H1. destruct H1 as [R1 W1]. cbn [fst] in R1, W1.
    destruct (IH s1 ({[w]} ∪ X) R1 W1 Hnd) as (s' & X' & -> & R' & W' & HX').
    { intros u Hu [->%elem_of_singleton|Hx]%elem_of_union; [done|]. revert Hx. apply HX. by right. }
    { intros u Hu. apply Hex. by right. }
    exists s', X'. do 3 (split; [done|]). intros u. rewrite HX', elem_of_union, elem_of_singleton, elem_of_cons. split.
    + intros [[->|?]|[? ?]]; [|by left|]; right; [|by split; [right|]]. split; [by left|]. by exists av.
    + intros [?|[[->|?] ?]]; [left; by right|left; by left|]. by right.
  - destruct H1 as [R1 W1]. destruct (IH s1 X R1 W1 Hnd) as (s' & X' & -> & R' & W' & HX').
    { intros u Hu. apply HX. by right. } { intros u Hu. apply Hex. by right. }
    exists s', X'. do 3 (split; [done|]). intros u. rewrite HX', elem_of_cons. split; [naive_solver|]. intros [?|[[->|?] (av' & K1 & K2)]]; [by left| |right; by eauto]. congruence.
Qed.

Lemma track_loop (step : recon F C D -> N -> outcome (recon F C D)) (sel : atrack D -> bool) a
  (Hstep : forall r a' t aT, rel r a' -> wf a' -> a_tracks a' !! t = Some aT ->
     exists r', step r t = Ok r' /\ if sel aT then rel r' (spec_remove_track a' t).1 /\ wf (spec_remove_track a' t).1
                                    else rel r' a' /\ wf a') l : forall r (X : gset N),
  rel r (wo_tracks a X) -> wf (wo_tracks a X) -> NoDup l -> (forall t, t ∈ l -> t ∉ X) -> (forall t, t ∈ l -> is_Some (a_tracks a !! t)) ->
  exists r' X', run_steps step r l = Ok r' /\ rel r' (wo_tracks a X') /\ wf (wo_tracks a X') /\
    forall t, t ∈ X' <-> t ∈ X \/ t ∈ l /\ exists aT, a_tracks a !! t = Some aT /\ sel aT = true.
Proof.
  induction l as [|w l IH]; intros s X R W Hnd HX Hex; cbn [run_steps].
  { exists s, X. do 3 (split; [done|]). intros u. split; [by left|]. intros [?|[K _]]; [done|]. by apply elem_of_nil in K. }
  apply NoDup_cons in Hnd as [Hw Hnd]. destruct (Hex w) as [av Hav]; [by left|]. assert (HwX : w ∉ X) by (apply HX; by left).
  assert (Hav' : a_tracks (wo_tracks a X) !! w = Some av) by (by rewrite wo_tracks_tracks, decide_True).
  destruct (Hstep s _ w av R W Hav') as (s1 & -> & H1). cbn [mbind outcome_bind].
  destruct (sel av) eqn:Es.
  - rewrite (wo_tracks_step a X w (mk_is_Some _ _ Hav) HwX) in H1. destruct H1 as [R1 W1]. cbn [fst] in R1, W1.
    destruct (IH s1 ({[w]} ∪ X) R1 W1 Hnd) as (s' & X' & -> & R' & W' & HX').
    { intros u Hu [->%elem_of_singleton|Hx]%elem_of_union; [done|]. revert Hx. apply HX. by right. }
    { intros u Hu. apply Hex. by right. }
    exists s', X'. do 3 (split; [done|]). intros u. rewrite HX', elem_of_union, elem_of_singleton, elem_of_cons. split.
    + intros [[->|?]|[? ?]]; [|by left|]; right; [|by split; [right|]]. split; [by left|]. by exists av.
    + intros [?|[[->|?] ?]]; [left; by right|left; by left|]. by right.
  - destruct H1 as [R1 W1]. destruct (IH s1 X R1 W1 Hnd) as (s' & X' & -> & R' & W' & HX').
    { intros u Hu. apply HX. by right. } { intros u Hu. apply Hex. by right. }
    exists s', X'. do 3 (split; [done|]). intros u. rewrite HX', elem_of_cons. split; [naive_solver|]. intros [?|[[->|?] (av' & K1 & K2)]]; [by left| |right; by eauto]. congruence.
Qed.

(** *** The part that is left *)
Lemma sees_obs r a u t : rel r a -> wf a -> sees r u t <-> is_Some (a_obs a !! (u, t)).
Proof.
  intros R W. split.
  - intros (v & Hv & Ht). destruct (rel_view_Some r a u v R Hv) as (av & _ & _ & _ & _ & _ & K). by rewrite <- K.
  - intros Ho. destruct (wf_obs a W u t Ho) as [[av Hav] _]. destruct (rel_view_Some' r a u av R Hav) as (v & Hv & _ & _ & _ & _ & K). exists v. split; [done|]. by rewrite K.
Qed.

Lemma part_intro r a e (V T : N -> Prop) (X Y : gset N) : rel r a -> wf a -> rel e (wo_tracks (wo_views a X) Y) ->
  (forall u, is_Some (rc_views r !! u) -> (u ∈ X <-> ~ V u)) -> (forall u, u ∈ X -> is_Some (rc_views r !! u)) -> (forall u, is_Some (rc_views r !! u) -> V u \/ ~ V u) ->
  (forall t, is_Some (a_tracks (wo_views a X) !! t) -> (t ∈ Y <-> ~ T t)) -> (forall t, T t \/ ~ T t) ->
  (forall t, is_Some (a_tracks a !! t) -> t ∈ Y -> ~ T t) ->
  part r V T e.
Proof.
  intros R W Re HX HX' HV HY HT HYd.
  assert (Xe : forall u, is_Some (rc_views r !! u) -> u ∉ X <-> V u). { intros u Hu. destruct (HV u Hu) as [K|K]; rewrite (HX u Hu); naive_solver. }
  assert (Ye : forall t, is_Some (a_tracks (wo_views a X) !! t) -> t ∉ Y <-> T t). { intros t Ht. rewrite (HY t Ht). destruct (HT t); naive_solver. }
  assert (Hvs : forall u, is_Some (a_views a !! u) <-> is_Some (rc_views r !! u)).
  { intros u. split; intros [x Hx]; [destruct (rel_view_Some' r a u x R Hx) as (? & ? & _)|destruct (rel_view_Some r a u x R Hx) as (? & ? & _)]; eauto. }
  assert (Hts : forall u, is_Some (a_tracks a !! u) <-> is_Some (rc_tracks r !! u)).
  { intros u. split; intros [x Hx]; [destruct (rel_track_Some' r a u x R Hx) as (? & ? & _)|destruct (rel_track_Some r a u x R Hx) as (? & ? & _)]; eauto. }
  assert (Hdv : forall u, a_views (wo_tracks (wo_views a X) Y) !! u = if decide (u ∉ X) then a_views a !! u else None) by (intros u; apply wo_views_views).
  assert (Hkeep : forall t, is_Some (a_tracks a !! t) -> is_Some (a_tracks (wo_views a X) !! t) <-> (exists u, sees r u t /\ V u) \/ forall u, ~ sees r u t).
  { intros t Ht. rewrite wo_views_tracks. split.
    - destruct (decide _) as [[Hn|Hn]|]; [| |by intros [? ?]]; intros _.
      + right. intros u Hs. rewrite (sees_obs r a u t R W) in Hs. apply elem_of_observers in Hs. set_solver.
      + left. destruct (decide (exists u, u ∈ observers a t /\ u ∉ X)) as [(u & K1 & K2)|K].
        * exists u. apply elem_of_observers in K1. rewrite (sees_obs r a u t R W). split; [done|]. apply Xe; [|done]. apply Hvs. by destruct (wf_obs a W u t K1).
        * exfalso. apply Hn. intros u Hu. destruct (decide (u ∈ X)); [done|]. exfalso. eauto.
    - intros K. rewrite decide_True; [done|]. destruct K as [(u & Hs & Hv)|K].
      + right. intros Hsub. rewrite (sees_obs r a u t R W) in Hs. destruct (wf_obs a W u t Hs) as [Hu _]. apply Hvs in Hu. apply (Xe u Hu) in Hv. apply Hv, Hsub. by apply elem_of_observers.
      + left. apply set_eq. intros u. split; [|by intros ?%elem_of_empty]. intros Hu%elem_of_observers. exfalso. apply (K u). by apply (sees_obs r a u t R W). }
  split; [|split; [|split; [|split; [|split]]]].
  - intros u. transitivity (is_Some (a_views (wo_tracks (wo_views a X) Y) !! u)).
    { split; intros [x Hx]; [destruct (rel_view_Some e _ u x Re Hx) as (? & ? & _)|destruct (rel_view_Some' e _ u x Re Hx) as (? & ? & _)]; eauto. }
    rewrite Hdv. destruct (decide (u ∉ X)) as [K|K].
    + rewrite Hvs. split; [|tauto]. intros Hu. split; [done|]. by apply Xe.
    + split; [by intros [? ?]|]. intros [Hu Hv]. by apply (Xe u Hu) in Hv.
  - intros u v v' Hv Hv'. destruct (rel_view_Some r a u v R Hv) as (av & Hav & A1 & A2 & A3 & A4 & A5).
    destruct (rel_view_Some e _ u v' Re Hv') as (av' & Hav' & B1 & B2 & B3 & B4 & B5). rewrite Hdv in Hav'. destruct (decide (u ∉ X)) as [HuX|]; [|done].
    assert (av' = av) as -> by congruence. do 4 (split; [congruence|]). intros t f. rewrite B5, wo_tracks_obs, wo_views_obs, A5, (decide_True (P := u ∉ X)) by done.
    destruct (a_obs a !! (u, t)) as [f'|] eqn:Ho; [|destruct (decide _); by split; [|intros [? _]]].
    destruct (wf_obs a W u t (mk_is_Some _ _ Ho)) as [Hu Ht].
    assert (Hk : is_Some (a_tracks (wo_views a X) !! t)). { apply Hkeep; [done|]. left. exists u. split; [by apply (sees_obs r a u t R W); eauto|]. apply Xe; [by apply Hvs|done]. }
    destruct (decide (t ∉ Y)) as [K|K]; [apply (Ye t Hk) in K|rewrite (Ye t Hk) in K]; naive_solver.
  - intros t. transitivity (is_Some (a_tracks (wo_tracks (wo_views a X) Y) !! t)).
    { split; intros [x Hx]; [destruct (rel_track_Some e _ t x Re Hx) as (? & ? & _)|destruct (rel_track_Some' e _ t x Re Hx) as (? & ? & _)]; eauto. }
    rewrite wo_tracks_tracks, <- Hts. destruct (decide (t ∉ Y)) as [K|K].
    + split.
      * intros Hk. assert (Ht : is_Some (a_tracks a !! t)). { revert Hk. rewrite wo_views_tracks. destruct (decide _); [done|by intros [? ?]]. }
        split; [done|]. split; [by apply (Ye t Hk)|by apply Hkeep].
      * intros (Ht & _ & Hk). by apply Hkeep.
    + split; [by intros [? ?]|]. intros (Ht & Ht' & _). exfalso. apply dec_stable in K. by apply (HYd t Ht K).
  - intros t x x' Hx Hx'. destruct (rel_track_Some r a t x R Hx) as (ax & Hax & A1 & A2 & A3).
    destruct (rel_track_Some e _ t x' Re Hx') as (ax' & Hax' & B1 & B2 & B3). rewrite wo_tracks_tracks in Hax'. destruct (decide (t ∉ Y)) as [HtY|]; [|done].
    rewrite wo_views_tracks in Hax'. destruct (decide _); [|done]. assert (ax' = ax) as -> by congruence. do 2 (split; [congruence|]).
    intros u. rewrite B3, wo_tracks_obs, decide_True by done. rewrite wo_views_obs, A3. destruct (decide (u ∉ X)) as [K|K].
    + split; [|tauto]. intros Ho. split; [done|]. apply Xe; [|done]. apply Hvs. by destruct (wf_obs a W u t Ho).
    + split; [by intros [? ?]|]. intros [Ho Hv]. destruct (wf_obs a W u t Ho) as [Hu _]. apply Hvs in Hu. by apply (Xe u Hu) in Hv.
  - intros n u. rewrite (rel_names e _ Re), (rel_names r a R). setoid_rewrite Hdv. destruct (decide (u ∉ X)) as [K|K].
    + split; [|by intros [? _]]. intros Hv. split; [done|]. apply Xe; [|done]. apply Hvs. destruct Hv as (? & ? & _). eauto.
    + split; [by intros (? & ? & _)|]. intros [(v & Hv & _) Hv']. exfalso. apply K. apply Xe; [|done]. apply Hvs. eauto.
  - intros u g. rewrite (rel_vgroup e _ Re), (rel_vgroup r a R), Hdv. destruct (decide (u ∉ X)) as [K|K].
    + split; [|by intros [? _]]. intros Hv. split; [done|]. apply Xe; [|done]. apply Hvs. destruct (a_views a !! u); [eauto|done].
    + split; [done|]. intros [Hv Hv']. exfalso. apply K. apply Xe; [|done]. apply Hvs. destruct (a_views a !! u); [eauto|done].
Qed.

Lemma wf_dom_views o r a : rel r a -> NoDup ((o : order N) (elements (dom (rc_views r)))) /\ forall u, u ∈ o (elements (dom (rc_views r))) <-> is_Some (a_views a !! u).
Proof. intros R. split; [rewrite (ord_perm o); apply NoDup_elements|]. intros u. by rewrite (ord_perm o), elem_of_elements, (dom_views_rel r a R), elem_of_dom. Qed.
Lemma wf_dom_tracks o r a : rel r a -> NoDup ((o : order N) (elements (dom (rc_tracks r)))) /\ forall u, u ∈ o (elements (dom (rc_tracks r))) <-> is_Some (a_tracks a !! u).
Proof. intros R. split; [rewrite (ord_perm o); apply NoDup_elements|]. intros u. by rewrite (ord_perm o), elem_of_elements, (dom_tracks_rel r a R), elem_of_dom. Qed.

Lemma est_view_a r a u : rel r a -> est_view r u <-> exists av, a_views a !! u = Some av /\ a_vest av = true.
Proof.
  intros R. split.
  - intros (v & Hv & He). destruct (rel_view_Some r a u v R Hv) as (av & Hav & _ & K & _). exists av. by rewrite <- K.
  - intros (av & Hav & He). destruct (rel_view_Some' r a u av R Hav) as (v & Hv & _ & K & _). exists v. by rewrite K.
Qed.
Lemma est_track_a r a t : rel r a -> est_track r t <-> exists aT, a_tracks a !! t = Some aT /\ a_test aT = true.
Proof.
  intros R. split.
  - intros (v & Hv & He). destruct (rel_track_Some r a t v R Hv) as (av & Hav & K & _). exists av. by rewrite <- K.
  - intros (av & Hav & He). destruct (rel_track_Some' r a t av R Hav) as (v & Hv & K & _). exists v. by rewrite K.
Qed.

Lemma create_estimated_part o r : ok r -> exists e, create_estimated o r = Ok e /\ ok e /\ part r (est_view r) (est_track r) e.
Proof.
  intros (a & R & W). unfold create_estimated.
  destruct (wf_dom_views o r a R) as [Hnd Hin].
  destruct (view_loop (fun r => r) (sub_view o) (fun _ av => negb (a_vest av)) a) with (l := o (elements (dom (rc_views r)))) (s := r) (X := ∅ : gset N) as (r1 & X & -> & R1 & W1 & HX).
  { intros s a' u av R' W' Hav _. destruct (rel_view_Some' s a' u av R' Hav) as (v & Hv & _ & K & _). unfold_in_term (@sub_view) (sub_view o s u). cbv beta. rewrite Hv, K.
    destruct (negb (a_vest av)); [|eauto]. destruct (remove_view_refines o s a' u R' W') as (s' & -> & R2 & W2). cbn [mbind outcome_bind]. eauto. }
  { by rewrite wo_views_empty. } { by rewrite wo_views_empty. } { done. } { intros u _. apply not_elem_of_empty. } { intros u. by rewrite Hin. }
  cbn [mbind outcome_bind]. destruct (wf_dom_tracks o r1 _ R1) as [Hnd1 Hin1].
  destruct (track_loop (sub_track o) (fun aT => negb (a_test aT)) (wo_views a X)) with (l := o (elements (dom (rc_tracks r1)))) (r := r1) (X := ∅ : gset N) as (e & Y & -> & Re & We & HY).
  { intros s a' u av R' W' Hav. destruct (rel_track_Some' s a' u av R' Hav) as (v & Hv & K & _). unfold_in_term (@sub_track) (sub_track o s u). cbv beta. rewrite Hv, K.
    destruct (negb (a_test av)); [|eauto]. destruct (remove_track_refines o s a' u R' W') as (s' & -> & R2 & W2). cbn [fst]. eauto. }
  { by rewrite wo_tracks_empty. } { by rewrite wo_tracks_empty. } { done. } { intros u _. apply not_elem_of_empty. } { intros u. by rewrite Hin1. }
  exists e. split; [done|]. split; [eexists; done|].
  apply (part_intro r a e _ _ X Y R W Re).
  - intros u [v Hv]. destruct (rel_view_Some r a u v R Hv) as (av & Hav & _). rewrite (est_view_a r a u R), HX, Hin. split.
    + intros [?%elem_of_empty|(_ & av' & K1 & K2)]; [done|]. intros (av2 & K3 & K4). assert (av2 = av') as -> by congruence. by rewrite K4 in K2.
    + intros K. right. split; [eauto|]. exists av. split; [done|]. destruct (a_vest av) eqn:Ee; [|done]. exfalso. eauto.
  - intros u. rewrite HX. intros [?%elem_of_empty|(_ & av & K1 & _)]; [done|]. destruct (rel_view_Some' r a u av R K1) as (v & ? & _). eauto.
  - intros u [v Hv]. unfold est_view. destruct (v_est v) eqn:Ee; [left; eauto|right]. intros (v' & K1 & K2). congruence.
  - intros t [aT HaT]. rewrite (est_track_a r a t R), HY, Hin1.
    assert (Ht : a_tracks a !! t = Some aT). { revert HaT. rewrite wo_views_tracks. by destruct (decide _). }
    split.
    + intros [?%elem_of_empty|(_ & x & K1 & K2)]; [done|]. intros (y & K3 & K4). assert (y = x) as -> by congruence. by rewrite K4 in K2.
    + intros K. right. split; [eauto|]. exists aT. split; [done|]. destruct (a_test aT) eqn:Ee; [|done]. exfalso. eauto.
  - intros t. rewrite (est_track_a r a t R). destruct (a_tracks a !! t) as [aT|]; [|right; by intros (? & ? & _)]. destruct (a_test aT) eqn:Ee; [left; eauto|right; intros (? & ? & ?); congruence].
  - intros t [aT Ht] Hy. rewrite (est_track_a r a t R). apply HY in Hy as [?%elem_of_empty|(_ & x & K1 & K2)]; [done|]. intros (y & K3 & K4).
    revert K1. rewrite wo_views_tracks. destruct (decide _); [|done]. intros K1. assert (y = x) as -> by congruence. by rewrite K4 in K2.
Qed.

Lemma remove_estimated_part {E} o r (g : view_graph E) : ok r -> exists r' g', remove_estimated o r g = Ok (r', g') /\ ok r' /\
  part r (fun u => ~ est_view r u) (fun t => ~ est_track r t) r' /\ rc_next_ptr r' = rc_next_ptr r.
Proof.
  intros (a & R & W). unfold remove_estimated.
  destruct (wf_dom_views o r a R) as [Hnd Hin].
  destruct (view_loop fst (rest_view (E := E) o) (fun _ av => a_vest av) a) with (l := o (elements (dom (rc_views r)))) (s := (r, g)) (X := ∅ : gset N) as ([r1 g1] & X & -> & R1 & W1 & HX).
  { intros s a' u av R' W' Hav _. destruct (rel_view_Some' s.1 a' u av R' Hav) as (v & Hv & _ & K & _). unfold_in_term (@rest_view) (rest_view o s u). cbv beta. rewrite Hv, K.
    destruct (a_vest av); [|eauto]. destruct (remove_view_refines o s.1 a' u R' W') as (s' & -> & R2 & W2). cbn [mbind outcome_bind]. eauto. }
  { by rewrite wo_views_empty. } { by rewrite wo_views_empty. } { done. } { intros u _. apply not_elem_of_empty. } { intros u. by rewrite Hin. }
  cbn [fst] in R1. cbn [mbind outcome_bind]. destruct (wf_dom_tracks o r1 _ R1) as [Hnd1 Hin1].
  destruct (track_loop (rest_track o) (fun aT => a_test aT) (wo_views a X)) with (l := o (elements (dom (rc_tracks r1)))) (r := r1) (X := ∅ : gset N) as (e & Y & -> & Re & We & HY).
  { intros s a' u av R' W' Hav. destruct (rel_track_Some' s a' u av R' Hav) as (v & Hv & K & _). unfold_in_term (@rest_track) (rest_track o s u). cbv beta. rewrite Hv, K.
    destruct (a_test av); [|eauto]. destruct (remove_track_refines o s a' u R' W') as (s' & -> & R2 & W2). cbn [fst]. eauto. }
  { by rewrite wo_tracks_empty. } { by rewrite wo_tracks_empty. } { done. } { intros u _. apply not_elem_of_empty. } { intros u. by rewrite Hin1. }
  cbn [mbind outcome_bind]. exists e, g1. split; [done|]. split; [eexists; done|]. split; [|rewrite (rel_next_ptr e _ Re), (rel_next_ptr r _ R); done].
  apply (part_intro r a e _ _ X Y R W Re).
  - intros u [v Hv]. destruct (rel_view_Some r a u v R Hv) as (av & Hav & _). rewrite (est_view_a r a u R), HX, Hin. split.
    + intros [?%elem_of_empty|(_ & av' & K1 & K2)]; [done|]. eauto.
    + intros K. right. split; [eauto|]. exists av. split; [done|]. destruct (a_vest av) eqn:Ee; [done|]. exfalso. apply K. intros (av' & K1 & K2). congruence.
  - intros u. rewrite HX. intros [?%elem_of_empty|(_ & av & K1 & _)]; [done|]. destruct (rel_view_Some' r a u av R K1) as (v & ? & _). eauto.
  - intros u [v Hv]. unfold est_view. destruct (v_est v) eqn:Ee; [right; intros K; apply K; eauto|left]. intros (v' & K1 & K2). congruence.
  - intros t [aT HaT]. rewrite (est_track_a r a t R), HY, Hin1.
    assert (Ht : a_tracks a !! t = Some aT). { revert HaT. rewrite wo_views_tracks. by destruct (decide _). }
    split.
    + intros [?%elem_of_empty|(_ & x & K1 & K2)]; [done|]. intros K. apply K. exists x. split; [congruence|done].
    + intros K. right. split; [eauto|]. exists aT. split; [done|]. destruct (a_test aT) eqn:Ee; [done|]. exfalso. apply K. intros (y & K1 & K2). congruence.
  - intros t. rewrite (est_track_a r a t R). destruct (a_tracks a !! t) as [aT|]; [|left; by intros (? & ? & _)]. destruct (a_test aT) eqn:Ee; [right; intros K; apply K; eauto|left; intros (? & ? & ?); congruence].
  - intros t [aT Ht] Hy K. apply HY in Hy as [?%elem_of_empty|(_ & x & K1 & K2)]; [done|]. apply K. rewrite (est_track_a r a t R). exists x. split; [|done].
    revert K1. rewrite wo_views_tracks. by destruct (decide _).
Qed.
End parts.

Section loop.
Context {F C D E I : Type} (focal_set : C -> bool).
Implicit Types (r e : recon F C D) (a : arecon F C D) (g : view_graph E) (h : gmap N I).
Notation kept := (kept (I := I) focal_set).
Notation keeps := (keeps (E := E) (I := I) focal_set).
Notation calibrated := (calibrated focal_set).

Lemma remove_uncalibrated_part o r g : ok r -> exists r' g', remove_uncalibrated focal_set o r g = Ok (r', g') /\ ok r' /\
  part r (calibrated r) (fun _ => True) r' /\ rc_next_ptr r' = rc_next_ptr r.
Proof.
  intros (a & R & W). unfold remove_uncalibrated. destruct (wf_dom_views o r a R) as [Hnd Hin].
  destruct (view_loop fst (uncalibrated_view (E := E) focal_set o) (fun _ av => negb (focal_set (a_vdata av))) a) with (l := o (elements (dom (rc_views r)))) (s := (r, g)) (X := ∅ : gset N) as ([e g1] & X & -> & R1 & W1 & HX).
  { intros s a' u av R' W' Hav _. destruct (rel_view_Some' s.1 a' u av R' Hav) as (v & Hv & _ & _ & _ & K & _). unfold_in_term (@uncalibrated_view) (uncalibrated_view focal_set o s u). cbv beta. rewrite Hv. cbn [or_ub mbind outcome_bind]. rewrite K.
    destruct (negb (focal_set (a_vdata av))); [|eauto]. destruct (remove_view_refines o s.1 a' u R' W') as (s' & -> & R2 & W2). cbn [mbind outcome_bind]. eauto. }
  { by rewrite wo_views_empty. } { by rewrite wo_views_empty. } { done. } { intros u _. apply not_elem_of_empty. } { intros u. by rewrite Hin. }
  cbn [fst] in R1. exists e, g1. split; [done|]. split; [eexists; done|]. split; [|rewrite (rel_next_ptr e _ R1), (rel_next_ptr r _ R); done].
  assert (Hc : forall u, calibrated r u <-> exists av, a_views a !! u = Some av /\ focal_set (a_vdata av) = true).
  { intros u. split.
    - intros (v & Hv & He). destruct (rel_view_Some r a u v R Hv) as (av & Hav & _ & _ & _ & K & _). exists av. by rewrite <- K.
    - intros (av & Hav & He). destruct (rel_view_Some' r a u av R Hav) as (v & Hv & _ & _ & _ & K & _). exists v. by rewrite K. }
  apply (part_intro r a e _ _ X ∅ R W); [by rewrite wo_tracks_empty| | | | | |].
  - intros u [v Hv]. destruct (rel_view_Some r a u v R Hv) as (av & Hav & _). rewrite Hc, HX, Hin. split.
    + intros [?%elem_of_empty|(_ & av' & K1 & K2)]; [done|]. intros (av2 & K3 & K4). assert (av2 = av') as -> by congruence. by rewrite K4 in K2.
    + intros K. right. split; [eauto|]. exists av. split; [done|]. destruct (focal_set (a_vdata av)) eqn:Ee; [|done]. exfalso. eauto.
  - intros u. rewrite HX. intros [?%elem_of_empty|(_ & av & K1 & _)]; [done|]. destruct (rel_view_Some' r a u av R K1) as (v & ? & _). eauto.
  - intros u [v Hv]. unfold ReconstructionBuilder_Spec.calibrated. destruct (focal_set (v_data v)) eqn:Ee; [left; eauto|right]. intros (v' & K1 & K2). congruence.
  - intros t _. split; [by intros ?%elem_of_empty|]. intros K. by destruct K.
  - intros t. by left.
  - intros t _ ?%elem_of_empty. done.
Qed.

(** *** The estimator keeps the reconstruction well formed *)
Lemma ok_shares r : ok r -> shares r.
Proof.
  intros (a & R & W). split.
  - intros u u' v v' Hv Hv'. destruct (rel_view_Some r a u v R Hv) as (av & Hav & _ & _ & K1 & _). destruct (rel_view_Some r a u' v' R Hv') as (av' & Hav' & _ & _ & K2 & _).
    rewrite !(rel_vgroup r a R), Hav, Hav'. cbn [fmap option_fmap option_map]. rewrite K1, K2, <- (wf_share a W u u' av av' Hav Hav'). clear. split; congruence.
  - intros u v Hv. destruct (rel_view_Some r a u v R Hv) as (av & Hav & _ & _ & K1 & _). rewrite K1, (rel_next_ptr r a R). by apply (wf_ptr a W u av).
Qed.
Lemma kept_ok r h r' h' : ok r -> kept r h r' h' -> ok r'.
Proof.
  intros Hok (N1 & N2 & N3 & Nn & Ng & Ngs & Np & Kv & Kt & Ksh & _). destruct (Ksh (ok_shares r Hok)) as [Ks Ki]. clear Ksh. destruct Hok as (a & R & W).
  set (vs := map_imap (fun u v' => (fun gr : N => AView (v_name v') gr (v_est v') (v_intr v') (v_data v')) <$> rc_view_group r' !! u) (rc_views r')).
  set (a' := ARecon vs ((fun x : track D => ATrack (t_est x) (t_data x)) <$> rc_tracks r') (a_obs a) (a_next_view a) (a_next_track a) (a_next_group a) (rc_next_ptr r') : arecon F C D).
  assert (Hvs : forall u v', rc_views r' !! u = Some v' -> exists v av, rc_views r !! u = Some v /\ v_name v' = v_name v /\ v_feats v' = v_feats v /\ a_views a !! u = Some av /\
            v_name v = a_name av /\ (forall t, v_feats v !! t = a_obs a !! (u, t)) /\ rc_view_group r' !! u = Some (a_group av) /\
            vs !! u = Some (AView (v_name v') (a_group av) (v_est v') (v_intr v') (v_data v'))).
  { intros u v' Hv'. specialize (Kv u). rewrite Hv' in Kv. inversion Kv as [v ? (K1 & K2 & _) Hv|]; subst. symmetry in Hv. destruct (rel_view_Some r a u v R Hv) as (av & Hav & A1 & _ & _ & _ & A5).
    exists v, av. assert (G : rc_view_group r' !! u = Some (a_group av)) by (rewrite Ng, (rel_vgroup r a R), Hav; done).
    do 7 (split; [done|]). unfold vs. rewrite map_lookup_imap, Hv'. cbn. by rewrite G. }
  assert (Hvn : forall u, rc_views r' !! u = None -> vs !! u = None /\ a_views a !! u = None).
  { intros u Hu. split; [unfold vs; rewrite map_lookup_imap, Hu; done|]. specialize (Kv u). rewrite Hu in Kv. inversion Kv as [|Hn]; subst. by apply (rel_view_None r a u R). }
  assert (Hvs' : forall u w, vs !! u = Some w -> exists v' av, rc_views r' !! u = Some v' /\ a_views a !! u = Some av /\ a_name w = a_name av /\ a_group w = a_group av /\ a_intr w = v_intr v' /\ rc_view_group r' !! u = Some (a_group av)).
  { intros u w Hw. destruct (rc_views r' !! u) as [v'|] eqn:Hv'; [|destruct (Hvn u Hv'); congruence]. destruct (Hvs u v' Hv') as (v & av & K1 & K2 & K3 & K4 & K5 & K6 & K7 & K8).
    exists v', av. rewrite K8 in Hw. injection Hw as <-. do 2 (split; [done|]). split; [cbn; congruence|]. done. }
  assert (Hdom : forall u, is_Some (vs !! u) <-> is_Some (a_views a !! u)).
  { intros u. destruct (rc_views r' !! u) as [v'|] eqn:Hv'.
    - destruct (Hvs u v' Hv') as (v & av & K1 & K2 & K3 & K4 & K5 & K6 & K7 & K8). rewrite K4, K8. split; eauto.
    - destruct (Hvn u Hv') as [-> ->]. done. }
  assert (Hag : forall u gr n, (exists w, vs !! u = Some w /\ a_group w = gr /\ a_name w = n) <-> (exists w, a_views a !! u = Some w /\ a_group w = gr /\ a_name w = n)).
  { intros u g n. split.
    - intros (w & Hw & <- & <-). destruct (Hvs' u w Hw) as (v' & av & _ & K1 & K2 & K3 & _). exists av. done.
    - intros (w & Hw & <- & <-). assert (Hs : is_Some (vs !! u)) by (apply Hdom; eauto). destruct Hs as [x Hx]. destruct (Hvs' u x Hx) as (v' & av & _ & K1 & K2 & K3 & _). exists x. assert (w = av) as -> by congruence. done. }
  exists a'. split.
  - split.
    + intros u. cbn [a' a_views]. destruct (rc_views r' !! u) as [v'|] eqn:Hv'.
      * destruct (Hvs u v' Hv') as (v & av & K1 & K2 & K3 & K4 & K5 & K6 & K7 & ->). constructor. do 4 (split; [done|]). intros t. rewrite K3. apply K6.
      * destruct (Hvn u Hv') as [-> _]. constructor.
    + intros t. cbn [a' a_tracks]. rewrite lookup_fmap. specialize (Kt t). pose proof (rel_tracks r a R t) as Hr. destruct (rc_tracks r' !! t) as [x'|]; [|constructor].
      cbn. constructor. inversion Kt as [x ? Hx Hxe|]; subst. rewrite <- Hxe in Hr. inversion Hr as [? ? (B1 & B2 & B3)|]; subst. do 2 (split; [done|]). intros u. rewrite Hx. apply B3.
    + intros n u. rewrite Nn, (rel_names r a R). cbn [a' a_views]. split; intros (w & K1 & K2).
      * destruct (proj2 (Hag u (a_group w) n)) as (x & ? & _ & ?); [by exists w|]. by exists x.
      * destruct (proj1 (Hag u (a_group w) n)) as (x & ? & _ & ?); [by exists w|]. by exists x.
    + intros u. cbn [a' a_views]. destruct (rc_views r' !! u) as [v'|] eqn:Hv'.
      * destruct (Hvs u v' Hv') as (v & av & K1 & K2 & K3 & K4 & K5 & K6 & -> & ->). done.
      * destruct (Hvn u Hv') as [-> K]. by rewrite Ng, (rel_vgroup r a R), K.
    + intros g u. rewrite Ngs, (rel_groups r a R). cbn [a' a_views]. split; intros (w & K1 & K2).
      * destruct (proj2 (Hag u g (a_name w))) as (x & ? & ? & _); [by exists w|]. by exists x.
      * destruct (proj1 (Hag u g (a_name w))) as (x & ? & ? & _); [by exists w|]. by exists x.
    + intros g X. rewrite Ngs. apply (rel_groups_ne r a R).
    + rewrite N2. apply (rel_next_view r a R).
    + rewrite N1. apply (rel_next_track r a R).
    + rewrite N3. apply (rel_next_group r a R).
    + done.
  - split.
    + intros u t Ho. cbn [a' a_views a_tracks a_obs] in *. destruct (wf_obs a W u t Ho) as [K1 K2]. split; [by apply Hdom|]. rewrite lookup_fmap. apply fmap_is_Some. specialize (Kt t).
      destruct K2 as [aT HaT]. destruct (rel_track_Some' r a t aT R HaT) as (x & Hx & _). rewrite Hx in Kt. inversion Kt; subst. eauto.
    + intros u Hu. cbn [a' a_views a_next_view] in *. apply (wf_view a W). by apply Hdom.
    + intros t. cbn [a' a_tracks a_next_track]. rewrite lookup_fmap, fmap_is_Some. intros [x' Hx']. apply (wf_track a W). specialize (Kt t). rewrite Hx' in Kt. inversion Kt as [x ? _ Hx|]; subst. symmetry in Hx.
      destruct (rel_track_Some r a t x R Hx) as (? & ? & _). eauto.
    + intros u u' w w' Hw Hw' Hn. cbn [a' a_views] in *. destruct (Hvs' u w Hw) as (? & av & _ & K1 & K2 & _), (Hvs' u' w' Hw') as (? & av' & _ & K1' & K2' & _). apply (wf_names a W u u' av av' K1 K1'). congruence.
    + intros u w Hw. cbn [a' a_views] in *. destruct (Hvs' u w Hw) as (? & av & _ & K1 & K2 & _). rewrite K2. by apply (wf_noempty a W u).
    + intros u w Hw. cbn [a' a_views a_next_ptr] in *. destruct (Hvs' u w Hw) as (v' & av & K0 & _ & _ & _ & -> & _). by apply (Ki u v').
    + intros u u' w w' Hw Hw'. cbn [a' a_views] in *. destruct (Hvs' u w Hw) as (v & av & K0 & _ & _ & G1 & -> & K1), (Hvs' u' w' Hw') as (v' & av' & K0' & _ & _ & G1' & -> & K1').
      rewrite <- (Ks u u' v v' K0 K0'), K1, K1', G1, G1'. clear. split; congruence.
Qed.

(** *** The loop *)
Lemma part_views r V T e u v' : part r V T e -> rc_views e !! u = Some v' -> exists v, rc_views r !! u = Some v /\ V u /\
  v_name v' = v_name v /\ v_est v' = v_est v /\ v_intr v' = v_intr v /\ v_data v' = v_data v /\ forall t f, v_feats v' !! t = Some f <-> v_feats v !! t = Some f /\ T t.
Proof. intros (P1 & P2 & _) Hv'. destruct (proj1 (P1 u) (mk_is_Some _ _ Hv')) as [[v Hv] HV]. exists v. split; [done|]. split; [done|]. by apply (P2 u). Qed.
Lemma part_view_group r V T e u : ok r -> part r V T e -> V u -> rc_view_group e !! u = rc_view_group r !! u.
Proof.
  intros _ (_ & _ & _ & _ & _ & P6) HV. destruct (rc_view_group r !! u) as [x|] eqn:Ex.
  - by apply P6.
  - destruct (rc_view_group e !! u) as [y|] eqn:Ey; [|done]. apply P6 in Ey as [? _]. congruence.
Qed.
Lemma part_size r V T e : part r V T e -> (size (rc_views e) <= size (rc_views r))%nat.
Proof.
  intros (P1 & _). rewrite <- !size_dom. apply subseteq_size. intros u Hu. apply elem_of_dom in Hu. apply P1 in Hu as [Hu _]. by apply elem_of_dom.
Qed.
Lemma kept_size r h r' h' : kept r h r' h' -> size (rc_views r') = size (rc_views r).
Proof.
  intros (_ & _ & _ & _ & _ & _ & _ & Kv & _). rewrite <- !size_dom. f_equal. apply set_eq. intros u. rewrite !elem_of_dom. specialize (Kv u). inversion Kv; split; intros [? ?]; eauto; done.
Qed.
Lemma kept_view r h r' h' u v' : kept r h r' h' -> rc_views r' !! u = Some v' -> exists v, rc_views r !! u = Some v /\ v_name v' = v_name v /\ v_feats v' = v_feats v /\ focal_set (v_data v') = focal_set (v_data v).
Proof. intros (_ & _ & _ & _ & _ & _ & _ & Kv & _) Hv. specialize (Kv u). rewrite Hv in Kv. inversion Kv; subst. eauto. Qed.
Lemma kept_view' r h r' h' u : kept r h r' h' -> is_Some (rc_views r' !! u) <-> is_Some (rc_views r !! u).
Proof. intros (_ & _ & _ & _ & _ & _ & _ & Kv & _). specialize (Kv u). inversion Kv; subst; split; intros [? ?]; eauto; done. Qed.
Lemma kept_track' r h r' h' t : kept r h r' h' -> is_Some (rc_tracks r' !! t) <-> is_Some (rc_tracks r !! t).
Proof. intros (_ & _ & _ & _ & _ & _ & _ & _ & Kt & _). specialize (Kt t). inversion Kt; subst; split; intros [? ?]; eauto; done. Qed.

(** Objects that no view uses stay as they are. *)
Lemma loop_frame est o largest (Hest : keeps est) fuel : forall k r g h outs okb outs' r' g' h', ok r ->
  build_loop est o largest fuel k r g h outs = Ok (okb, outs', r', g', h') ->
  forall p, (p < rc_next_ptr r)%N -> (forall u v, rc_views r !! u = Some v -> v_intr v <> p) -> h' !! p = h !! p.
Proof.
  induction fuel as [|fuel IH]; intros k r g h outs okb outs' r' g' h' Hok Hrun p Hp Hu; [discriminate Hrun|]. cbn [build_loop] in Hrun.
  destruct (decide (size (rc_views r) <= 1)%nat) as [Hs|Hs]; [congruence|].
  destruct (est k g r h) as [[[[okr g1] r1] h1]| | |] eqn:Ee; cbn [mbind outcome_bind] in Hrun; try discriminate Hrun.
  pose proof (Hest _ _ _ _ _ _ _ _ Ee) as Hk. pose proof (kept_ok r h r1 h1 Hok Hk) as Hok1.
  assert (H1 : h1 !! p = h !! p) by (by apply Hk).
  destruct okr; cbn [negb] in Hrun; [|congruence].
  destruct (create_estimated_part (o k) r1 Hok1) as (e & He & _). rewrite He in Hrun. cbn [mbind outcome_bind] in Hrun.
  destruct (remove_estimated_part (o k) r1 g1 Hok1) as (r2 & g2 & Hr & Hok2 & Hp2 & Hn2). rewrite Hr in Hrun. cbn [mbind outcome_bind] in Hrun.
  destruct largest; [congruence|]. destruct (decide (size (rc_views r2) < 3)%nat); [congruence|].
  rewrite <- H1. apply (IH _ _ _ _ _ _ _ _ _ _ Hok2 Hrun p).
  - rewrite Hn2. destruct Hk as (_ & _ & _ & _ & _ & _ & Np & _). lia.
  - intros u v Hv. destruct (part_views _ _ _ _ _ _ Hp2 Hv) as (v1 & Hv1 & _ & _ & _ & -> & _).
    destruct Hk as (_ & _ & _ & _ & _ & _ & _ & _ & _ & _ & Ki & _). destruct (Ki u v1 Hv1) as [K|(x & v0 & K1 & K2)]; [lia|]. rewrite <- K2. by apply (Hu x).
Qed.

Definition in_recon e (u : N) : Prop := is_Some (rc_views e !! u).
Definition in_tracks e (t : N) : Prop := is_Some (rc_tracks e !! t).

Lemma loop_ok est o largest (Hest : keeps est) fuel : forall k r g h outs okb outs' r' g' h', ok r ->
  build_loop est o largest fuel k r g h outs = Ok (okb, outs', r', g', h') ->
  exists new, outs' = outs ++ new /\ ok r' /\
    (forall i e, new !! i = Some e -> exists g0 r0 h0 g1 r1 h1, est (k + i)%nat g0 r0 h0 = Ok (true, g1, r1, h1) /\ part r1 (est_view r1) (est_track r1) e /\
       (whole_groups est -> forall u v, rc_views e !! u = Some v -> h' !! v_intr v = h1 !! v_intr v)) /\
    (forall i j e e' u, new !! i = Some e -> new !! j = Some e' -> in_recon e u -> in_recon e' u -> i = j) /\
    (forall i j e e' t, new !! i = Some e -> new !! j = Some e' -> in_tracks e t -> in_tracks e' t -> i = j) /\
    (forall u, in_recon r u <-> (exists e, e ∈ new /\ in_recon e u) \/ in_recon r' u) /\
    (forall e u, e ∈ new -> in_recon e u -> ~ in_recon r' u) /\
    (forall e t, e ∈ new -> in_tracks e t -> ~ in_tracks r' t) /\
    (forall e t, e ∈ r' :: new -> in_tracks e t -> in_tracks r t) /\
    (forall e u v', e ∈ r' :: new -> rc_views e !! u = Some v' -> exists v, rc_views r !! u = Some v /\ v_name v' = v_name v /\ focal_set (v_data v') = focal_set (v_data v) /\
       forall t f, v_feats v' !! t = Some f -> v_feats v !! t = Some f) /\
    (okb = true <-> outs' <> [] \/ (size (rc_views r) <= 1)%nat) /\
    (largest = true -> (length new <= 1)%nat) /\
    (largest = false -> (size (rc_views r') < 3)%nat \/ exists g0 r0 h0, est (k + length new)%nat g0 r0 h0 = Ok (false, g', r', h')).
Proof.
  induction fuel as [|fuel IH]; intros k r g h outs okb outs' r' g' h' Hok Hrun; [discriminate Hrun|]. cbn [build_loop] in Hrun.
  destruct (decide (size (rc_views r) <= 1)%nat) as [Hs|Hs].
  { injection Hrun as <- <- <- <- <-. exists []. split; [by rewrite app_nil_r|]. split; [done|]. do 3 (split; [by intros *; rewrite lookup_nil|]).
    split; [intros u; split; [by right|]; intros [(e & K & _)|?]; [by apply elem_of_nil in K|done]|]. do 2 (split; [intros e ? K; by apply elem_of_nil in K|]).
    split; [intros e t ->%elem_of_list_singleton; done|]. split; [intros e u v' ->%elem_of_list_singleton ?; exists v'; done|]. split; [split; [intros _; by right|done]|]. split; [cbn; lia|]. intros _. left. lia. }
  destruct (est k g r h) as [[[[okr g1] r1] h1]| | |] eqn:Ee; cbn [mbind outcome_bind] in Hrun; try discriminate Hrun.
  pose proof (Hest _ _ _ _ _ _ _ _ Ee) as Hk. pose proof (kept_ok r h r1 h1 Hok Hk) as Hok1.
  destruct okr; cbn [negb] in Hrun.
  2:{ injection Hrun as <- <- <- <- <-. exists []. split; [by rewrite app_nil_r|]. split; [done|]. do 3 (split; [by intros *; rewrite lookup_nil|]).
    split; [intros u; unfold in_recon; rewrite (kept_view' r h r1 h1 u Hk); split; [by right|]; intros [(e & K & _)|?]; [by apply elem_of_nil in K|done]|]. do 2 (split; [intros e ? K; by apply elem_of_nil in K|]).
    split; [intros e t ->%elem_of_list_singleton; by apply (kept_track' r h r1 h1 t Hk)|].
    split; [intros e u v' ->%elem_of_list_singleton Hv'; destruct (kept_view _ _ _ _ _ _ Hk Hv') as (v & K1 & K2 & K3 & K4); exists v; rewrite <- K3; done|].
    split; [rewrite bool_decide_eq_true; destruct outs; cbn; split; [lia|naive_solver|by left|lia]|]. split; [cbn; lia|]. intros _. right. cbn. rewrite Nat.add_0_r. eauto. }
  destruct (create_estimated_part (o k) r1 Hok1) as (e & He & Hoke & Hpe). rewrite He in Hrun. cbn [mbind outcome_bind] in Hrun.
  destruct (remove_estimated_part (o k) r1 g1 Hok1) as (r2 & g2 & Hr & Hok2 & Hp2 & Hn2). rewrite Hr in Hrun. cbn [mbind outcome_bind] in Hrun.
  assert (Sv : forall u, in_recon r u <-> in_recon e u \/ in_recon r2 u).
  { intros u. unfold in_recon. rewrite (proj1 Hpe u), (proj1 Hp2 u), <- (kept_view' r h r1 h1 u Hk). split; [|tauto]. intros [v Hv].
    destruct (v_est v) eqn:Ev; [left|right]; (split; [eauto|]); [by exists v|]. intros (v' & K1 & K2). congruence. }
  assert (Dv : forall u, in_recon e u -> ~ in_recon r2 u). { intros u. unfold in_recon. rewrite (proj1 Hpe u), (proj1 Hp2 u). tauto. }
  assert (Dt : forall t, in_tracks e t -> ~ in_tracks r2 t).
  { intros t. unfold in_tracks. destruct Hpe as (_ & _ & P3 & _), Hp2 as (_ & _ & Q3 & _). rewrite (P3 t), (Q3 t). tauto. }
  assert (St : forall e' t, e' = e \/ e' = r2 -> in_tracks e' t -> in_tracks r t).
  { intros e' t [->| ->]; unfold in_tracks; rewrite <- (kept_track' r h r1 h1 t Hk); [destruct Hpe as (_ & _ & P3 & _)|destruct Hp2 as (_ & _ & P3 & _)]; rewrite (P3 t); tauto. }
  assert (Fv : forall e' u v', e' = e \/ e' = r2 -> rc_views e' !! u = Some v' -> exists v, rc_views r !! u = Some v /\ v_name v' = v_name v /\ focal_set (v_data v') = focal_set (v_data v) /\
       forall t f, v_feats v' !! t = Some f -> v_feats v !! t = Some f).
  { intros e' u v' He' Hv'. assert (K : exists v1, rc_views r1 !! u = Some v1 /\ v_name v' = v_name v1 /\ v_data v' = v_data v1 /\ forall t f, v_feats v' !! t = Some f -> v_feats v1 !! t = Some f).
    { destruct He' as [->| ->]; [destruct (part_views _ _ _ _ _ _ Hpe Hv') as (v1 & K1 & _ & K2 & _ & _ & K3 & K4)|destruct (part_views _ _ _ _ _ _ Hp2 Hv') as (v1 & K1 & _ & K2 & _ & _ & K3 & K4)];
      exists v1; (do 3 (split; [done|])); intros t f Hf; by apply K4. }
    destruct K as (v1 & K1 & K2 & K3 & K4). destruct (kept_view _ _ _ _ _ _ Hk K1) as (v & L1 & L2 & L3 & L4). exists v. split; [done|]. split; [congruence|]. split; [congruence|]. intros t f Hf. rewrite <- L3. by apply K4. }
  assert (Hheap : forall hh : gmap N I, (forall p, (p < rc_next_ptr r2)%N -> (forall u v, rc_views r2 !! u = Some v -> v_intr v <> p) -> hh !! p = h1 !! p) ->
            whole_groups est -> forall u v, rc_views e !! u = Some v -> hh !! v_intr v = h1 !! v_intr v).
  { intros hh Hhh Hw u v Hv. destruct (part_views _ _ _ _ _ _ Hpe Hv) as (v1 & Hv1 & Hev & _ & _ & -> & _).
    destruct (ok_shares r1 Hok1) as [Ks Ki]. apply Hhh; [rewrite Hn2; by apply (Ki u v1)|].
    intros x vx Hx Hpx. destruct (part_views _ _ _ _ _ _ Hp2 Hx) as (v2 & Hv2 & Hnev & _ & _ & Hi & _). apply Hnev. rewrite Hi in Hpx.
    pose proof (proj2 (Ks u x v1 v2 Hv1 Hv2) (eq_sym Hpx)) as Hg. apply (Hw _ _ _ _ _ _ _ u x Ee Hg); [|done].
    by eexists. }
  assert (Hone : Ok (bool_decide (0 < length (outs ++ [e]))%nat, outs ++ [e], r2, g2, h1) = Ok (okb, outs', r', g', h') ->
     (largest = false -> (size (rc_views r2) < 3)%nat) ->
  exists new, outs' = outs ++ new /\ ok r' /\
    (forall i e, new !! i = Some e -> exists g0 r0 h0 g1 r1 h1, est (k + i)%nat g0 r0 h0 = Ok (true, g1, r1, h1) /\ part r1 (est_view r1) (est_track r1) e /\
       (whole_groups est -> forall u v, rc_views e !! u = Some v -> h' !! v_intr v = h1 !! v_intr v)) /\
    (forall i j e e' u, new !! i = Some e -> new !! j = Some e' -> in_recon e u -> in_recon e' u -> i = j) /\
    (forall i j e e' t, new !! i = Some e -> new !! j = Some e' -> in_tracks e t -> in_tracks e' t -> i = j) /\
    (forall u, in_recon r u <-> (exists e, e ∈ new /\ in_recon e u) \/ in_recon r' u) /\
    (forall e u, e ∈ new -> in_recon e u -> ~ in_recon r' u) /\
    (forall e t, e ∈ new -> in_tracks e t -> ~ in_tracks r' t) /\
    (forall e t, e ∈ r' :: new -> in_tracks e t -> in_tracks r t) /\
    (forall e u v', e ∈ r' :: new -> rc_views e !! u = Some v' -> exists v, rc_views r !! u = Some v /\ v_name v' = v_name v /\ focal_set (v_data v') = focal_set (v_data v) /\
       forall t f, v_feats v' !! t = Some f -> v_feats v !! t = Some f) /\
    (okb = true <-> outs' <> [] \/ (size (rc_views r) <= 1)%nat) /\
    (largest = true -> (length new <= 1)%nat) /\
    (largest = false -> (size (rc_views r') < 3)%nat \/ exists g0 r0 h0, est (k + length new)%nat g0 r0 h0 = Ok (false, g', r', h'))).
  { intros Heq Hl. injection Heq as <- <- <- <- <-. exists [e]. split; [done|]. split; [done|]. split.
    { intros i e' Hi. apply list_lookup_singleton_Some in Hi as [-> <-]. rewrite Nat.add_0_r. exists g, r, h, g1, r1, h1. split; [done|]. split; [done|]. apply Hheap. done. }
    split; [intros i j e1 e2 u [-> _]%list_lookup_singleton_Some [-> _]%list_lookup_singleton_Some; done|]. split; [intros i j e1 e2 u [-> _]%list_lookup_singleton_Some [-> _]%list_lookup_singleton_Some; done|].
    split. { intros u. rewrite Sv. split; [intros [?|?]; [left; exists e; split; [by left|done]|by right]|]. intros [(e' & ->%elem_of_list_singleton & ?)|?]; tauto. }
    split; [intros e' u ->%elem_of_list_singleton; apply Dv|]. split; [intros e' u ->%elem_of_list_singleton; apply Dt|].
    split; [intros e' t Hin; apply St; apply elem_of_cons in Hin as [->| ->%elem_of_list_singleton]; tauto|]. split; [intros e' u v' Hin; apply Fv; apply elem_of_cons in Hin as [->| ->%elem_of_list_singleton]; tauto|].
    split; [rewrite bool_decide_eq_true, app_length; cbn; split; [intros _; left; by destruct outs|intros _; lia]|]. split; [cbn; lia|]. intros ->. left. by apply Hl. }
  destruct largest; [apply Hone; [exact Hrun|done]|]. destruct (decide (size (rc_views r2) < 3)%nat) as [H3|H3]; [apply Hone; [exact Hrun|done]|]. clear Hone.
  destruct (IH _ _ _ _ _ _ _ _ _ _ Hok2 Hrun) as (new & -> & Hok' & I1 & I2 & I3 & I4 & I5 & I6 & I7 & I8 & I9 & _ & I10).
  assert (T2 : forall e' t, e' ∈ new -> in_tracks e' t -> in_tracks r2 t) by (intros e' t He'; apply I7; by right).
  assert (V2 : forall e' u, e' ∈ new -> in_recon e' u -> in_recon r2 u) by (intros e' u He' Hu; apply I4; left; eauto).
  exists (e :: new). split; [by rewrite <- app_assoc|]. split; [done|]. split; [|split; [|split; [|split; [|split; [|split; [|split; [|split; [|split; [|split]]]]]]]]].
  - intros i e' Hi. destruct i as [|i].
    + injection Hi as <-. rewrite Nat.add_0_r. exists g, r, h, g1, r1, h1. split; [done|]. split; [done|]. apply Hheap. intros p Hp Hu. exact (loop_frame est o false Hest fuel _ _ _ _ _ _ _ _ _ _ Hok2 Hrun p Hp Hu).
    + rewrite Nat.add_succ_r. apply (I1 i e' Hi).
  - intros i j e1 e2 u Hi Hj Hu1 Hu2. destruct i as [|i], j as [|j]; [done| | |f_equal; by apply (I2 i j e1 e2 u)].
    + injection Hi as <-. exfalso. apply (Dv u Hu1). apply (V2 e2); [|done]. by eapply elem_of_list_lookup_2.
    + injection Hj as <-. exfalso. apply (Dv u Hu2). apply (V2 e1); [|done]. by eapply elem_of_list_lookup_2.
  - intros i j e1 e2 u Hi Hj Hu1 Hu2. destruct i as [|i], j as [|j]; [done| | |f_equal; by apply (I3 i j e1 e2 u)].
    + injection Hi as <-. exfalso. apply (Dt u Hu1). apply (T2 e2); [|done]. by eapply elem_of_list_lookup_2.
    + injection Hj as <-. exfalso. apply (Dt u Hu2). apply (T2 e1); [|done]. by eapply elem_of_list_lookup_2.
  - intros u. rewrite Sv, I4. split.
    + intros [?|[(e' & ? & ?)|?]]; [left; exists e; split; [by left|done]|left; exists e'; split; [by right|done]|by right].
    + intros [(e' & He' & ?)|?]; [|tauto]. apply elem_of_cons in He' as [->|He']; [by left|]. right. left. eauto.
  - intros e' u He' Hu. apply elem_of_cons in He' as [->|He']; [|by apply (I5 e')]. intros K. apply (Dv u Hu). apply I4. by right.
  - intros e' u He' Hu. apply elem_of_cons in He' as [->|He']; [|by apply (I6 e')]. intros K. apply (Dt u Hu). apply (I7 r'); [by left|done].
  - intros e' t He' Ht. apply elem_of_cons in He' as [->|He']; [apply (St r2); [by right|]; by apply (I7 r'); [left|]|]. apply elem_of_cons in He' as [->|He']; [apply (St e); [by left|done]|]. apply (St r2); [by right|]. by apply (T2 e').
  - intros e' u v' He' Hv'. assert (Hc : e' = e \/ e' ∈ r' :: new). { apply elem_of_cons in He' as [->|He']; [right; by left|]. apply elem_of_cons in He' as [->|He']; [by left|]. right. by right. }
    destruct Hc as [->|Hc]; [by apply (Fv e); [left|]|]. destruct (I8 e' u v' Hc Hv') as (v2 & K1 & K2 & K3 & K4). destruct (Fv r2 u v2 (or_intror eq_refl) K1) as (v & L1 & L2 & L3 & L4). exists v. split; [done|]. split; [congruence|]. split; [congruence|]. eauto.
  - rewrite I9. split; intros [K|K]; [by left|lia|by left|lia].
  - done.
  - intros _. destruct (I10 eq_refl) as [K|(g0 & r0 & h0 & K)]; [by left|]. right. exists g0, r0, h0. cbn [length]. rewrite Nat.add_succ_r. exact K.
Qed.

Lemma loop_returns est o largest (Hest : keeps est) (Hp : progresses est) (Hr : returns est) fuel : forall k r g h outs, ok r ->
  (size (rc_views r) <= fuel)%nat -> (1 <= fuel)%nat -> exists x, build_loop est o largest fuel k r g h outs = Ok x.
Proof.
  induction fuel as [|fuel IH]; intros k r g h outs Hok Hf H1; [lia|]. cbn [build_loop].
  destruct (decide (size (rc_views r) <= 1)%nat) as [Hs|Hs]; [eauto|].
  destruct (Hr k g r h) as ([[[okr g1] r1] h1] & Ee). rewrite Ee. cbn [mbind outcome_bind].
  pose proof (Hest _ _ _ _ _ _ _ _ Ee) as Hk. pose proof (kept_ok r h r1 h1 Hok Hk) as Hok1.
  destruct okr; cbn [negb]; [|eauto].
  destruct (create_estimated_part (o k) r1 Hok1) as (e & -> & Hoke & Hpe). cbn [mbind outcome_bind].
  destruct (remove_estimated_part (o k) r1 g1 Hok1) as (r2 & g2 & -> & Hok2 & Hp2 & Hn2). cbn [mbind outcome_bind].
  destruct largest; [eauto|]. destruct (decide (size (rc_views r2) < 3)%nat) as [H3|H3]; [eauto|]. apply IH; [done| |].
  - destruct (Hp _ _ _ _ _ _ _ Ee) as (u & Hu). assert (size (rc_views r2) < size (rc_views r1))%nat.
    { rewrite <- !size_dom. apply subset_size. split.
      - intros x. rewrite !elem_of_dom, (proj1 Hp2 x). tauto.
      - intros Hsub. assert (Hd : u ∈ dom (rc_views r1)) by (apply elem_of_dom; destruct Hu as (v & ? & _); eauto). apply Hsub in Hd. apply elem_of_dom in Hd. apply (proj1 Hp2 u) in Hd. tauto. }
    rewrite (kept_size r h r1 h1 Hk) in *. lia.
  - assert (size (rc_views r2) <= size (rc_views r1))%nat by (eapply part_size; exact Hp2). rewrite (kept_size r h r1 h1 Hk) in *. lia.
Qed.
End loop.
