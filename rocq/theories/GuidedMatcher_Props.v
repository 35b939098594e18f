(** Guided matching along epipolar lines (C116-C120). *)
From stdpp Require Import gmap numbers sorting.
From Coq Require Import QArith_base QArith Qround Lia Lqa Psatz.
From Verif Require Import Base VisibilityPyramid_Model GuidedMatcher_Model GuidedMatcher_Spec GuidedMatcher_Proofs.
Open Scope Q_scope.

Lemma keypoints_near_in gs p l (K : nat -> pixel -> Prop) : Forall (contains K) gs -> keypoints_near gs p = Ok l ->
  forall i, i ∈ l -> exists k, K i k.
Proof.
  intros Hc H i Hi. unfold keypoints_near in H. destruct (closest_cell p gs None) as [best| | |] eqn:Eb; cbn [mbind outcome_bind] in H; try discriminate.
  destruct (closest_cell_Ok _ _ _ _ Eb) as (g & c & m & [(-> & _ & Hor & _)|(-> & _)]); [discriminate| |discriminate H].
  cbn [or_ub mbind outcome_bind] in H. injection H as <-.
  destruct Hor as [Hor|[Hg Ec]]; [discriminate Hor|]. rewrite Forall_forall in Hc. apply (Hc g Hg c i) in Hi as (k & ? & _). by exists k.
Qed.

Lemma elem_of_concat {A} (x : A) ls : x ∈ concat ls <-> exists l, x ∈ l /\ l ∈ ls.
Proof.
  induction ls as [|l ls IH]; cbn [concat]; [split; [by intros ?%elem_of_nil|intros (? & _ & ?%elem_of_nil); done]|].
  rewrite elem_of_app, IH. split.
  - intros [?|(l' & ? & ?)]; [exists l; split; [done|by left]|exists l'; split; [done|by right]].
  - intros (l' & Hx & [->|?]%elem_of_cons); [by left|right; by exists l'].
Qed.
Lemma walk_Ok gs delta p n found found' : walk gs delta p n found = Ok found' ->
  exists ls : list (list nat), length ls = n /\
    (forall j l, ls !! j = Some l -> exists q, q.1 == p.1 + inject_Z (Z.of_nat (S j)) * delta.1 /\ q.2 == p.2 + inject_Z (Z.of_nat (S j)) * delta.2 /\ keypoints_near gs q = Ok l) /\
    (forall i, i ∈ found' <-> i ∈ found \/ i ∈ concat ls).
Proof.
  revert p found. induction n as [|n IH]; intros p found H; cbn [walk] in H.
  - injection H as <-. exists []. split; [done|]. split; [intros j l E; discriminate E|]. intros i. split; [by left|]. intros [?|?%elem_of_nil]; done.
  - cbv zeta in H. destruct (keypoints_near gs _) as [l| | |] eqn:El; cbn [mbind outcome_bind] in H; try discriminate.
    destruct (IH _ _ H) as (ls & Hl & Hq & Hi). exists (l :: ls). split; [cbn; by rewrite Hl|]. split.
    + intros [|j] l' E.
      * cbn in E. injection E as <-. eexists. split; [|split; [|exact El]]; cbn [fst snd]; change (inject_Z (Z.of_nat 1)) with 1; ring.
      * destruct (Hq j l' E) as (q & E1 & E2 & Ek). exists q. cbn [fst snd] in E1, E2. split; [|split; [|done]].
        -- rewrite E1, (Nat2Z.inj_succ (S j)). unfold Z.succ. rewrite inject_Z_plus. change (inject_Z 1) with 1. ring.
        -- rewrite E2, (Nat2Z.inj_succ (S j)). unfold Z.succ. rewrite inject_Z_plus. change (inject_Z 1) with 1. ring.
    + intros i. rewrite Hi. cbn [concat]. rewrite elem_of_union, elem_of_list_to_set, elem_of_app. tauto.
Qed.

Lemma num_steps_Ok d e n : ~ d == 0 -> num_steps d (e.1, e.2) = Ok n ->
  inject_Z (Z.of_nat n) * inject_Z (Z.of_nat n) * (d * d) <= sq_length e /\
  sq_length e < (inject_Z (Z.of_nat n) + 1) * (inject_Z (Z.of_nat n) + 1) * (d * d).
Proof.
  intros Hd. unfold num_steps. destruct (Qeq_bool d 0) eqn:E0; [discriminate|]. case_decide; [|discriminate]. intros Hn.
  assert (n = Z.to_nat (Z.sqrt (Qfloor (sq_dist e.2 e.1 / (d * d))))) as ->.
  { assert (Hi : forall a b : nat, Ok a = Ok b -> a = b) by congruence. by apply Hi in Hn. } clear Hn.
  assert (El : sq_dist e.2 e.1 == sq_length e) by (unfold sq_dist, sq_length; ring).
  assert (Hdd : 0 < d * d). { destruct (Qlt_le_dec d 0); [nra|]. assert (0 < d) by (apply Qpos_of; done). nra. }
  assert (Hq : sq_dist e.2 e.1 / (d * d) == sq_length e / (d * d)) by (by rewrite El).
  rewrite (Qfloor_comp _ _ Hq). set (q := sq_length e / (d * d)) in *. assert (Eq : sq_length e == q * (d * d)) by (unfold q; field; done).
  assert (Hq0 : 0 <= q). { unfold q. apply Qle_shift_div_l; [done|]. unfold sq_length.
    assert (Hsq : forall u : Q, 0 <= u * u) by (intros u; destruct (Qdec_nonneg u); nra).
    assert (A := Hsq (e.1.1 - e.2.1)). assert (B := Hsq (e.1.2 - e.2.2)). lra. }
  assert (Hf : (0 <= Qfloor q)%Z). { change 0%Z with (Qfloor 0). by apply Qfloor_resp_le. }
  assert (Hsp := Z.sqrt_spec _ Hf). cbv zeta in Hsp. assert (Hs0 := Z.sqrt_nonneg (Qfloor q)).
  rewrite Z2Nat.id by done. set (r := Z.sqrt (Qfloor q)) in *. destruct Hsp as [S1 S2].
  assert (L : inject_Z r * inject_Z r <= q).
  { rewrite <-inject_Z_mult. apply Qle_trans with (inject_Z (Qfloor q)); [by rewrite <-Zle_Qle|apply Qfloor_le]. }
  assert (U : q < (inject_Z r + 1) * (inject_Z r + 1)).
  { change 1 with (inject_Z 1). rewrite <-inject_Z_plus, <-inject_Z_mult. apply Qlt_le_trans with (inject_Z (Qfloor q + 1)); [apply Qlt_floor|].
    rewrite <-Zle_Qle. unfold Z.succ in S2. lia. }
  rewrite Eq. clear - L U Hdd. split; nra.
Qed.

Lemma near_comp r k p q : p.1 == q.1 -> p.2 == q.2 -> (closer r k p -> closer r k q) /\ (close r k p -> close r k q).
Proof. unfold closer, close. intros -> ->. done. Qed.

(** The candidates of a group. *)
Lemma candidates_Ok draw o d gs g t cs t' (K : nat -> pixel -> Prop) : ~ d == 0 ->
  shape <$> gs = grid_shapes d -> Forall (contains K) gs ->
  candidates draw o d gs g t = Ok (cs, t') -> searched draw d K (eg_endpoints g) cs.
Proof.
  intros Hd Hs Hc H. unfold candidates in H. destruct (eg_endpoints g) as [e0 e1] eqn:Ee.
  destruct (num_steps d (e0, e1)) as [n| | |] eqn:En; cbn [mbind outcome_bind] in H; try discriminate. cbv zeta in H.
  destruct (walk gs _ e1 n ∅) as [found| | |] eqn:Ew; cbn [mbind outcome_bind] in H; try discriminate. injection H as <- <-.
  destruct (num_steps_Ok d (e0, e1) n Hd En) as [N1 N2].
  destruct (walk_Ok _ _ _ _ _ _ Ew) as (ls & Hl & Hq & Hi).
  assert (Hfound : forall i, i ∈ elements found <-> i ∈ concat ls).
  { intros i. rewrite elem_of_elements, Hi. set_solver. }
  exists n, t, (elements found). split; [done|]. split; [done|]. split; [apply NoDup_elements|]. split; [|split; [|split]].
  - rewrite (ord_perm o). apply NoDup_elements.
  - intros i Hf. apply Hfound, elem_of_concat in Hf as (l & Hil & Hll). apply elem_of_list_lookup in Hll as (j & Hj).
    destruct (Hq j l Hj) as (q & _ & _ & Ek). by eapply keypoints_near_in.
  - intros i. rewrite (ord_perm o), elem_of_elements, elem_of_union, elem_of_list_to_set, <-(elem_of_elements found).
    unfold size, set_size. cbn. split; (intros [?|H]; [by left|]); right.
    + apply elem_of_list_fmap in H as (x & -> & Hx%elem_of_seq). exists (t + x)%nat. split; [|done]. unfold kMinNumMatchesFound in Hx. lia.
    + destruct H as (r & Hr & ->). apply elem_of_list_fmap. exists (r - t)%nat. split; [f_equal; lia|]. apply elem_of_seq. unfold kMinNumMatchesFound. lia.
  - intros z Hz ->.
    assert (Hsam : forall j q, (1 <= j <= n)%nat -> q.1 == e1.1 + inject_Z (Z.of_nat j) * ((e0.1 - e1.1) / inject_Z (Z.of_nat n)) ->
      q.2 == e1.2 + inject_Z (Z.of_nat j) * ((e0.2 - e1.2) / inject_Z (Z.of_nat n)) ->
      q.1 == (sample e0 e1 n j).1 /\ q.2 == (sample e0 e1 n j).2).
    { intros j q Hj -> ->. assert (0 < inject_Z (Z.of_nat n)) by (change 0 with (inject_Z 0); rewrite <-Zlt_Qlt; lia).
      unfold sample. cbn [fst snd]. split; field; lra. }
    split.
    + intros i k j Hk Hj Hcl. apply Hfound. destruct (lookup_lt_is_Some_2 ls (j - 1)%nat ltac:(lia)) as [l El].
      destruct (Hq _ _ El) as (q & E1 & E2 & Ek). replace (S (j - 1)) with j in E1, E2 by lia. cbn [fst snd] in E1, E2, Hcl.
      destruct (Hsam j q Hj E1 E2) as [F1 F2]. symmetry in F1, F2.
      apply elem_of_concat. exists l. split; [|by eapply elem_of_list_lookup_2].
      apply (proj1 (keypoints_near_Ok z gs q l K Hz Hs Hc Ek) i k Hk). by apply (near_comp _ k _ _ F1 F2).
    + intros i Hf. apply Hfound, elem_of_concat in Hf as (l & Hil & Hll). apply elem_of_list_lookup in Hll as (j & Hj).
      destruct (Hq j l Hj) as (q & E1 & E2 & Ek). apply lookup_lt_Some in Hj. cbn [fst snd] in E1, E2.
      destruct (Hsam (S j) q ltac:(lia) E1 E2) as [F1 F2].
      destruct (proj2 (keypoints_near_Ok z gs q l K Hz Hs Hc Ek) i Hil) as (k & Hk & Hcl). exists k, (S j). split; [done|]. split; [lia|].
      cbn [fst snd]. by apply (near_comp _ k _ _ F1 F2).
Qed.

(** ** Matching *)
Lemma at_indices_Ok {A} (l : list A) is r : at_indices l is = Ok r -> Forall2 (fun i x => l !! i = Some x) is r.
Proof.
  revert r. induction is as [|i is IH]; intros r H; cbn [at_indices] in H; [by injection H as <-|].
  destruct (l !! i) as [x|] eqn:Ex; cbn [or_ub mbind outcome_bind] in H; [|discriminate].
  destruct (at_indices l is) as [xs| | |]; cbn [mbind outcome_bind] in H; try discriminate. injection H as <-. constructor; [done|by apply IH].
Qed.
Lemma all_nearest_Ok cs nns r : all_nearest cs nns = Ok r ->
  Forall2 (fun nn ab => exists pa pb, nn !! 0%nat = Some (ab.1.1, pa) /\ nn !! 1%nat = Some (ab.2.1, pb) /\ cs !! pa = Some ab.1.2 /\ cs !! pb = Some ab.2.2) nns r.
Proof.
  revert r. induction nns as [|nn nns IH]; intros r H; cbn [all_nearest] in H; [by injection H as <-|].
  unfold two_nearest in H. destruct (nn !! 0%nat) as [[da pa]|] eqn:Ea; cbn [or_ub mbind outcome_bind] in H; [|discriminate].
  destruct (nn !! 1%nat) as [[db pb]|] eqn:Eb; cbn [or_ub mbind outcome_bind] in H; [|discriminate]. cbn [fst snd] in H.
  destruct (cs !! pa) as [i|] eqn:Ei; cbn [or_ub mbind outcome_bind] in H; [|discriminate].
  destruct (cs !! pb) as [j|] eqn:Ej; cbn [or_ub mbind outcome_bind] in H; [|discriminate].
  destruct (all_nearest cs nns) as [xs| | |]; cbn [mbind outcome_bind] in H; try discriminate. injection H as <-.
  constructor; [|by apply IH]. by exists pa, pb.
Qed.
Lemma ratio_test_Ok ratio fs nns r : ratio_test ratio fs nns = Ok r ->
  (forall m, m ∈ r <-> exists i f a b, fs !! i = Some f /\ nns !! i = Some (a, b) /\ a.1 < b.1 * (ratio * ratio) /\ m = (f, a.2, a.1)) /\
  (r.*1).*1 `sublist_of` fs.
Proof.
  revert fs r. induction nns as [|[a b] nns IH]; intros fs r H; cbn [ratio_test] in H.
  - injection H as <-. split; [|apply sublist_nil_l]. intros m. split; [by intros ?%elem_of_nil|]. intros (i & f & a & b & _ & E & _). discriminate E.
  - destruct fs as [|f fs]; cbn [head tail or_ub mbind outcome_bind] in H; [discriminate|].
    destruct (ratio_test ratio fs nns) as [rest| | |] eqn:Er; cbn [mbind outcome_bind] in H; try discriminate. injection H as <-.
    destruct (IH _ _ Er) as [Hm Hsub]. split.
    + intros m. destruct (Qle_bool (b.1 * (ratio * ratio)) a.1) eqn:E; cbn [negb].
      * apply Qle_bool_iff in E. rewrite Hm. split.
        -- intros (i & f' & a' & b' & R). by exists (S i), f', a', b'.
        -- intros ([|i] & f' & a' & b' & F1 & F2 & F3 & F4); [|by exists i, f', a', b']. cbn in F1, F2. injection F2 as <- <-. lra.
      * assert (a.1 < b.1 * (ratio * ratio)) by (apply Qnot_le_lt; intros Hx; apply Qle_bool_iff in Hx; congruence).
        rewrite elem_of_cons, Hm. split.
        -- intros [->|(i & f' & a' & b' & R)]; [by exists 0%nat, f, a, b|by exists (S i), f', a', b'].
        -- intros ([|i] & f' & a' & b' & F1 & F2 & F3 & F4); [|right; by exists i, f', a', b']. cbn in F1, F2. injection F2 as <- <-. injection F1 as <-. by left.
    + destruct (negb _); cbn; [by apply sublist_skip|by apply sublist_cons].
Qed.

Section props.
Context {D : Type} (dist : D -> D -> Q).
Context (line_of : pixel -> Q * Q * Q) (knn : list D -> list D -> list (list (Q * nat))) (draw : nat -> nat) (o : order nat).
Context (d ratio : Q) (ks1 ks2 : list pixel) (ds1 ds2 : list D).
Hypothesis Hknn : knn_contract dist knn.

(** The two candidates that are nearest to the feature [f]. *)
Definition nearest (cs : list nat) (f : nat) (ab : (Q * nat) * (Q * nat)) : Prop :=
  exists q ca cb, ds1 !! f = Some q /\ ds2 !! ab.1.2 = Some ca /\ ds2 !! ab.2.2 = Some cb /\ ab.1.1 == dist q ca /\ ab.2.1 == dist q cb /\
    ab.1.2 ∈ cs /\ ab.2.2 ∈ cs /\ ab.2.2 <> ab.1.2 /\ ab.1.1 <= ab.2.1 /\
    forall f' c', f' ∈ cs -> f' <> ab.1.2 -> ds2 !! f' = Some c' -> ab.2.1 <= dist q c'.

Lemma nearest_neighbors_Ok fs cs r : NoDup cs -> nearest_neighbors knn ds1 ds2 fs cs = Ok r -> Forall2 (nearest cs) fs r.
Proof.
  intros Hnd H. unfold nearest_neighbors in H.
  destruct (at_indices ds1 fs) as [q| | |] eqn:Eq; cbn [mbind outcome_bind] in H; try discriminate.
  destruct (at_indices ds2 cs) as [c| | |] eqn:Ec; cbn [mbind outcome_bind] in H; try discriminate.
  apply at_indices_Ok in Eq, Ec. apply all_nearest_Ok in H. destruct (Hknn q c) as [Hlen Hk].
  assert (Hlr := Forall2_length _ _ _ H). assert (Hlq := Forall2_length _ _ _ Eq).
  apply Forall2_same_length_lookup_2; [lia|]. intros i f [[da a] [db b]] Hf Hr.
  destruct (Forall2_lookup_l _ _ _ _ _ Eq Hf) as (x & Ex & Hx). destruct (Forall2_lookup_r _ _ _ _ _ H Hr) as (nn & En & pa & pb & Ea & Eb & Ca & Cb).
  cbn [fst snd] in Ea, Eb, Ca, Cb. destruct (Hk i x nn Ex En) as (Hl & Hn2 & Hin & Hord & Hrest).
  assert (Ia : (da, pa) ∈ nn) by (by eapply elem_of_list_lookup_2). assert (Ib : (db, pb) ∈ nn) by (by eapply elem_of_list_lookup_2).
  destruct (Hin _ Ia) as (ca & Pa & Da), (Hin _ Ib) as (cb & Pb & Db). cbn [fst snd] in Pa, Da, Pb, Db.
  destruct (Forall2_lookup_l _ _ _ _ _ Ec Ca) as (ca' & Pa' & Ka). rewrite Pa in Pa'. injection Pa' as <-.
  destruct (Forall2_lookup_l _ _ _ _ _ Ec Cb) as (cb' & Pb' & Kb). rewrite Pb in Pb'. injection Pb' as <-.
  exists x, ca, cb. cbn [fst snd]. split; [done|]. split; [done|]. split; [done|]. split; [done|]. split; [done|].
  split; [by eapply elem_of_list_lookup_2|]. split; [by eapply elem_of_list_lookup_2|].
  assert (Hpab : pa <> pb).
  { intros ->. assert (0%nat = 1%nat); [|lia]. eapply (NoDup_lookup nn.*2); [done| |]; rewrite list_lookup_fmap; [by rewrite Ea|by rewrite Eb]. }
  split.
  { intros ->. apply Hpab. by eapply (NoDup_lookup cs). }
  split; [by apply (Hord (da, pa) (db, pb))|].
  intros f' c' Hf' Hne Hc'. apply elem_of_list_lookup in Hf' as (j & Hj).
  destruct (Forall2_lookup_l _ _ _ _ _ Ec Hj) as (c'' & Pj & Kj). rewrite Hc' in Kj. injection Kj as <-.
  destruct (decide (j = pb)) as [->|Hjb].
  - rewrite Pb in Pj. injection Pj as <-. lra.
  - apply (Hrest (db, pb) j c' Ib Pj). intros (y & -> & Hy)%elem_of_list_fmap.
    assert (Hy2 : y = (da, pa) \/ y = (db, pb)).
    { assert (Hl2 : (length nn <= 2)%nat) by lia. clear Hl. destruct nn as [|y0 [|y1 [|]]]; try discriminate Ea; try discriminate Eb; [|cbn in Hl2; lia]. cbn in Ea, Eb. injection Ea as ->. injection Eb as ->.
      apply elem_of_cons in Hy as [->|Hy]; [by left|]. apply elem_of_list_singleton in Hy as ->. by right. }
    destruct Hy2 as [-> | ->]; cbn [snd] in *; [|done]. rewrite Ca in Hj. injection Hj as <-. done.
Qed.

(** What one group adds. *)
Definition adds (cs fs : list nat) (added : list (nat * nat * Q)) : Prop :=
  (forall m, m ∈ added -> m.1.1 ∈ fs /\ passes dist ratio ds1 ds2 cs m) /\
  (forall m, m.1.1 ∈ fs -> passes dist ratio ds1 ds2 cs m -> exists m', m' ∈ added /\ m'.1.1 = m.1.1) /\
  (added.*1).*1 `sublist_of` fs.

Lemma match_group_Ok gs st g st' (K : nat -> pixel -> Prop) : ~ d == 0 -> shape <$> gs = grid_shapes d -> Forall (contains K) gs ->
  match_group knn draw o d ratio ds1 ds2 gs st g = Ok st' ->
  exists cs added, st'.1 = st.1 ++ added /\ searched draw d K (eg_endpoints g) cs /\ adds cs (eg_features g) added.
Proof.
  intros Hd Hs Hc H. unfold match_group in H.
  destruct (candidates draw o d gs g st.2) as [[cs t]| | |] eqn:Ecs; cbn [mbind outcome_bind] in H; try discriminate.
  destruct (nearest_neighbors knn ds1 ds2 (eg_features g) cs) as [nns| | |] eqn:Enn; cbn [mbind outcome_bind] in H; try discriminate.
  destruct (ratio_test ratio (eg_features g) nns) as [added| | |] eqn:Er; cbn [mbind outcome_bind] in H; try discriminate. injection H as <-.
  assert (Hse := candidates_Ok _ _ _ _ _ _ _ _ _ Hd Hs Hc Ecs).
  assert (Hnd : NoDup cs) by (destruct Hse as (? & ? & ? & _ & _ & _ & ? & _); done).
  apply nearest_neighbors_Ok in Enn; [|done]. destruct (ratio_test_Ok _ _ _ _ Er) as [Hm Hsub].
  exists cs, added. cbn [fst]. split; [done|]. split; [done|]. split; [|split; [|done]].
  - intros m (i & f & a & b & Ef & Eab & Hlt & ->)%Hm. split; [by eapply elem_of_list_lookup_2|].
    destruct (Forall2_lookup_lr _ _ _ _ _ _ Enn Ef Eab) as (q & ca & cb & Hq & Hca & Hcb & Da & Db & Ia & Ib & Hne & Hle & Hmin). cbn [fst snd] in *.
    split; [done|]. exists q, ca, b.2, cb. cbn [fst snd]. repeat (split; [done|]). split; [by rewrite <-Db|]. split.
    + intros f'' c'' Hf'' Hc''. destruct (decide (f'' = a.2)) as [->|Hn]; [rewrite Hca in Hc''; injection Hc'' as <-; lra|].
      specialize (Hmin f'' c'' Hf'' Hn Hc''). rewrite <-Da. lra.
    + intros f'' c'' Hf'' Hn Hc''. rewrite <-Db. exact (Hmin f'' c'' Hf'' Hn Hc'').
  - intros m Hmf (Hmcs & q & c & f' & c' & Hq & Hcc & Hdist & Hf' & Hne & Hc' & Hlt & Hmin1 & Hmin2).
    apply elem_of_list_lookup in Hmf as (i & Ef). destruct (Forall2_lookup_l _ _ _ _ _ Enn Ef) as ([a b] & Eab & N).
    destruct N as (q' & ca & cb & Hq' & Hca & Hcb & Da & Db & Ia & Ib & Hneab & Hle & Hmin). cbn [fst snd] in *.
    rewrite Hq in Hq'. injection Hq' as <-.
    exists (m.1.1, a.2, a.1). split; [|done]. apply Hm. exists i, m.1.1, a, b. split; [done|]. split; [done|]. split; [|done].
    rewrite Da, Db. assert (A1 := Hmin1 _ _ Ia Hca).
    assert (A0 : dist q ca <= dist q c).
    { destruct (decide (m.1.2 = a.2)) as [E|E]; [rewrite E, Hca in Hcc; injection Hcc as <-; lra|].
      rewrite <-Da. assert (X := Hmin _ _ Hmcs E Hcc). lra. }
    assert (A2 : dist q c' <= dist q cb).
    { destruct (decide (b.2 = m.1.2)) as [E|E]; [|by apply (Hmin2 b.2)].
      (* the second neighbor is the match itself: then the first one is another feature at the same distance *)
      assert (Hn : a.2 <> m.1.2) by congruence. assert (X := Hmin2 _ _ Ia Hn Hca). rewrite E, Hcc in Hcb. injection Hcb as <-. lra. }
    assert (0 <= ratio * ratio) by (destruct (Qdec_nonneg ratio); nra).
    assert (dist q c' * (ratio * ratio) <= dist q cb * (ratio * ratio)) by (clear - A2 H; nra). lra.
Qed.

Lemma match_groups_Ok gs st groups st' (K : nat -> pixel -> Prop) : ~ d == 0 -> shape <$> gs = grid_shapes d -> Forall (contains K) gs ->
  run_steps (match_group knn draw o d ratio ds1 ds2 gs) st groups = Ok st' ->
  exists css adds', st'.1 = st.1 ++ concat adds' /\ length css = length groups /\ length adds' = length groups /\
    forall i g cs a, groups !! i = Some g -> css !! i = Some cs -> adds' !! i = Some a -> searched draw d K (eg_endpoints g) cs /\ adds cs (eg_features g) a.
Proof.
  intros Hd Hs Hc. revert st. induction groups as [|g groups IH]; intros st H; cbn [run_steps] in H.
  - injection H as <-. exists [], []. split; [by rewrite app_nil_r|]. split; [done|]. split; [done|]. intros i g cs a E. discriminate E.
  - destruct (match_group knn draw o d ratio ds1 ds2 gs st g) as [st1| | |] eqn:E1; cbn [mbind outcome_bind] in H; try discriminate.
    destruct (match_group_Ok _ _ _ _ _ Hd Hs Hc E1) as (cs & added & Es & Hse & Ha). destruct (IH _ H) as (css & adds' & Es' & L1 & L2 & Hall).
    exists (cs :: css), (added :: adds'). split; [rewrite Es', Es; cbn; by rewrite app_assoc|]. split; [cbn; by rewrite L1|]. split; [cbn; by rewrite L2|].
    intros [|i] g' cs' a' G C A; cbn in G, C, A; [|by apply (Hall i)]. injection G as <-. injection C as <-. injection A as <-. done.
Qed.

Lemma unmatched_free ms i k : unmatched ks2 (list_to_set ((fun m => m.1.2) <$> ms)) i k <-> free2 ks2 ms i k.
Proof.
  unfold unmatched, free2, matched2. rewrite elem_of_list_to_set, elem_of_list_fmap. split; intros [E N]; (split; [done|]); intros (m & A & B); apply N; exists m; done.
Qed.
Lemma box_ok P bb : bounds P bb -> in_box bb bb.1 /\ in_box bb bb.2.
Proof.
  intros (Hin & (p & Hp & _) & _). specialize (Hin p Hp). unfold in_box in *. lra.
Qed.
Lemma box_image (P : pixel -> Prop) bb p : bounds P bb -> (forall q, P q -> image_point q) -> in_box bb p -> image_point p.
Proof.
  intros (_ & (p1 & H1 & E1) & (p2 & H2 & E2) & (p3 & H3 & E3) & (p4 & H4 & E4)) Hi Hp.
  apply Hi in H1 as [H1 _], H2 as [H2 _], H3 as [_ H3], H4 as [_ H4]. unfold in_box in Hp. unfold image_point. rewrite <-E1, <-E2, <-E3, <-E4 in Hp. lra.
Qed.
Lemma init_facts ms gs bb : initialize d ks2 (list_to_set ((fun m => m.1.2) <$> ms)) = Ok (gs, bb) ->
  shape <$> gs = grid_shapes d /\ Forall (contains (free2 ks2 ms)) gs /\ bounds (fun k => exists i, free2 ks2 ms i k) bb.
Proof.
  intros H. destruct (initialize_Ok _ _ _ _ _ H) as (Sh & C & Hin & (i1 & k1 & U1 & E1) & (i2 & k2 & U2 & E2) & (i3 & k3 & U3 & E3) & (i4 & k4 & U4 & E4)).
  split; [done|]. split; [eapply Forall_impl; [exact C|]; intros g; apply contains_iff; intros; apply unmatched_free|].
  apply unmatched_free in U1, U2, U3, U4.
  split; [intros p (i & Hp); apply (Hin i); by apply unmatched_free|]. split; [exists k1; eauto|]. split; [exists k2; eauto|]. split; [exists k3; eauto|exists k4; eauto].
Qed.
Lemma free_image ms : Forall image_point ks2 -> forall q, (exists i, free2 ks2 ms i q) -> image_point q.
Proof. intros Hi q (i & E & _). rewrite Forall_forall in Hi. apply Hi. by eapply elem_of_list_lookup_2. Qed.

Lemma group_lines_Ok ms bb groups : bounds (fun k => exists i, free2 ks2 ms i k) bb -> Forall image_point ks2 ->
  group_lines line_of d ks1 (list_to_set ((fun m => m.1.1) <$> ms)) bb = Ok groups ->
  Forall (fun g => grouped line_of d ks1 bb (eg_features g) (eg_endpoints g)) groups /\
  NoDup (concat (eg_features <$> groups)) /\
  (forall f, f ∈ concat (eg_features <$> groups) -> exists k, ks1 !! f = Some k /\ ~ matched1 ms f /\ meets bb (line_of k)) /\
  (forall f k, ks1 !! f = Some k -> ~ matched1 ms f -> meets bb (line_of k) -> (forall p, corner bb p -> ~ on_line (line_of k) p) ->
     f ∈ concat (eg_features <$> groups)).
Proof.
  intros Hb Him H. unfold group_lines in H. destruct (encoded_lines line_of _ bb 0 ks1) as [es| | |] eqn:Ee; cbn [mbind outcome_bind] in H; try discriminate.
  destruct (box_ok _ _ Hb) as [B1 B2]. destruct (encoded_lines_Ok _ _ _ _ _ _ Ee) as (A & B & C).
  assert (Hm1 : forall f, f ∈ (list_to_set ((fun m => m.1.1) <$> ms) : gset nat) <-> matched1 ms f).
  { intros f. rewrite elem_of_list_to_set, elem_of_list_fmap. unfold matched1. split; intros (m & X & Y); exists m; done. }
  set (code := fun (f : nat) (x : pixel * pixel) => exists k a b, ks1 !! f = Some k /\ on_line (line_of k) a /\ on_border bb a /\
                          on_line (line_of k) b /\ on_border bb b /\ x = (rounded a, rounded b)).
  assert (Hperm := merge_sort_Permutation encoded_le es).
  destruct (group_steps d code (merge_sort encoded_le es) []) as [G1 G2].
  { intros [c f] Hf. rewrite Hperm in Hf. destruct (A f c Hf) as (k & a & b & _ & Ek & _ & El & Ec). rewrite Nat.sub_0_r in Ek. cbn [fst snd].
    destruct (line_endpoints_border bb (line_of k) a B1 B2) as [La Ba]; [rewrite El; by left|].
    destruct (line_endpoints_border bb (line_of k) b B1 B2) as [Lb Bb]; [rewrite El; right; by left|].
    exists k, a, b. repeat (split; [done|]). unfold rounded. apply decode_encode; [| |done]; eapply box_image; [exact Hb|by apply free_image|apply Ba|exact Hb|by apply free_image|apply Bb]. }
  { constructor. }
  cbv zeta in G1, G2. set (gs := foldl (group_step d) [] (merge_sort encoded_le es)) in *.
  assert (groups = reverse gs) as -> by (injection H as <-; reflexivity). clear H.
  cbn [reverse fmap list_fmap concat app] in G2. rewrite G2.
  assert (Hp2 : (merge_sort encoded_le es).*2 ≡ₚ es.*2) by (by rewrite Hperm).
  split; [|split; [|split]].
  - apply Forall_reverse. eapply Forall_impl; [exact G1|]. intros g (xs & F & M & Hne & J). exists xs. split; [exact F|]. split; [|split; [done|]].
    + intros ->. apply Forall2_nil_inv_r in F. done.
    + intros j x Hx Hpos. destruct (J j x Hx Hpos) as (c & Hc & Hd). by exists c.
  - change (NoDup ((merge_sort encoded_le es).*2)). by rewrite Hp2.
  - intros f Hf. change (f ∈ (merge_sort encoded_le es).*2) in Hf. rewrite Hp2 in Hf. apply elem_of_list_fmap in Hf as ([c f'] & -> & Hf).
    destruct (A _ _ Hf) as (k & a & b & _ & Ek & N & El & _). rewrite Nat.sub_0_r in Ek. exists k. cbn [snd] in *. split; [done|]. split; [by rewrite <-Hm1|].
    destruct (line_endpoints_border bb (line_of k) a B1 B2) as [La [Ba _]]; [rewrite El; by left|]. by exists a.
  - intros f k Ek N Hme Hc. change (f ∈ (merge_sort encoded_le es).*2). rewrite Hp2. apply (B f k Ek); [by rewrite Hm1|]. by apply meets_crosses.
Qed.

(** C116: guided matching only appends matches.  There are groups [gl] of features of the first image without a match, with a
    mean segment and candidates of the second image; a feature is in a group only if its line meets the bounding box
    [bb] of the features of the second image without a match, and if this line avoids the corners of the box; and every
    feature of a group gets a match exactly if its nearest candidate passes the ratio test. *)
Theorem guided_result ms ms' : 0 < d -> Forall image_point ks2 ->
  get_matches line_of knn draw o d ratio ks1 ks2 ds1 ds2 ms = Ok ms' ->
  exists bb (gl : list (list nat * (pixel * pixel) * list nat)) added,
    ms' = ms ++ added /\ bounds (fun k => exists i, free2 ks2 ms i k) bb /\
    NoDup (concat (gl.*1).*1) /\
    (forall f, f ∈ concat (gl.*1).*1 -> exists k, ks1 !! f = Some k /\ ~ matched1 ms f /\ meets bb (line_of k)) /\
    (forall f k, ks1 !! f = Some k -> ~ matched1 ms f -> meets bb (line_of k) -> (forall p, corner bb p -> ~ on_line (line_of k) p) ->
       f ∈ concat (gl.*1).*1) /\
    (forall fs e cs, (fs, e, cs) ∈ gl -> grouped line_of d ks1 bb fs e /\ searched draw d (free2 ks2 ms) e cs) /\
    NoDup (added.*1).*1 /\
    (forall m, m ∈ added -> exists fs e cs, (fs, e, cs) ∈ gl /\ m.1.1 ∈ fs /\ passes dist ratio ds1 ds2 cs m) /\
    (forall fs e cs m, (fs, e, cs) ∈ gl -> m.1.1 ∈ fs -> passes dist ratio ds1 ds2 cs m -> exists m', m' ∈ added /\ m'.1.1 = m.1.1).
Proof.
  intros Hd Him H. unfold get_matches in H. cbv zeta in H.
  destruct (initialize d ks2 _) as [[gs bb]| | |] eqn:Ei; cbn [mbind outcome_bind] in H; try discriminate.
  destruct (init_facts _ _ _ Ei) as (Sh & C & Hb).
  destruct (group_lines line_of d ks1 _ bb) as [groups| | |] eqn:Eg; cbn [mbind outcome_bind] in H; try discriminate.
  destruct (group_lines_Ok _ _ _ Hb Him Eg) as (G1 & G2 & G3 & G4).
  destruct (run_steps _ _ groups) as [res| | |] eqn:Er; cbn [mbind outcome_bind] in H; try discriminate. injection H as <-.
  destruct (match_groups_Ok _ _ _ _ _ ltac:(lra) Sh C Er) as (css & adds' & Es & L1 & L2 & Hall). cbn [fst] in Es.
  set (gl := zip (zip (eg_features <$> groups) (eg_endpoints <$> groups)) css).
  assert (Egl : (gl.*1).*1 = eg_features <$> groups).
  { unfold gl. rewrite fst_zip; [apply fst_zip|]; rewrite ?zip_with_length, !fmap_length; lia. }
  assert (Hin : forall fs e cs, (fs, e, cs) ∈ gl -> exists i g a, groups !! i = Some g /\ css !! i = Some cs /\ adds' !! i = Some a /\ fs = eg_features g /\ e = eg_endpoints g).
  { intros fs e cs Hl. apply elem_of_list_lookup in Hl as (i & Hi). unfold gl in Hi. apply lookup_zip_with_Some in Hi as (x & y & E & Hx & Hy). injection E as <- <-.
    apply lookup_zip_with_Some in Hx as (x & z & E & Hx & Hz). injection E as <- <-. rewrite list_lookup_fmap in Hx. rewrite list_lookup_fmap in Hz.
    destruct (groups !! i) as [g|] eqn:Eg'; [|discriminate Hx]. cbn in Hx, Hz. injection Hx as <-. injection Hz as <-.
    destruct (lookup_lt_is_Some_2 adds' i) as [a Ea]; [apply lookup_lt_Some in Eg'; lia|]. by exists i, g, a. }
  exists bb, gl, (concat adds'). rewrite Egl. split; [done|]. split; [done|]. split; [done|]. split; [done|]. split; [done|]. split; [|split; [|split]].
  - intros fs e cs (i & g & a & Eg' & Ec & Ea & -> & ->)%Hin. split; [|by apply (Hall i g cs a)].
    rewrite Forall_forall in G1. apply G1. by eapply elem_of_list_lookup_2.
  - assert (Hsub : ((concat adds').*1).*1 `sublist_of` concat (eg_features <$> groups)).
    { clear - Hall L1 L2. revert adds' css L1 L2 Hall. induction groups as [|g groups IH]; intros [|a adds'] [|cs css] L1 L2 Hall; try discriminate; [constructor|].
      cbn [concat fmap list_fmap]. rewrite !fmap_app. apply sublist_app.
      - apply (Hall 0%nat g cs a); done.
      - apply (IH adds' css); [cbn in *; lia..|]. intros i g' cs' a' X Y Z. by apply (Hall (S i)). }
    apply sublist_submseteq, submseteq_Permutation in Hsub as [rest Hp]. rewrite Hp in G2. by apply NoDup_app in G2 as [? _].
  - intros m (a & Hm & Ha)%elem_of_concat. apply elem_of_list_lookup in Ha as (i & Ea).
    destruct (lookup_lt_is_Some_2 groups i) as [g Eg']; [apply lookup_lt_Some in Ea; lia|].
    destruct (lookup_lt_is_Some_2 css i) as [cs Ec]; [apply lookup_lt_Some in Ea; lia|].
    destruct (Hall i g cs a Eg' Ec Ea) as (_ & Hadd & _). destruct (Hadd m Hm) as [Hf Hp].
    exists (eg_features g), (eg_endpoints g), cs. split; [|done]. apply elem_of_list_lookup. exists i.
    unfold gl. apply lookup_zip_with_Some. eexists _, _. split; [reflexivity|]. split; [|done]. apply lookup_zip_with_Some. eexists _, _. split; [reflexivity|].
    rewrite !list_lookup_fmap, Eg'. done.
  - intros fs e cs m (i & g & a & Eg' & Ec & Ea & -> & ->)%Hin Hf Hp. destruct (Hall i g cs a Eg' Ec Ea) as (_ & _ & Hcomp & _).
    destruct (Hcomp m Hf Hp) as (m' & Hm' & E). exists m'. split; [|done]. apply elem_of_concat. exists a. split; [done|]. by eapply elem_of_list_lookup_2.
Qed.

(** C117: which features get new matches.  A feature of the first image gets at most one and only if it had none; the feature
    of the second image had none or was drawn at random. *)
Theorem guided_features_partial ms ms' : 0 < d -> Forall image_point ks2 ->
  get_matches line_of knn draw o d ratio ks1 ks2 ds1 ds2 ms = Ok ms' ->
  exists added, ms' = ms ++ added /\ NoDup (added.*1).*1 /\
    forall m, m ∈ added -> ~ matched1 ms m.1.1 /\ (~ matched2 ms m.1.2 \/ exists r, m.1.2 = draw r).
Proof.
  intros Hd Him H. destruct (guided_result ms ms' Hd Him H) as (bb & gl & added & -> & _ & _ & Hf & _ & Hgl & Hnd & Hadd & _).
  exists added. split; [done|]. split; [done|]. intros m Hm. destruct (Hadd m Hm) as (fs & e & cs & Hin & Hmf & (Hcs & _)).
  split.
  - destruct (Hf m.1.1) as (k & _ & ? & _); [|done]. apply elem_of_concat. exists fs. split; [done|].
    apply elem_of_list_fmap. exists (fs, e). split; [done|]. apply elem_of_list_fmap. by exists (fs, e, cs).
  - destruct (Hgl _ _ _ Hin) as [_ (n & t & found & _ & _ & _ & _ & Hfree & Hor & _)]. apply Hor in Hcs as [Hc|(r & _ & E)]; [|right; by exists r].
    left. destruct (Hfree _ Hc) as (k & _ & ?). done.
Qed.
End props.
Print Assumptions guided_result.
Print Assumptions guided_features_partial.
