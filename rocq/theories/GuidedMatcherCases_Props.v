(** Guided matching along epipolar lines: definedness and concrete cases (C117-C120). *)
From stdpp Require Import gmap numbers sorting.
From Coq Require Import QArith_base QArith Qround Lia Lqa Psatz.
From Verif Require Import Base VisibilityPyramid_Model GuidedMatcher_Model GuidedMatcher_Spec GuidedMatcher_Proofs GuidedMatcher_Props.
Open Scope Q_scope.

(** ** Definedness *)
Lemma center_total size off x : 0 < size <= 1048576 -> 0 <= x <= 65535 -> exists c, center size off x = Ok c.
Proof.
  intros Hs Hx. destruct (center_real size off x ltac:(lra)) as (v & Hv & _ & _ & Ht). exists (trunc v). apply Ht.
  change (inject_Z (2 ^ 31 - 1)) with 2147483647. lra.
Qed.
Lemma closest_center_total g p : 0 < ig_size g <= 1048576 -> image_point p -> exists c, closest_center g p = Ok c.
Proof.
  intros Hs [Hx Hy]. unfold closest_center. destruct (center_total _ (ig_x g) _ Hs Hx) as [x ->], (center_total _ (ig_y g) _ Hs Hy) as [y ->]. cbn. by eexists.
Qed.
Definition sized (d : Q) (gs : list image_grid) : Prop := Forall (fun g => ig_size g = d) gs.
Lemma add_to_grids_total d i p gs : 0 < d <= 1048576 -> sized d gs -> image_point p -> exists gs', add_to_grids i p gs = Ok gs' /\ sized d gs'.
Proof.
  intros Hd Hs Hp. induction gs as [|g gs IH]; [by exists []|]. apply Forall_cons in Hs as [Hg Hs]. destruct (IH Hs) as (gs' & E & Hs').
  cbn [add_to_grids]. unfold add_feature. destruct (closest_center_total g p ltac:(by rewrite Hg) Hp) as [c ->]. cbn [mbind outcome_bind]. rewrite E. cbn [mbind outcome_bind].
  eexists. split; [reflexivity|]. constructor; done.
Qed.
Lemma add_keypoints_total d m i ks gs xs : 0 < d <= 1048576 -> sized d gs -> Forall image_point ks -> exists gs' xs', add_keypoints m i ks gs xs = Ok (gs', xs').
Proof.
  intros Hd. revert i gs xs. induction ks as [|k ks IH]; intros i gs xs Hs Hp; cbn [add_keypoints]; [by eexists _, _|].
  apply Forall_cons in Hp as [Hk Hp]. destruct (decide (i ∈ m)); [by apply IH|].
  destruct (add_to_grids_total d i k gs Hd Hs Hk) as (gs1 & -> & Hs1). cbn [mbind outcome_bind]. by apply IH.
Qed.
Lemma closest_cell_total d p gs best : 0 < d <= 1048576 -> sized d gs -> image_point p -> exists r, closest_cell p gs best = Ok r /\ (gs <> [] \/ best <> None -> r <> None).
Proof.
  intros Hd Hs Hp. revert best. induction gs as [|g gs IH]; intros best; cbn [closest_cell]; [exists best; split; [done|]; intros [?|?]; done|].
  apply Forall_cons in Hs as [Hg Hs]. destruct (closest_center_total g p ltac:(by rewrite Hg) Hp) as [c ->]. cbn [mbind outcome_bind]. cbv zeta.
  match goal with |- context [closest_cell p gs ?b] => destruct (IH Hs b) as (r & -> & Hr); exists r; split; [done|]; intros _; apply Hr; right end.
  destruct best as [[[? ?] ?]|]; [destruct (negb _)|]; done.
Qed.
Lemma keypoints_near_total d p gs : 0 < d <= 1048576 -> sized d gs -> gs <> [] -> image_point p -> exists l, keypoints_near gs p = Ok l.
Proof.
  intros Hd Hs Hne Hp. unfold keypoints_near. destruct (closest_cell_total d p gs None Hd Hs Hp) as (r & -> & Hr). cbn [mbind outcome_bind].
  destruct r as [[[g c] m]|]; [|exfalso; by apply Hr; [left|]]. cbn. by eexists.
Qed.
Lemma walk_total d gs delta p n found : 0 < d <= 1048576 -> sized d gs -> gs <> [] ->
  (forall j q, (1 <= j <= n)%nat -> q.1 == p.1 + inject_Z (Z.of_nat j) * delta.1 -> q.2 == p.2 + inject_Z (Z.of_nat j) * delta.2 -> image_point q) ->
  exists f, walk gs delta p n found = Ok f.
Proof.
  intros Hd Hs Hne. revert p found. induction n as [|n IH]; intros p found Hq; cbn [walk]; [by eexists|]. cbv zeta.
  destruct (keypoints_near_total d (p.1 + delta.1, p.2 + delta.2) gs Hd Hs Hne) as [l ->].
  { apply (Hq 1%nat); [lia| |]; cbn [fst snd]; change (inject_Z (Z.of_nat 1)) with 1; ring. }
  cbn [mbind outcome_bind]. apply IH. intros j q Hj E1 E2. cbn [fst snd] in E1, E2. apply (Hq (S j)); [lia| |].
  - rewrite E1, Nat2Z.inj_succ. unfold Z.succ. rewrite inject_Z_plus. change (inject_Z 1) with 1. ring.
  - rewrite E2, Nat2Z.inj_succ. unfold Z.succ. rewrite inject_Z_plus. change (inject_Z 1) with 1. ring.
Qed.
Lemma Qsq_nonneg u : 0 <= u * u.
Proof. destruct (Qdec_nonneg u); nra. Qed.
Lemma num_steps_total d e0 e1 : 1 <= d -> image_point e0 -> image_point e1 -> exists n, num_steps d (e0, e1) = Ok n.
Proof.
  intros Hd [A B] [A' B']. unfold num_steps. destruct (Qeq_bool d 0) eqn:E; [apply Qeq_bool_eq in E; lra|]. cbn [fst snd]. cbv zeta.
  rewrite decide_True; [by eexists|].
  set (q := sq_dist e1 e0 / (d * d)). assert (Hdd : 1 <= d * d) by nra.
  assert (Hsd : 0 <= sq_dist e1 e0 <= 8589672450).
  { unfold sq_dist. assert (X := Qsq_nonneg (e1.1 - e0.1)). assert (Y := Qsq_nonneg (e1.2 - e0.2)).
    assert ((e1.1 - e0.1) * (e1.1 - e0.1) <= 65535 * 65535).
    { assert (- (65535) <= e1.1 - e0.1 <= 65535) by lra. clear - H. nra. }
    assert ((e1.2 - e0.2) * (e1.2 - e0.2) <= 65535 * 65535).
    { assert (- (65535) <= e1.2 - e0.2 <= 65535) by lra. clear - H0. nra. }
    lra. }
  assert (Hq : 0 <= q <= 8589672450).
  { unfold q. split; [apply Qle_shift_div_l; [lra|lra]|apply Qle_shift_div_r; [lra|]]. clear - Hsd Hdd. nra. }
  assert (Hf : (0 <= Qfloor q <= 8589672450)%Z).
  { split; [change 0%Z with (Qfloor 0)|change 8589672450%Z with (Qfloor (inject_Z 8589672450))]; apply Qfloor_resp_le; apply Hq. }
  apply Z.le_lt_trans with (Z.sqrt 8589672450); [apply Z.sqrt_le_mono, Hf|]. vm_compute. done.
Qed.

Lemma total_bounds (f : pixel * pixel -> Q) xs : (forall x, x ∈ xs -> 0 <= f x <= 65535) ->
  0 <= total f xs <= 65535 * inject_Z (Z.of_nat (length xs)).
Proof.
  induction xs as [|x xs IH]; intros H.
  - change (total f []) with 0. change (inject_Z (Z.of_nat (length []))) with 0. lra.
  - cbn [total foldr length]. rewrite Nat2Z.inj_succ. unfold Z.succ. rewrite inject_Z_plus. change (inject_Z 1) with 1.
    assert (A := H x ltac:(by left)). specialize (IH ltac:(intros y Hy; apply H; by right)). unfold total in IH. lra.
Qed.
Lemma mean_bounds n t c : 1 <= n -> n * c == t -> 0 <= t <= 65535 * n -> 0 <= c <= 65535.
Proof. intros Hn <- [H1 H2]. split; apply Qnot_lt_le; intros H; nra. Qed.
Lemma mean_image xs c : xs <> [] -> mean_of xs c -> (forall x, x ∈ xs -> image_point x.1 /\ image_point x.2) -> image_point c.1 /\ image_point c.2.
Proof.
  intros Hne (M1 & M2 & M3 & M4) Hx. assert (Hn : 1 <= inject_Z (Z.of_nat (length xs))).
  { change 1 with (inject_Z 1). rewrite <-Zle_Qle. destruct xs; [done|]. cbn [length]. lia. }
  split; split; (eapply mean_bounds; [exact Hn|eassumption|]); apply total_bounds; intros x Hi; destruct (Hx x Hi) as [[? ?] [? ?]]; done.
Qed.
Lemma rounded_image p : image_point p -> image_point (rounded p).
Proof.
  assert (H : forall x, 0 <= x <= 65535 -> 0 <= inject_Z (Qfloor x) <= 65535).
  { intros x [H0 H1]. split.
    - change 0 with (inject_Z 0). rewrite <-Zle_Qle. change 0%Z with (Qfloor 0). by apply Qfloor_resp_le.
    - change 65535 with (inject_Z 65535). rewrite <-Zle_Qle. change 65535%Z with (Qfloor (inject_Z 65535)). by apply Qfloor_resp_le. }
  intros [? ?]. split; by apply H.
Qed.
Lemma sample_image a b n j : image_point a -> image_point b -> (1 <= j <= n)%nat -> image_point (sample a b n j).
Proof.
  intros [A1 A2] [B1 B2] Hj. unfold sample. set (w := inject_Z (Z.of_nat j) / inject_Z (Z.of_nat n)).
  assert (Hn : 0 < inject_Z (Z.of_nat n)) by (change 0 with (inject_Z 0); rewrite <-Zlt_Qlt; lia).
  assert (Hw : 0 <= w <= 1).
  { unfold w. split; [apply Qle_shift_div_l|apply Qle_shift_div_r]; try done.
    - setoid_replace (0 * inject_Z (Z.of_nat n)) with (inject_Z 0) by (cbn; ring). rewrite <-Zle_Qle. lia.
    - rewrite Qmult_1_l, <-Zle_Qle. lia. }
  clearbody w. split; cbn [fst snd]; nra.
Qed.

Lemma at_indices_total {A} (l : list A) is : (forall i, i ∈ is -> (i < length l)%nat) -> exists r, at_indices l is = Ok r.
Proof.
  induction is as [|i is IH]; intros H; cbn [at_indices]; [by eexists|]. destruct (lookup_lt_is_Some_2 l i) as [x ->]; [apply H; by left|].
  destruct IH as [r ->]; [intros j Hj; apply H; by right|]. cbn. by eexists.
Qed.
Lemma all_nearest_total cs nns : (forall nn, nn ∈ nns -> length nn = 2%nat /\ forall x, x ∈ nn -> (x.2 < length cs)%nat) -> exists r, all_nearest cs nns = Ok r.
Proof.
  induction nns as [|nn nns IH]; intros H; cbn [all_nearest]; [by eexists|]. destruct (H nn ltac:(by left)) as [Hl Hx].
  destruct nn as [|a [|b [|]]]; try discriminate Hl. unfold two_nearest. cbn [lookup list_lookup or_ub mbind outcome_bind].
  destruct (lookup_lt_is_Some_2 cs a.2) as [i ->]; [apply Hx; by left|]. destruct (lookup_lt_is_Some_2 cs b.2) as [j ->]; [apply Hx; right; by left|].
  cbn [or_ub mbind outcome_bind]. destruct IH as [r ->]; [intros nn Hn; apply H; by right|]. cbn. by eexists.
Qed.
Lemma ratio_test_total ratio fs nns : length nns = length fs -> exists r, ratio_test ratio fs nns = Ok r.
Proof.
  revert fs. induction nns as [|[a b] nns IH]; intros [|f fs] Hl; try discriminate Hl; cbn [ratio_test head tail or_ub mbind outcome_bind]; [by eexists|].
  destruct (IH fs) as [r ->]; [by injection Hl|]. cbn. by eexists.
Qed.

Section total.
Context {D : Type} (dist : D -> D -> Q).
Context (line_of : pixel -> Q * Q * Q) (knn : list D -> list D -> list (list (Q * nat))) (draw : nat -> nat) (o : order nat).
Context (d ratio : Q) (ks1 ks2 : list pixel) (ds1 ds2 : list D).
Hypothesis Hknn : knn_contract dist knn.

(** C118: guided matching is defined if the keypoints of the second image are in an image of at most 65535 pixels, one of them
    has no match, the distance is between 1 and 2^20, there are as many descriptors as keypoints, and the random numbers
    are not all the same. *)
Theorem guided_defined_partial ms : 1 <= d <= 1048576 -> Forall image_point ks2 -> length ds1 = length ks1 -> length ds2 = length ks2 ->
  (exists i k, ks2 !! i = Some k /\ ~ matched2 ms i) -> draws_below draw (length ks2) -> varied draw ->
  exists ms', get_matches line_of knn draw o d ratio ks1 ks2 ds1 ds2 ms = Ok ms'.
Proof.
  intros Hd Him L1 L2 (i0 & k0 & E0 & N0) Hdraw Hvar. unfold get_matches. cbv zeta.
  assert (Hi : exists gs bb, initialize d ks2 (list_to_set ((fun m => m.1.2) <$> ms)) = Ok (gs, bb)).
  { unfold initialize.
    match goal with |- context [add_keypoints ?m 0 ks2 ?g []] => destruct (add_keypoints_total d m 0 ks2 g [] ltac:(lra) ltac:(repeat constructor) Him) as (gs & xs & E);
      destruct (add_keypoints_Ok _ _ _ _ _ _ _ (fun _ _ => False) E) as (_ & _ & X) end.
    { repeat constructor; intros H; cbn in *; rewrite ?lookup_empty in *; try (by apply elem_of_nil in H); destruct H as (? & [] & _). }
    rewrite E. cbn [mbind outcome_bind].
    assert (Hx : k0 ∈ xs). { apply X. right. exists i0. split; [done|]. cbn. intros Hm. apply N0. apply elem_of_list_to_set, elem_of_list_fmap in Hm as (m & -> & Hm). by exists m. }
    destruct xs as [|x xs]; [by apply elem_of_nil in Hx|]. cbn [fmap list_fmap minmax mbind outcome_bind]. by eexists _, _. }
  destruct Hi as (gs & bb & Ei). rewrite Ei. cbn [mbind outcome_bind]. destruct (init_facts d ks2 ms gs bb Ei) as (Sh & C & Hb). destruct (box_ok _ _ Hb) as [B1 B2].
  assert (Hsz : sized d gs /\ gs <> []).
  { unfold sized. destruct gs as [|g0 [|g1 [|g2 [|g3 [|]]]]]; try discriminate Sh. unfold shape, grid_shapes in Sh. cbn in Sh. split; [|done].
    repeat constructor; congruence. }
  destruct Hsz as [Hsz Hgs].
  assert (Hg : exists groups, group_lines line_of d ks1 (list_to_set ((fun m => m.1.1) <$> ms)) bb = Ok groups).
  { unfold group_lines. assert (He : forall m i ks, exists es, encoded_lines line_of m bb i ks = Ok es).
    { intros m i ks. revert i. induction ks as [|k ks IH]; intros i; cbn [encoded_lines]; [by eexists|]. destruct (decide (i ∈ m)); [apply IH|].
      destruct (line_endpoints bb (line_of k)) as [|a [|b [|]]] eqn:El; try apply IH.
      assert (Ha : image_point a /\ image_point b).
      { destruct (line_endpoints_border bb (line_of k) a B1 B2) as [_ [Ba _]]; [rewrite El; by left|].
        destruct (line_endpoints_border bb (line_of k) b B1 B2) as [_ [Bb _]]; [rewrite El; right; by left|].
        split; (eapply box_image; [exact Hb|by apply free_image|done]). }
      destruct Ha as [Ha1 Ha2]. rewrite (encode_ok a b Ha1 Ha2). cbn [mbind outcome_bind]. destruct (IH (S i)) as [es ->]. cbn. by eexists. }
    match goal with |- context [encoded_lines line_of ?m bb 0 ks1] => destruct (He m 0%nat ks1) as [es ->] end. cbn. by eexists. }
  destruct Hg as (groups & Eg). rewrite Eg. cbn [mbind outcome_bind].
  destruct (group_lines_Ok line_of d ks1 ks2 ms bb groups Hb Him Eg) as (G1 & _ & G3 & _).
  assert (Hrun : forall st, exists st', run_steps (match_group knn draw o d ratio ds1 ds2 gs) st groups = Ok st'); [|destruct (Hrun (ms, 0%nat)) as [st ->]; cbn; by eexists].
  assert (Hall : forall g, g ∈ groups -> forall st, exists st', match_group knn draw o d ratio ds1 ds2 gs st g = Ok st').
  { intros g Hg st. rewrite Forall_forall in G1. destruct (G1 g Hg) as (xs & Fx & Hne & Hmean & _).
    assert (Hends : image_point (eg_endpoints g).1 /\ image_point (eg_endpoints g).2).
    { eapply mean_image; [exact Hne|exact Hmean|]. intros x Hx. apply elem_of_list_lookup in Hx as (i & Hx).
      destruct (Forall2_lookup_r _ _ _ _ _ Fx Hx) as (f & _ & k & a & b & _ & _ & [Ba _] & _ & [Bb _] & ->). cbn [fst snd].
      split; apply rounded_image; (eapply box_image; [exact Hb|by apply free_image|done]). }
    assert (Hcand : exists cs t, candidates draw o d gs g st.2 = Ok (cs, t)).
    { unfold candidates. destruct (eg_endpoints g) as [e0 e1]. cbn [fst snd] in Hends. destruct Hends as [I0 I1].
      destruct (num_steps_total d e0 e1 ltac:(lra) I0 I1) as [n ->]. cbn [mbind outcome_bind]. cbv zeta.
      match goal with |- context [walk gs ?dl e1 n ∅] => destruct (walk_total d gs dl e1 n ∅ ltac:(lra) Hsz Hgs) as [f ->] end; [|cbn; by eexists _, _].
      intros j q Hj Q1 Q2. cbn [fst snd] in Q1, Q2. assert (Hs := sample_image e0 e1 n j I0 I1 Hj).
      assert (Hn : 0 < inject_Z (Z.of_nat n)) by (change 0 with (inject_Z 0); rewrite <-Zlt_Qlt; lia).
      assert (F1 : q.1 == (sample e0 e1 n j).1) by (rewrite Q1; unfold sample; cbn [fst snd]; field; lra).
      assert (F2 : q.2 == (sample e0 e1 n j).2) by (rewrite Q2; unfold sample; cbn [fst snd]; field; lra).
      unfold image_point. rewrite F1, F2. exact Hs. }
    destruct Hcand as (cs & t & Ecs). unfold match_group. rewrite Ecs. cbn [mbind outcome_bind].
    assert (Hse := candidates_Ok draw o d _ _ _ _ _ _ ltac:(lra) Sh C Ecs).
    destruct Hse as (n & t0 & found & _ & _ & Nf & Nc & Hfree & Hor & _).
    assert (Hcs : forall i, i ∈ cs -> (i < length ds2)%nat).
    { intros i [Hf|(r & _ & ->)]%Hor; [|rewrite L2; apply Hdraw]. destruct (Hfree i Hf) as (k & Ek & _). apply lookup_lt_Some in Ek. lia. }
    assert (Hfs : forall f, f ∈ eg_features g -> (f < length ds1)%nat).
    { intros f Hf. destruct (G3 f) as (k & Ek & _); [apply elem_of_concat; exists (eg_features g); split; [done|by apply elem_of_list_fmap_1]|].
      apply lookup_lt_Some in Ek. lia. }
    assert (Hlen : (2 <= length cs)%nat).
    { assert (Htwo : exists a b, a ∈ cs /\ b ∈ cs /\ a <> b).
      { destruct found as [|f0 [|f1 found]].
        - destruct (Hvar t0) as (i & j & Hi & Hj & Hn). exists (draw (t0 + i)%nat), (draw (t0 + j)%nat). rewrite !Hor. cbn [length].
          split; [right; eexists; split; [|reflexivity]; lia|]. split; [right; eexists; split; [|reflexivity]; lia|done].
        - destruct (Hvar t0) as (i & j & Hi & Hj & Hn). exists (draw (t0 + i)%nat), (draw (t0 + j)%nat). rewrite !Hor. cbn [length].
          split; [right; eexists; split; [|reflexivity]; lia|]. split; [right; eexists; split; [|reflexivity]; lia|done].
        - exists f0, f1. rewrite !Hor. split; [left; by left|]. split; [left; right; by left|]. apply NoDup_cons in Nf as [Nf _]. intros ->. apply Nf. by left. }
      destruct Htwo as (a & b & Ha & Hb' & Hne'). destruct cs as [|c0 [|c1 cs]]; [by apply elem_of_nil in Ha| |cbn; lia].
      apply elem_of_list_singleton in Ha, Hb'. congruence. }
    unfold nearest_neighbors. destruct (at_indices_total ds1 (eg_features g) Hfs) as [q Eq]. destruct (at_indices_total ds2 cs Hcs) as [c Ec].
    rewrite Eq, Ec. cbn [mbind outcome_bind]. apply at_indices_Ok in Eq, Ec. assert (Hlc := Forall2_length _ _ _ Ec). assert (Hlq := Forall2_length _ _ _ Eq).
    destruct (Hknn q c) as [Hkl Hk].
    destruct (all_nearest_total cs (knn q c)) as [r Er].
    { intros nn Hnn. apply elem_of_list_lookup in Hnn as (i & Hi). destruct (lookup_lt_is_Some_2 q i) as [x Hx]; [apply lookup_lt_Some in Hi; lia|].
      destruct (Hk i x nn Hx Hi) as (Hl & _ & Hin & _). split; [lia|]. intros y Hy. destruct (Hin y Hy) as (c' & Ec' & _). apply lookup_lt_Some in Ec'. lia. }
    rewrite Er. cbn [mbind outcome_bind]. apply all_nearest_Ok in Er. assert (Hlr := Forall2_length _ _ _ Er).
    destruct (ratio_test_total ratio (eg_features g) r ltac:(lia)) as [added ->]. cbn. by eexists. }
  clear - Hall. induction groups as [|g groups IH]; intros st; cbn [run_steps]; [by eexists|].
  destruct (Hall g ltac:(by left) st) as [st1 ->]. cbn [mbind outcome_bind]. apply IH. intros g' Hg'. apply Hall. by right.
Qed.
End total.

(** ** A search for nearest neighbors that meets the contract *)
Definition nn_le (a b : Q * nat) : Prop := a.1 <= b.1.
Global Instance nn_le_dec : RelDecision nn_le.
Proof. intros a b. unfold nn_le. destruct (Qlt_le_dec b.1 a.1) as [H|H]; [right; lra|by left]. Defined.
Global Instance nn_le_total : Total nn_le.
Proof. intros a b. unfold nn_le. destruct (Qlt_le_dec b.1 a.1); [right; lra|by left]. Qed.
Global Instance nn_le_trans : Transitive nn_le.
Proof. intros a b c. unfold nn_le. lra. Qed.
Definition exhaustive {D} (dist : D -> D -> Q) (qs cs : list D) : list (list (Q * nat)) :=
  (fun q => take 2 (merge_sort nn_le (imap (fun j c => (dist q c, j)) cs))) <$> qs.

Lemma exhaustive_contract {D} (dist : D -> D -> Q) : knn_contract dist (exhaustive dist).
Proof.
  intros qs cs. unfold exhaustive. split; [apply fmap_length|]. intros i q nn Hq Hnn. rewrite list_lookup_fmap, Hq in Hnn. injection Hnn as <-.
  set (l := imap (fun j c => (dist q c, j)) cs). set (s := merge_sort nn_le l).
  assert (Hp : s ≡ₚ l) by apply merge_sort_Permutation. assert (Hs : StronglySorted nn_le s) by (apply StronglySorted_merge_sort; apply _).
  assert (Hl : forall x, x ∈ s <-> exists c, cs !! x.2 = Some c /\ x.1 = dist q c).
  { intros [v j]. rewrite Hp. unfold l. rewrite elem_of_lookup_imap. cbn [fst snd]. split; [intros (j' & c & [= -> ->] & E); by exists c|intros (c & E & ->); by exists j, c]. }
  assert (Hnd : NoDup s.*2). { rewrite Hp. unfold l. rewrite fmap_imap. unfold compose. cbn.
    assert (E : imap (fun (n : nat) (_ : D) => n) cs = seq 0 (length cs)).
    { apply list_eq. intros k. rewrite list_lookup_imap. destruct (cs !! k) as [c|] eqn:E; cbn.
      - apply lookup_lt_Some in E. rewrite lookup_seq_lt by done. done.
      - apply lookup_ge_None in E. symmetry. apply lookup_seq_ge. done. }
    rewrite E. apply NoDup_seq. }
  assert (Hsplit := take_drop 2 s). rewrite <-Hsplit in Hs, Hnd. 
  split; [rewrite take_length, Hp; unfold l; rewrite imap_length; done|].
  rewrite fmap_app in Hnd. apply NoDup_app in Hnd as (Hnd1 & _ & _). split; [done|].
  assert (Htk : forall x, x ∈ take 2 s -> x ∈ s) by (intros x Hx; rewrite <-Hsplit; apply elem_of_app; by left).
  split; [|split].
  - intros x Hx. apply Htk, Hl in Hx as (c & E & ->). by exists c.
  - intros a b Ha Hb. destruct s as [|s0 [|s1 s']]; try discriminate Ha; try discriminate Hb. cbn in Ha, Hb. injection Ha as <-. injection Hb as <-.
    cbn in Hs. apply StronglySorted_inv in Hs as [_ Hs]. apply Forall_cons in Hs as [Hs _]. done.
  - intros x j c Hx Hj Hn. assert (Hin : (dist q c, j) ∈ s) by (apply Hl; by exists c).
    rewrite <-Hsplit in Hin. apply elem_of_app in Hin as [Hin|Hin].
    + exfalso. apply Hn, elem_of_list_fmap. by exists (dist q c, j).
    + change (nn_le x (dist q c, j)). clear - Hs Hx Hin. induction (take 2 s) as [|y ys IH]; [by apply elem_of_nil in Hx|].
      cbn [app] in Hs. apply StronglySorted_inv in Hs as [Hs Hy]. apply elem_of_cons in Hx as [->|Hx]; [|by apply IH].
      rewrite Forall_forall in Hy. apply Hy, elem_of_app. by right.
Qed.

Definition sq_diff (a b : Q) : Q := (a - b) * (a - b).
Notation matcher line draw := (get_matches line (exhaustive sq_diff) draw ord_id).

(** The ratio 4/5 and horizontal lines. *)
Definition level (p : pixel) : Q * Q * Q := (0, 1, - p.2).
Definition alternating (i : nat) : nat := (i mod 2)%nat.

(** The hypotheses of the theorems hold of a run that adds a match: the feature (7, 5) of the first image has the same
    descriptor as the feature (5, 5) of the second one, on its line. *)
Example guided_sample :
  let ks2 := [(0, 0); (11, 10); (5, 5)] in
  (1 <= 2 <= 1048576) /\ Forall image_point ks2 /\ draws_below alternating (length ks2) /\ varied alternating /\
  matcher level alternating 2 (4 # 5) [(7, 5)] ks2 [0] [10; 100; 0] [] = Ok [(0%nat, 2%nat, 0)].
Proof.
  cbv zeta. split; [lra|]. split; [repeat constructor; unfold image_point; cbn [fst snd]; lra|].
  assert (Hm : forall i, (i mod 2 < 2)%nat) by (intros i; apply Nat.mod_upper_bound; lia).
  split; [intros i; cbn [length]; unfold alternating; specialize (Hm i); lia|]. split; [|vm_compute; done].
  intros t. exists 0%nat, 1%nat. split; [lia|]. split; [lia|]. unfold alternating. rewrite Nat.add_0_r, Nat.add_1_r.
  assert (A := Nat.div_mod t 2 ltac:(lia)). assert (B := Nat.div_mod (S t) 2 ltac:(lia)). assert (X := Hm t). assert (Y := Hm (S t)). lia.
Qed.

(** C117: the feature of the second image may have had a match, and several features of the first image may get the same one.
    Here feature 0 of the second image has a match, and features 1 and 2 of the first image both get it. *)
Theorem guided_features_refuted : exists (ks1 ks2 : list pixel) (ds1 ds2 : list Q) ms added,
  matcher level alternating 2 (4 # 5) ks1 ks2 ds1 ds2 ms = Ok (ms ++ added) /\ matched2 ms 0 /\
  (1%nat, 0%nat, 1) ∈ added /\ (2%nat, 0%nat, 1) ∈ added.
Proof.
  exists [(1, 1); (7, 5); (8, 5)], [(0, 0); (11, 10); (1, 2)], [0; 11; 9], [10; 100; 50], [(0%nat, 0%nat, 0)], [(1%nat, 0%nat, 1); (2%nat, 0%nat, 1)].
  split; [vm_compute; reflexivity|]. split; [eexists; split; [by left|done]|]. split; [by left|right; by left].
Qed.

(** C118: without an unmatched feature in the second image, or with only one feature, guided matching is undefined. *)
Theorem guided_defined_refuted :
  matcher level alternating 2 (4 # 5) [(7, 5)] [(3, 4)] [0] [0] [(0%nat, 0%nat, 0)] = UB /\
  matcher level (fun _ => 0%nat) 2 (4 # 5) [(7, 5)] [(3, 5)] [0] [0] [] = UB.
Proof. split; vm_compute; reflexivity. Qed.

(** C119: the features near an epipolar line.  Features of the second image closer than half the distance (in both coordinates) to
    a sample point of the mean segment of the group are candidates; the other candidates are at most 3/2 of the distance
    away from a sample point, or random. *)
Theorem guided_search_partial {D} (dist : D -> D -> Q) line_of knn draw o (z : Z) ratio ks1 ks2 ds1 ds2 ms ms' :
  knn_contract dist knn -> (0 < z)%Z -> Forall image_point ks2 ->
  get_matches line_of knn draw o (inject_Z z) ratio ks1 ks2 ds1 ds2 ms = Ok ms' ->
  exists added, ms' = ms ++ added /\ forall m, m ∈ added -> exists fs e cs n found,
    m.1.1 ∈ fs /\ passes dist ratio ds1 ds2 cs m /\
    (exists bb, bounds (fun k => exists i, free2 ks2 ms i k) bb /\ grouped line_of (inject_Z z) ks1 bb fs e) /\
    inject_Z (Z.of_nat n) * inject_Z (Z.of_nat n) * (inject_Z z * inject_Z z) <= sq_length e /\
    sq_length e < (inject_Z (Z.of_nat n) + 1) * (inject_Z (Z.of_nat n) + 1) * (inject_Z z * inject_Z z) /\
    (forall i, i ∈ found -> i ∈ cs) /\ (forall i, i ∈ cs -> i ∈ found \/ (exists r, i = draw r) /\ (length found < 50)%nat) /\
    (forall i k j, free2 ks2 ms i k -> (1 <= j <= n)%nat -> closer (inject_Z z / 2) k (sample e.1 e.2 n j) -> i ∈ found) /\
    (forall i, i ∈ found -> exists k j, free2 ks2 ms i k /\ (1 <= j <= n)%nat /\ close (3 * inject_Z z / 2) k (sample e.1 e.2 n j)).
Proof.
  intros Hk Hz Him H. assert (Hd : 0 < inject_Z z) by (change 0 with (inject_Z 0); by rewrite <-Zlt_Qlt).
  destruct (guided_result dist _ _ _ _ _ _ _ _ _ _ Hk ms ms' Hd Him H) as (bb & gl & added & -> & Hb & _ & _ & _ & Hgl & _ & Hadd & _).
  exists added. split; [done|]. intros m Hm. destruct (Hadd m Hm) as (fs & e & cs & Hin & Hf & Hp).
  destruct (Hgl _ _ _ Hin) as [Hg (n & t & found & N1 & N2 & _ & _ & _ & Hor & Hnear)]. destruct (Hnear z Hz eq_refl) as [X Y].
  exists fs, e, cs, n, found. split; [done|]. split; [done|]. split; [by exists bb|]. split; [done|]. split; [done|].
  split; [intros i Hi; apply Hor; by left|]. split; [|by split].
  intros i [?|(r & Hr & ->)]%Hor; [by left|right]. split; [by exists r|lia].
Qed.

(** A feature on the epipolar line need not be considered, although the distance is 2: the feature (11, 5) of the second
    image, on the line of the feature (7, 5) and with the same descriptor, is missed, and a random one matched instead. *)
Theorem guided_search_refuted : exists (ks1 ks2 : list pixel) (ds1 ds2 : list Q),
  ks1 !! 0%nat = Some (7, 5) /\ ds1 !! 0%nat = Some 0 /\ ks2 !! 2%nat = Some (11, 5) /\ ds2 !! 2%nat = Some 0 /\ on_line (level (7, 5)) (11, 5) /\
  matcher level alternating 2 (4 # 5) ks1 ks2 ds1 ds2 [] = Ok [(0%nat, 0%nat, 100)].
Proof.
  exists [(7, 5)], [(0, 0); (11, 10); (11, 5)], [0], [10; 100; 0]. do 5 (split; [reflexivity|]). vm_compute. reflexivity.
Qed.

(** C120: the segments of the epipolar lines.  The points found are on the line and on the border of the box; a line that avoids
    the corners of the box has two if it meets the box and none otherwise. *)
Theorem line_segments_partial bb l : in_box bb bb.1 -> in_box bb bb.2 ->
  (forall p, p ∈ line_endpoints bb l -> on_line l p /\ on_border bb p) /\
  ((forall p, corner bb p -> ~ on_line l p) ->
   (meets bb l -> length (line_endpoints bb l) = 2%nat) /\ (~ meets bb l -> line_endpoints bb l = [])).
Proof.
  intros H1 H2. split; [intros p; by apply line_endpoints_border|]. intros Hc.
  assert (M := meets_crosses bb l H1 H2 Hc). split; [apply M|]. intros Hn.
  destruct (line_endpoints_count bb l H1 H2 Hc) as [E|E]; [by apply nil_length_inv|]. by apply M in E.
Qed.
(** A line through two corners, the diagonal of the box, is ignored: the feature gets no match, though the middle of the
    diagonal has a feature with its descriptor. *)
Theorem line_segments_refuted :
  length (line_endpoints ((0, 0), (10, 10)) (1, - (1), 0)) = 4%nat /\
  (let ks2 := [(0, 0); (10, 10); (5, 5)] in
   matcher (fun _ => (1, - (1), 0)) alternating 2 (4 # 5) [(7, 5)] ks2 [0] [10; 100; 0] [] = Ok [] /\
   matcher (fun _ => (1, - (1), 1)) alternating 2 (4 # 5) [(7, 5)] ks2 [0] [10; 100; 0] [] = Ok [(0%nat, 2%nat, 0)]).
Proof. split; [|split]; vm_compute; reflexivity. Qed.

(** The 64-bit numbers of segments: decoding gives back the points, rounded down, and the order of the numbers is the
    lexicographic order of the points. *)
Theorem segment_number a b : image_point a -> image_point b ->
  exists c, encode (a, b) = Ok c /\ (0 <= c < 2 ^ 64)%Z /\ decode c = (rounded a, rounded b).
Proof.
  intros Ha Hb. eexists. split; [by apply encode_ok|]. split; [|apply decode_encode with (a := a) (b := b); [done|done|by apply encode_ok]].
  destruct Ha as [A1 A2], Hb as [B1 B2]. assert (X1 := floor_u16 _ A1). assert (X2 := floor_u16 _ A2). assert (X3 := floor_u16 _ B1). assert (X4 := floor_u16 _ B2).
  unfold u16, number in *. lia.
Qed.
Theorem segment_order a b a' b' c c' : image_point a -> image_point b -> image_point a' -> image_point b' ->
  encode (a, b) = Ok c -> encode (a', b') = Ok c' ->
  (c < c')%Z <-> lex_lt (coordinates (rounded a, rounded b)) (coordinates (rounded a', rounded b')).
Proof.
  intros Ha Hb Ha' Hb'. rewrite !encode_ok by done. intros [= <-] [= <-]. destruct Ha as [A1 A2], Hb as [B1 B2], Ha' as [A3 A4], Hb' as [B3 B4].
  assert (X1 := floor_u16 _ A1). assert (X2 := floor_u16 _ A2). assert (X3 := floor_u16 _ B1). assert (X4 := floor_u16 _ B2).
  assert (Y1 := floor_u16 _ A3). assert (Y2 := floor_u16 _ A4). assert (Y3 := floor_u16 _ B3). assert (Y4 := floor_u16 _ B4).
  unfold coordinates, rounded, lex_lt. cbn [fst snd]. rewrite <-!Zlt_Qlt, !inject_Z_injective. unfold number, u16 in *.
  generalize dependent (Qfloor a.1). generalize dependent (Qfloor a.2). generalize dependent (Qfloor b.1). generalize dependent (Qfloor b.2).
  generalize dependent (Qfloor a'.1). generalize dependent (Qfloor a'.2). generalize dependent (Qfloor b'.1). generalize dependent (Qfloor b'.2).
  clear. intros. lia.
Qed.
Example segment_sample : let a := (3 # 2, 4) in let b := (65535, 7 # 3) in
  image_point a /\ image_point b /\ exists c, encode (a, b) = Ok c /\ decode c = ((1, 4), (65535, 2)).
Proof. cbv zeta. split; [unfold image_point; cbn; lra|]. split; [unfold image_point; cbn; lra|]. eexists. split; [vm_compute; reflexivity|]. vm_compute. reflexivity. Qed.
Example line_segments_sample : let bb := ((0, 0), (10, 20)) in let l := (1, 1, - (5)) in
  in_box bb bb.1 /\ in_box bb bb.2 /\ (forall p, corner bb p -> ~ on_line l p) /\ meets bb l /\ length (line_endpoints bb l) = 2%nat.
Proof.
  cbv zeta. split; [unfold in_box; cbn; lra|]. split; [unfold in_box; cbn; lra|]. split.
  - intros [x y]. unfold corner, on_line. cbn [fst snd]. intros [[?|?] [?|?]]; lra.
  - split; [|vm_compute; reflexivity]. exists (2, 3). split; [unfold in_box; cbn; lra|reflexivity].
Qed.
Print Assumptions guided_defined_partial.
Print Assumptions guided_features_refuted.
Print Assumptions guided_defined_refuted.
Print Assumptions guided_search_partial.
Print Assumptions guided_search_refuted.
Print Assumptions line_segments_partial.
Print Assumptions line_segments_refuted.
Print Assumptions segment_number.
Print Assumptions segment_order.
