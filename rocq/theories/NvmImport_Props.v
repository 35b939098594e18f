(** C164: importing NVM files. *)
From stdpp Require Import gmap strings.
From Verif Require Import Base Reconstruction_Model Reconstruction_Spec Reconstruction_Proofs NvmImport_Model NvmImport_Spec.

Section props.
Context {F C D : Type} (c0 : C) (d0 : D).
Notation recon := (recon F C D).
Implicit Types (r : recon) (a : arecon F C D).

Lemma import_view_step o r a n c r1 : rel r a -> wf a -> (a_next_view a + 1 < 2 ^ 32)%N -> import_view c0 o r (n, c) = Ok r1 ->
  exists a1 g p, rel r1 a1 /\ wf a1 /\ a_views a1 = <[a_next_view a := AView n g true p c]> (a_views a) /\ a_obs a1 = a_obs a /\ a_tracks a1 = a_tracks a /\
    a_next_view a1 = (a_next_view a + 1)%N /\ a_next_track a1 = a_next_track a.
Proof.
  intros R W Hb. unfold import_view, rc_add_view. cbn [fst snd]. destruct (add_view_group_refines c0 o r a n (rc_next_group r) R W Hb) as (r' & -> & R' & W'). rewrite (rel_next_group r a R) in *.
  cbn [mbind outcome_bind]. set (sa := spec_add_view c0 a n (a_next_group a)) in *.
  set (r2 := Recon _ _ _ _ _ _ _ _ _). assert (R2 : rel r2 (bump_group sa.1)) by (destruct R'; split; cbn; try done; congruence). assert (W2 : wf (bump_group sa.1)) by (destruct W'; by split).
  destruct (bool_decide (sa.2 = kInvalidId)) eqn:Eb; [done|]. cbn [negb check mbind outcome_bind]. intros [= <-]. apply bool_decide_eq_false in Eb.
  destruct (set_view_refines r2 (bump_group sa.1) sa.2 true c R2 W2) as [R3 W3]. exists (spec_set_view (bump_group sa.1) sa.2 true c).
  revert Eb R3 W3. clear. unfold sa, spec_add_view. destruct (decide _); [by cbn|]. cbn [fst snd]. intros _ R3 W3. eexists _, _. split; [exact R3|]. split; [exact W3|]. cbn. rewrite alter_insert. cbn. done.
Qed.

Definition good_views (cameras : list (string * C)) a : Prop :=
  (forall u av, a_views a !! u = Some av -> exists i, u = N.of_nat i /\ cameras !! i = Some (a_name av, a_vdata av) /\ a_vest av = true) /\
  (forall i, (i < length cameras)%nat -> is_Some (a_views a !! N.of_nat i)).
Lemma import_views_ok o cams : forall pre r a r1, rel r a -> wf a -> good_views pre a -> a_obs a = ∅ -> a_tracks a = ∅ -> a_next_view a = N.of_nat (length pre) -> a_next_track a = 0%N ->
  (N.of_nat (length (pre ++ cams)) + 1 < 2 ^ 32)%N -> run_steps (import_view c0 o) r cams = Ok r1 ->
  exists a1, rel r1 a1 /\ wf a1 /\ good_views (pre ++ cams) a1 /\ a_obs a1 = ∅ /\ a_tracks a1 = ∅ /\ a_next_track a1 = 0%N.
Proof.
  induction cams as [|[n c] cams IH]; intros pre r a r1 R W [G1 G2] Ho Ht Hnv Hnt Hb Hr; cbn [run_steps] in Hr. { injection Hr as <-. exists a. rewrite app_nil_r. done. }
  destruct (import_view c0 o r (n, c)) as [r2| | |] eqn:E; cbn [mbind outcome_bind] in Hr; [|done..]. rewrite app_length in Hb. cbn [length] in Hb.
  destruct (import_view_step o r a n c r2 R W ltac:(rewrite Hnv; lia) E) as (a2 & g & p & R2 & W2 & Hv & Ho2 & Ht2 & Hnv2 & Hnt2).
  replace (pre ++ (n, c) :: cams) with ((pre ++ [(n, c)]) ++ cams) by (by rewrite <- app_assoc). apply (IH (pre ++ [(n, c)]) r2 a2 r1); try done; try congruence.
  - rewrite Hnv in Hv. split.
    + intros u av. rewrite Hv. intros [[<- <-]|[Hne Hu]]%lookup_insert_Some.
      * exists (length pre). split; [done|]. split; [|done]. cbn. by rewrite list_lookup_middle.
      * destruct (G1 u av Hu) as (i & -> & Hi & He). exists i. split; [done|]. split; [|done]. by apply lookup_app_l_Some.
    + intros i Hi. rewrite Hv. rewrite app_length in Hi. cbn in Hi. destruct (decide (i = length pre)) as [->|Hne]; [rewrite lookup_insert; eauto|]. rewrite lookup_insert_ne by lia. apply G2. lia.
  - rewrite Hnv2, Hnv, app_length. cbn. lia.
  - rewrite app_length, app_length. cbn. lia.
Qed.

Lemma in_measured (meas : list (F * nat * nat)) j u f : (u, f) ∈ measured meas j <-> exists i, u = N.of_nat i /\ (f, j, i) ∈ meas.
Proof.
  unfold measured. rewrite elem_of_list_fmap. split.
  - intros ([[f' j'] i] & Eq & Hm). cbn [fst snd] in Eq. injection Eq as -> ->. apply elem_of_list_filter in Hm as [Hj Hm]. cbn in Hj. subst j'. by exists i.
  - intros (i & -> & Hm). exists (f, j, i). split; [done|]. by apply elem_of_list_filter.
Qed.
Definition good_tracks (meas : list (F * nat * nat)) (points : list D) a : Prop :=
  (forall t aT, a_tracks a !! t = Some aT -> exists j, t = N.of_nat j /\ points !! j = Some (a_tdata aT) /\ a_test aT = true) /\
  (forall j, (j < length points)%nat -> is_Some (a_tracks a !! N.of_nat j)) /\
  (forall u t f, a_obs a !! (u, t) = Some f <-> exists j, t = N.of_nat j /\ (j < length points)%nat /\ (u, f) ∈ measured meas j).
Lemma import_points_ok meas cameras pts : forall pre r a r1 k, rel r a -> wf a -> good_views cameras a -> good_tracks meas pre a -> a_next_track a = N.of_nat (length pre) ->
  (N.of_nat (length (pre ++ pts)) + 1 < 2 ^ 32)%N -> run_steps (import_point d0 meas) (r, length pre) pts = Ok (r1, k) ->
  exists a1, rel r1 a1 /\ wf a1 /\ good_views cameras a1 /\ good_tracks meas (pre ++ pts) a1.
Proof.
  induction pts as [|d pts IH]; intros pre r a r1 k R W GV (G1 & G2 & G3) Hnt Hb Hr; cbn [run_steps] in Hr. { injection Hr as <- _. exists a. rewrite app_nil_r. done. }
  rewrite app_length in Hb. cbn [length] in Hb. destruct (import_point d0 meas (r, length pre) d) as [[r2 k2]| | |] eqn:E; cbn [mbind outcome_bind] in Hr; [|done..].
  unfold import_point in E. destruct (negb _) in E; cbn [check mbind outcome_bind] in E; [|done]. pose proof (add_track_refines d0 r a (measured meas (length pre)) R W ltac:(rewrite Hnt; lia)) as HT.
  destruct (rc_add_track d0 r (measured meas (length pre))) as [[r3 id]| | |]; cbn [mbind outcome_bind] in E; [|done..].
  destruct (spec_add_track d0 a (measured meas (length pre))) as [[a3 id']| | |] eqn:Es; [|done..]. destruct HT as (<- & R3 & W3).
  destruct (bool_decide (id = kInvalidId)) eqn:Eb; cbn [negb check mbind outcome_bind] in E; [done|]. injection E as <- <-. apply bool_decide_eq_false in Eb.
  destruct (set_track_refines r3 a3 id true d R3 W3) as [R4 W4]. unfold spec_add_track in Es. destruct (decide _) as [|Hnot]; [by injection Es as _ <-|]. destruct (decide _) as [Hall0|]; [|done]. injection Es as <- <-.
  assert (Hnd : NoDup (measured meas (length pre)).*1) by (destruct (decide (NoDup (measured meas (length pre)).*1)); [done|]; exfalso; apply Hnot; by right).
  replace (pre ++ d :: pts) with ((pre ++ [d]) ++ pts) by (by rewrite <- app_assoc).
  eapply (IH (pre ++ [d])); [exact R4|exact W4|exact GV| | |rewrite app_length, app_length; cbn; lia|].
  - rewrite Hnt. split; [|split].
    + intros t aT. cbn [spec_set_track a_tracks]. rewrite alter_insert. intros [[<- <-]|[Hne Hu]]%lookup_insert_Some.
      * exists (length pre). split; [done|]. split; [|done]. cbn. by rewrite list_lookup_middle.
      * destruct (G1 t aT Hu) as (i & -> & Hi & He). exists i. split; [done|]. split; [|done]. by apply lookup_app_l_Some.
    + intros i Hi. cbn [spec_set_track a_tracks]. rewrite alter_insert. rewrite app_length in Hi. cbn in Hi. destruct (decide (i = length pre)) as [->|Hne]; [rewrite lookup_insert; eauto|]. rewrite lookup_insert_ne by lia. apply G2. lia.
    + intros u t f. cbn [spec_set_track a_obs]. set (L := (fun uf : N * F => ((uf.1, N.of_nat (length pre)), uf.2)) <$> measured meas (length pre)).
      assert (HL : NoDup L.*1). { unfold L. rewrite <- list_fmap_compose. replace (fmap (fst ∘ _) _) with ((fun u => (u, N.of_nat (length pre))) <$> (measured meas (length pre)).*1) by (by rewrite <- list_fmap_compose). apply NoDup_fmap_2; [|done]. by intros ? ? [=]. }
      assert (HLin : list_to_map (M := gmap (N * N) F) L !! (u, t) = Some f <-> t = N.of_nat (length pre) /\ (u, f) ∈ measured meas (length pre)).
      { rewrite <- elem_of_list_to_map by done. unfold L. rewrite elem_of_list_fmap. split; [intros ([u' f'] & [= -> -> ->] & K); done|]. intros [-> K]. by exists (u, f). }
      rewrite lookup_union_Some_raw, HLin, G3, app_length. cbn [length]. split.
      * intros [[-> K]|[_ (j & -> & Hj & K)]]; [exists (length pre); split; [done|]; split; [lia|done]|]. exists j. split; [done|]. split; [lia|done].
      * intros (j & -> & Hj & K). destruct (decide (j = length pre)) as [->|Hne]; [by left|]. right. split; [|exists j; split; [done|]; split; [lia|done]].
        apply not_elem_of_list_to_map_1. unfold L. rewrite <- list_fmap_compose, elem_of_list_fmap. intros (x & [= _ Hx] & _). lia.
  - cbn. rewrite Hnt, app_length. cbn. lia.
  - rewrite app_length. cbn. rewrite Nat.add_1_r. exact Hr.
Qed.

(** C164: what has been imported into an empty reconstruction is the content of the file. *)
Theorem import_content_partial : forall (o : order N) cameras points meas r, (N.of_nat (length cameras) + 1 < 2 ^ 32)%N -> (N.of_nat (length points) + 1 < 2 ^ 32)%N ->
  import_nvm c0 d0 o cameras points meas (rc_empty : recon) = Ok r -> is_content cameras points meas r.
Proof.
  intros o cameras points meas r Hb1 Hb2. unfold import_nvm. destruct (run_steps (import_view c0 o) rc_empty cameras) as [r1| | |] eqn:E1; cbn [mbind outcome_bind]; [|done..].
  destruct (run_steps (import_point d0 meas) (r1, 0%nat) points) as [[r2 k]| | |] eqn:E2; cbn [mbind outcome_bind]; [|done..]. intros [= <-].
  destruct (import_views_ok o cameras [] rc_empty a_empty r1 rel_empty wf_empty) as (a1 & R1 & W1 & GV & Ho & Ht & Hnt); try done.
  { split; [intros u av K; cbn in K; by rewrite lookup_empty in K|intros i Hi; cbn in Hi; lia]. }
  destruct (import_points_ok meas cameras points [] r1 a1 r2 k R1 W1 GV) as (a & R & W & [V1 V2] & (T1 & T2 & T3)); [|done|done|done|].
  { split; [intros t aT K; by rewrite Ht, lookup_empty in K|]. split; [intros j Hj; cbn in Hj; lia|]. intros u t f. rewrite Ho, lookup_empty. split; [done|]. intros (j & _ & Hj & _). cbn in Hj. lia. }
  cbn [app] in *. split; [|split; [|split]].
  - intros u v Hv. destruct (rel_view_Some r2 a u v R Hv) as (av & Ha & N1 & N2 & _ & N4 & N5). destruct (V1 u av Ha) as (i & -> & Hi & He). exists i. split; [done|]. split; [by rewrite N1, N4|]. split; [by rewrite N2|].
    intros t f. rewrite N5, T3. split; intros (j & -> & Hj & K); exists j; (split; [done|]); (split; [done|]).
    + apply in_measured in K as (i' & Ei & K). by apply Nat2N.inj in Ei as ->.
    + apply in_measured. by exists i.
  - intros i Hi. destruct (V2 i Hi) as [av Ha]. destruct (rel_view_Some' r2 a _ av R Ha) as (v & Hv & _). by exists v.
  - intros t tr Htr. destruct (rel_track_Some r2 a t tr R Htr) as (aT & Ha & N1 & N2 & N3). destruct (T1 t aT Ha) as (j & -> & Hj & He). exists j. split; [done|]. split; [by rewrite N2|]. split; [by rewrite N1|].
    intros u. rewrite N3. split.
    + intros [f Hf]. apply T3 in Hf as (j' & Ej & _ & K). apply Nat2N.inj in Ej as <-. apply in_measured in K as (i & -> & K). by exists i, f.
    + intros (i & f & -> & K). exists f. apply T3. exists j. split; [done|]. split; [by eapply lookup_lt_Some|]. apply in_measured. by exists i.
  - intros j Hj. destruct (T2 j Hj) as [aT Ha]. destruct (rel_track_Some' r2 a _ aT R Ha) as (v & Hv & _). by exists v.
Qed.
End props.
Print Assumptions import_content_partial.

Example import_sample : match import_nvm 0%N 0%N ord_id [("a", 3); ("b", 4)]%N [5%N] [(7%N, 0%nat, 0%nat); (8%N, 0%nat, 1%nat)] (rc_empty : recon N N N) with
  | Ok r => (v_name <$> rc_views r !! 1%N) = Some "b" /\ ((fun v => v_feats v !! 0%N) <$> rc_views r !! 1%N) = Some (Some 8%N) /\ (t_data <$> rc_tracks r !! 0%N) = Some 5%N
  | _ => False end.
Proof. vm_compute. repeat split; reflexivity. Qed.

(** The same is false for a reconstruction that has views already: the measurements are added to those. *)
Theorem import_content_refuted : ~ forall (r0 r : recon N N N) cameras points meas n c f,
  (exists ops rs, run_obs (rc_step 0%N 0%N) rc_empty ops = Ok (r0, rs)) -> import_nvm 0%N 0%N ord_id cameras points meas r0 = Ok r ->
  cameras !! 0%nat = Some (n, c) -> (f, 0%nat, 0%nat) ∈ meas -> points <> [] -> exists u v t, rc_views r !! u = Some v /\ v_name v = n /\ v_feats v !! t = Some f.
Proof.
  intros H. set (cams := [("a", 3); ("b", 4); ("c", 4)]%N). set (ms := [(7%N, 0%nat, 0%nat); (8%N, 0%nat, 2%nat)]). set (ops := [OAddView ord_id "x"] : list (rc_op N N N)).
  assert (G : match run_obs (rc_step 0%N 0%N) rc_empty ops with Ok (r0, _) => match import_nvm 0%N 0%N ord_id cams [5%N] ms r0 with
    | Ok r => forallb (fun kv : N * view N N => negb (bool_decide (v_name kv.2 = "a") && bool_decide (v_feats kv.2 <> ∅))) (map_to_list (rc_views r)) = true | _ => False end | _ => False end) by (vm_compute; reflexivity).
  destruct (run_obs (rc_step 0%N 0%N) rc_empty ops) as [[r0 rs]| | |] eqn:E; [|destruct G..]. destruct (import_nvm 0%N 0%N ord_id cams [5%N] ms r0) as [r| | |] eqn:E2; [|destruct G..].
  destruct (H r0 r cams [5%N] ms "a" 3%N 7%N) as (u & v & t & Hv & Hn & Hf); [by exists ops, rs|exact E2|done|by left|done|].
  rewrite forallb_forall in G. specialize (G (u, v) ltac:(apply elem_of_list_In; by apply elem_of_map_to_list)). cbn [snd] in G. rewrite Hn, bool_decide_true in G by done. cbn [andb] in G. apply negb_true_iff, bool_decide_eq_false in G.
  apply G. intros K. rewrite K, lookup_empty in Hf. discriminate Hf.
Qed.
Print Assumptions import_content_refuted.
