(** Proofs about the parallel triangulation of tracks. *)
From stdpp Require Import prelude gmap.
From Coq Require Import QArith_base Qcanon Lia.
From Verif Require Import Base Reconstruction_Model SfmQueries_Model SfmQueries_Spec SfmQueries_Proofs TrackEstimator_Model TrackEstimator_Spec.

Section proofs.
Context {F C D : Type} (g : geometry F C D) (opts : est_options) (o : order N).
Implicit Types r : recon F C D.

(** ** Pieces of EstimateTrack *)
Lemma get_observations_sound r t vs :
  (forall u v, u ∈ vs -> rc_views r !! u = Some v -> is_Some (v_feats v !! t)) ->
  get_observations r t vs = Ok (omap (observation r t) vs).
Proof.
  induction vs as [|u vs IH]; intros Hf; [done|]. cbn [get_observations].
  assert (IH' : get_observations r t vs = Ok (omap (observation r t) vs)).
  { apply IH. intros u' v' Hu'. apply Hf. by right. }
  cbn [omap list_omap]. unfold observation at 1.
  destruct (rc_views r !! u) as [v|] eqn:Hv; cbn [mbind option_bind]; [|exact IH'].
  destruct (v_est v); cbn [mbind option_bind]; [|exact IH'].
  destruct (Hf u v ltac:(by left) Hv) as [f Hf']. rewrite Hf'. cbn [or_die mbind outcome_bind option_bind].
  rewrite IH'. reflexivity.
Qed.

Lemma sufficient_angle_obs obs :
  sufficient_angle (eo_cos_min opts) ((fun vf => g_ray g vf.1 vf.2) <$> obs) = true <-> wide_angle g opts obs.
Proof.
  induction obs as [|a obs IH].
  { cbn. split; [done|]. intros (i & j & x & y & _ & Hi & _). by rewrite lookup_nil in Hi. }
  rewrite fmap_cons. cbn [sufficient_angle]. rewrite orb_true_iff, IH, existsb_exists. split.
  - intros [(b & Hb & Hd) | (i & j & x & y & H1 & H2 & H3 & H4)].
    + apply elem_of_list_In, elem_of_list_fmap in Hb as (b' & -> & Hb'). apply elem_of_list_lookup in Hb' as [j Hj].
      exists 0%nat, (S j), a, b'. split; [lia|]. split; [done|]. split; [done|]. by apply bool_decide_eq_true in Hd.
    + exists (S i), (S j), x, y. split; [lia|done].
  - intros (i & j & x & y & H1 & H2 & H3 & H4). destruct j as [|j]; [lia|]. destruct i as [|i].
    + cbn in H2. injection H2 as ->. left. exists (g_ray g y.1 y.2). split.
      * apply elem_of_list_In, elem_of_list_fmap. exists y. split; [done|]. by eapply elem_of_list_lookup_2.
      * by apply bool_decide_eq_true.
    + right. exists i, j, x, y. split; [lia|done].
Qed.

Lemma acceptable_loop_sound d obs : forall sum n,
  acceptable_loop g opts d obs sum n = true <->
  (forall vf, vf ∈ obs -> ~ (g_depth g vf.1 d < 0)%Qc) /\ (0 < n + length obs)%nat /\
  ((sum + foldr (fun vf s => g_error g vf.1 d vf.2 + s)%Qc 0%Qc obs) / Q2Qc (Z.of_nat (n + length obs) # 1) <
     eo_max_error opts * eo_max_error opts)%Qc.
Proof.
  induction obs as [|[v f] obs IH]; intros sum n; cbn [acceptable_loop foldr length].
  - rewrite andb_true_iff, !bool_decide_eq_true, Nat.add_0_r, Qcplus_0_r. split.
    + intros [H1 H2]. split; [intros vf []%elem_of_nil|done].
    + by intros [_ ?].
  - case_decide as Hd.
    + split; [done|]. intros [H _]. destruct (H (v, f)); [by left|done].
    + rewrite IH, Nat.add_succ_r, Nat.add_succ_l, Qcplus_assoc. cbn [fst snd]. split.
      * intros (H1 & H2 & H3). split; [|done]. intros vf [-> | Hvf]%elem_of_cons; [done|by apply H1].
      * intros (H1 & H2 & H3). split; [|done]. intros vf Hvf. apply H1. by right.
Qed.

Lemma acceptable_fits d obs : (2 <= length obs)%nat -> acceptable_loop g opts d obs 0%Qc 0 = true <-> fits g opts d obs.
Proof.
  intros Hl. rewrite acceptable_loop_sound, Nat.add_0_l, Qcplus_0_l. unfold fits. split; [tauto|].
  intros [H1 H2]. split; [done|]. split; [lia|done].
Qed.

(** ** The result of an estimation *)
Definition final r t (T : track D) : track D * bool :=
  let obs := observations o r t T in
  if decide (length obs < 2)%nat then (T, false)
  else if sufficient_angle (eo_cos_min opts) ((fun vf => g_ray g vf.1 vf.2) <$> obs) then
    match g_triangulate g obs with
    | None => (T, false)
    | Some d =>
        let da := if eo_adjust opts then g_adjust g obs d else (d, true) in
        let b := da.2 && acceptable_loop g opts da.1 obs 0%Qc 0 in
        (Track b da.1 (t_views T), b)
    end
  else (T, false).

Lemma final_estimation r t T : estimation g opts o r t T (final r t T).1 (final r t T).2.
Proof.
  unfold final. cbv zeta. set (obs := observations o r t T). case_decide as Hl; [cbn [fst snd]; apply est_few; by left|].
  destruct (sufficient_angle _ _) eqn:Ha.
  2: { cbn [fst snd]. apply est_few. right. intros Hw. rewrite <- sufficient_angle_obs in Hw. fold obs in Hw. rewrite Ha in Hw. done. }
  apply sufficient_angle_obs in Ha.
  destruct (g_triangulate g obs) as [d|] eqn:Ht; [|cbn [fst snd]; apply est_failed; [fold obs; lia|done|done]].
  destruct (eo_adjust opts) eqn:Hadj.
  - destruct (g_adjust g obs d) as [d' [|]] eqn:Hd'; cbn [fst snd andb].
    + eapply est_tested; [fold obs; lia|exact Ha|exact Ht|rewrite Hadj; exact Hd'|]. apply acceptable_fits. fold obs. lia.
    + eapply est_not_adjusted; [fold obs; lia|exact Ha|exact Ht|exact Hadj|exact Hd'].
  - cbn [fst snd andb]. eapply est_tested; [fold obs; lia|exact Ha|exact Ht|by rewrite Hadj|]. apply acceptable_fits. fold obs. lia.
Qed.

Lemma estimation_final r t T T' b : estimation g opts o r t T T' b -> final r t T = (T', b).
Proof.
  unfold final. cbv zeta. intros [[Hl | Hw] | Hl Hw Ht | d d' Hl Hw Ht Hadj Hd' | d d' b' Hl Hw Ht Hd' Hb].
  - by rewrite decide_True by done.
  - case_decide; [done|]. destruct (sufficient_angle _ _) eqn:Ha; [|done]. by apply sufficient_angle_obs in Ha.
  - rewrite decide_False by lia. apply sufficient_angle_obs in Hw. rewrite Hw, Ht. done.
  - rewrite decide_False by lia. apply sufficient_angle_obs in Hw. rewrite Hw, Ht, Hadj, Hd'. done.
  - rewrite decide_False by lia. apply sufficient_angle_obs in Hw. rewrite Hw, Ht.
    rewrite <- (acceptable_fits d') in Hb by done.
    assert (b' = acceptable_loop g opts d' (observations o r t T) 0%Qc 0) as ->.
    { destruct b', (acceptable_loop _ _ _ _ _ _); try done; [by symmetry; apply Hb|by apply Hb]. }
    destruct (eo_adjust opts); [by rewrite Hd'|by subst].
Qed.

(** The track while it is estimated. *)
Definition mid r t (T : track D) (p : phase) (T' : track D) : Prop :=
  let obs := observations o r t T in
  match p with
  | PStart => T' = T
  | PAdjust => exists d, (2 <= length obs)%nat /\
      sufficient_angle (eo_cos_min opts) ((fun vf => g_ray g vf.1 vf.2) <$> obs) = true /\
      g_triangulate g obs = Some d /\ eo_adjust opts = true /\ T' = Track true d (t_views T)
  | PAccept => exists d d', (2 <= length obs)%nat /\
      sufficient_angle (eo_cos_min opts) ((fun vf => g_ray g vf.1 vf.2) <$> obs) = true /\
      g_triangulate g obs = Some d /\ (if eo_adjust opts then g_adjust g obs d else (d, true)) = (d', true) /\
      T' = Track false d' (t_views T)
  end.
Definition rank (p : phase) : nat := match p with PStart => 0 | PAdjust => 1 | PAccept => 2 end.

Lemma track_step_sound r r' t T p T' :
  rc_views r' = rc_views r -> rc_tracks r' !! t = Some T' -> mid r t T p T' -> t_est T = false ->
  (forall u v, u ∈ t_views T -> rc_views r !! u = Some v -> is_Some (v_feats v !! t)) ->
  exists T'' res, track_step g opts o r' t p = Ok (T'', res) /\
    match res with
    | inl p' => mid r t T p' T'' /\ (rank p < rank p')%nat
    | inr b => final r t T = (T'', b)
    end.
Proof.
  intros Hv HT Hm He Hf.
  assert (Hobs : forall T1 : track D, t_views T1 = t_views T ->
    get_observations r' t (o (elements (t_views T1))) = Ok (observations o r t T)).
  { intros T1 HT1. rewrite HT1, get_observations_sound.
    - unfold observations, observation. by rewrite Hv.
    - intros u v Hu. rewrite Hv. apply Hf. rewrite (ord_perm o) in Hu. by apply elem_of_elements in Hu. }
  unfold track_step. rewrite HT. cbn [or_ub mbind outcome_bind].
  unfold mid in Hm. cbv zeta in Hm. unfold final. cbv zeta. set (obs := observations o r t T) in *. destruct p.
  - subst T'. rewrite He. cbn [negb check mbind outcome_bind]. rewrite (Hobs T eq_refl). cbn [mbind outcome_bind].
    case_decide as Hl; [by eexists _, (inr false)|].
    destruct (sufficient_angle _ _) eqn:Ha; [|by eexists _, (inr false)].
    destruct (g_triangulate g obs) as [d|] eqn:Ht; [|by eexists _, (inr false)].
    destruct (eo_adjust opts) eqn:Hadj.
    + eexists _, (inl PAdjust). split; [reflexivity|]. split; [|cbn; lia]. exists d. fold obs. split_and!; try done. lia.
    + eexists _, (inl PAccept). split; [reflexivity|]. split; [|cbn; lia].
      exists d, d. fold obs. split_and!; [lia|done|done|by rewrite Hadj|done].
  - destruct Hm as (d & Hl & Ha & Ht & Hadj & ->). rewrite (Hobs (Track true d (t_views T)) eq_refl). cbn [mbind outcome_bind t_views t_data].
    destruct (g_adjust g obs d) as [d' [|]] eqn:Hd'.
    + eexists _, (inl PAccept). split; [reflexivity|]. split; [|cbn; lia]. exists d, d'. rewrite Hadj. by fold obs.
    + eexists _, (inr false). split; [reflexivity|]. rewrite decide_False by lia. by rewrite Ha, Ht, Hadj, Hd'.
  - destruct Hm as (d & d' & Hl & Ha & Ht & Hd' & ->). rewrite (Hobs (Track false d' (t_views T)) eq_refl). cbn [mbind outcome_bind t_views t_data].
    rewrite decide_False by lia. rewrite Ha, Ht, Hd'. cbn [fst snd andb].
    destruct (acceptable_loop g opts d' obs 0%Qc 0) eqn:Hacc; by eexists _, (inr _).
Qed.

(** ** The intervals *)
Lemma interval_loop_sound fuel : forall size step i,
  (0 <= i)%Z -> (size < 2 ^ 31)%Z -> (i < 2 ^ 32)%Z -> (1 <= step < 2 ^ 31)%Z -> (size - i < Z.of_nat fuel)%Z -> (0 < fuel)%nat ->
  exists ivs, interval_loop fuel size step i = Ok ivs /\ (length ivs <= Z.to_nat (size - i))%nat /\
    forall (l : list N), Z.of_nat (length l) = size -> concat (interval_tracks l <$> ivs) = drop (Z.to_nat i) l.
Proof.
  induction fuel as [|fuel IH]; intros size step i Hi Hsize Hi' Hstep Hfuel Hpos; [lia|].
  cbn [interval_loop]. rewrite Z.mod_small by lia. case_decide as Hlt.
  - destruct (IH size step (i + step)%Z) as (ivs & -> & Hn & Hc); try lia.
    eexists. split; [reflexivity|]. split; [cbn [length]; lia|]. intros l Hl. rewrite fmap_cons. cbn [concat]. rewrite (Hc l Hl).
    unfold interval_tracks. cbn [fst snd].
    rewrite Z2Nat.inj_add, <- drop_drop by lia.
    destruct (decide (size <= i + step)%Z).
    + rewrite (Z.min_l size) by lia. rewrite firstn_all2 by (rewrite drop_length; lia).
      rewrite (drop_ge (drop _ _)) by (rewrite drop_length; lia). by rewrite app_nil_r.
    + rewrite Z.min_r by lia. replace (i + step - i)%Z with step by lia. apply take_drop.
  - eexists. split; [reflexivity|]. split; [cbn; lia|]. intros l Hl. cbn. symmetry. apply drop_ge. lia.
Qed.

Lemma intervals_sound (l : list N) :
  l <> [] -> (Z.of_nat (length l) < 2 ^ 31)%Z -> (1 <= eo_threads opts)%Z -> (1 <= eo_step opts)%Z ->
  exists ivs, intervals opts (Z.of_nat (length l)) = Ok ivs /\ (length ivs <= length l)%nat /\ concat (interval_tracks l <$> ivs) = l.
Proof.
  intros Hne Hlen Ht Hs. unfold intervals.
  assert (0 < Z.of_nat (length l))%Z by (destruct l; [done|cbn; lia]).
  rewrite decide_False by lia. rewrite bool_decide_eq_true_2 by lia. cbn [check mbind outcome_bind].
  set (th := Z.min (eo_threads opts) (Z.of_nat (length l))).
  assert (1 <= th <= Z.of_nat (length l))%Z by lia.
  rewrite Z.quot_div_nonneg by lia.
  assert (1 <= Z.of_nat (length l) / th <= Z.of_nat (length l))%Z.
  { split; [apply Z.div_le_lower_bound; lia|apply Z.div_le_upper_bound; nia]. }
  destruct (interval_loop_sound (S (Z.to_nat (Z.of_nat (length l)))) (Z.of_nat (length l))
    (Z.min (eo_step opts) (Z.of_nat (length l) / th)) 0) as (ivs & -> & Hn & Hc); try lia.
  exists ivs. split; [done|]. split; [lia|]. by rewrite Hc.
Qed.

(** ** The tracks to estimate *)
Lemma unestimated_tracks_sound r ids :
  (forall t, t ∈ ids -> is_Some (rc_tracks r !! t)) ->
  unestimated_tracks r ids = Ok (filter (fun t => (t_est <$> rc_tracks r !! t) = Some false) ids).
Proof.
  induction ids as [|t ids IH]; intros Hex; [done|]. cbn [unestimated_tracks].
  destruct (Hex t ltac:(by left)) as [T HT]. rewrite HT. cbn [or_ub mbind outcome_bind].
  rewrite IH by (intros t' Ht'; apply Hex; by right). cbn [mbind outcome_bind]. rewrite filter_cons, HT. cbn [fmap option_fmap option_map].
  destruct (t_est T); [by rewrite decide_False|by rewrite decide_True].
Qed.

(** ** The concurrent run *)
Section run.
  Context (r : recon F C D) (L : list (list N)).
  Context (HN : NoDup (concat L)).
  Context (HL : forall t, t ∈ concat L -> exists T, rc_tracks r !! t = Some T /\ t_est T = false /\
    forall u v, u ∈ t_views T -> rc_views r !! u = Some v -> is_Some (v_feats v !! t)).

  Lemma in_concat l i t : L !! i = Some l -> t ∈ l -> t ∈ concat L.
  Proof.
    clear HN HL. revert i. induction L as [|a L' IH]; intros i; [done|]. cbn [concat]. rewrite elem_of_app.
    destruct i; cbn; [intros [= ->]; by left|]. intros Hi Ht. right. by eapply IH.
  Qed.
  Lemma concat_unique i j a b t : L !! i = Some a -> L !! j = Some b -> t ∈ a -> t ∈ b -> i = j.
  Proof.
    clear HL. revert i j. pose proof @in_concat as Hin. clear Hin. revert HN. induction L as [|x L' IH]; intros HN' i j; [done|].
    cbn [concat] in HN'. apply NoDup_app in HN' as (H1 & H2 & H3).
    assert (Hin : forall l i t, L' !! i = Some l -> t ∈ l -> t ∈ concat L').
    { clear. induction L' as [|y L' IH]; intros l i t; [done|]. cbn [concat]. rewrite elem_of_app.
      destruct i; cbn; [intros [= ->]; by left|]. intros Hi Ht. right. by eapply IH. }
    destruct i as [|i], j as [|j]; cbn; intros Hi Hj Ha Hb; try done.
    - simplify_eq. destruct (H2 t Ha). by eapply Hin.
    - simplify_eq. destruct (H2 t Hb). by eapply Hin.
    - f_equal. by eapply IH.
  Qed.
  Lemma part_NoDup i a : L !! i = Some a -> NoDup a.
  Proof.
    clear HL. revert i HN. induction L as [|x L' IH]; intros i HN'; [done|].
    cbn [concat] in HN'. apply NoDup_app in HN' as (H1 & H2 & H3). destruct i; cbn; [by intros [= ->]|by apply IH].
  Qed.

  Definition done_with (m : gmap N (track D)) (fin : list N) : Prop :=
    forall t T, t ∈ fin -> rc_tracks r !! t = Some T -> m !! t = Some (final r t T).1.
  Definition task_inv (m : gmap N (track D)) (l : list N) (k : task) : Prop :=
    exists fin, l = fin ++ k_todo k /\ done_with m fin /\
      (forall t, t ∈ k_found k <-> t ∈ fin /\ exists T, rc_tracks r !! t = Some T /\ (final r t T).2 = true) /\
      (match k_todo k with
       | [] => True
       | t :: todo => (exists T T', rc_tracks r !! t = Some T /\ m !! t = Some T' /\ mid r t T (k_phase k) T') /\
                      (forall t', t' ∈ todo -> m !! t' = rc_tracks r !! t')
       end) /\
      (k_done k = true -> k_todo k = []).
  Definition run_inv (s : est_state) : Prop :=
    e_recon s = set_tracks r (rc_tracks (e_recon s)) /\ length (e_tasks s) = length L /\
    (forall i k l, e_tasks s !! i = Some k -> L !! i = Some l -> task_inv (rc_tracks (e_recon s)) l k) /\
    (forall t, t ∉ concat L -> rc_tracks (e_recon s) !! t = rc_tracks r !! t) /\
    (forall t, t ∈ e_found s <-> exists i k, e_tasks s !! i = Some k /\ k_done k = true /\ t ∈ k_found k).

  Lemma task_inv_other (m : gmap N (track D)) l k t T : t ∉ l -> task_inv m l k -> task_inv (<[t := T]> m) l k.
  Proof.
    intros Ht (fin & Hl & H1 & H2 & H3 & H4). exists fin. split; [done|].
    assert (Hne : forall t', t' ∈ l -> (<[t := T]> m) !! t' = m !! t').
    { intros t' Ht'. apply lookup_insert_ne. intros ->. done. }
    split; [|split; [done|split; [|done]]].
    - intros t' T' Ht' HT'. rewrite Hne by (rewrite Hl; apply elem_of_app; by left). by apply H1.
    - destruct (k_todo k) as [|t0 todo]; [done|]. destruct H3 as [H3 H5]. split.
      + rewrite Hne by (rewrite Hl; apply elem_of_app; right; by left). done.
      + intros t' Ht'. rewrite Hne by (rewrite Hl; apply elem_of_app; right; by right). by apply H5.
  Qed.

  Definition work (k : task) : nat :=
    if k_done k then 0 else match k_todo k with [] => 1 | _ :: todo => 4 + 3 * length todo - rank (k_phase k) end.
  Definition work_at (s : est_state (F := F) (C := C) (D := D)) (i : nat) : nat :=
    match e_tasks s !! i with Some k => work k | None => 0 end.

  Lemma task_step_sound s i : run_inv s ->
    exists s', task_step g opts o s i = Ok s' /\ run_inv s' /\ (work_at s' i <= work_at s i - 1)%nat /\
      (forall j, j <> i -> work_at s' j = work_at s j).
  Proof.
    intros (Hr & Hlen & Htasks & Hout & Hfound). unfold task_step.
    destruct (e_tasks s !! i) as [k|] eqn:Hk.
    2: { exists s. split; [done|]. split; [done|]. unfold work_at. rewrite Hk. split; [lia|done]. }
    destruct (k_done k) eqn:Hd.
    { exists s. split; [done|]. split; [done|]. unfold work_at. rewrite Hk. unfold work. rewrite Hd. split; [lia|done]. }
    assert (Hi : (i < length (e_tasks s))%nat) by (by eapply lookup_lt_Some).
    destruct (lookup_lt_is_Some_2 L i) as [l Hl]; [lia|].
    pose proof (Htasks i k l Hk Hl) as (fin & Hfin & H1 & H2 & H3 & H4).
    destruct (k_todo k) as [|t todo] eqn:Htodo.
    - eexists. split; [reflexivity|]. cbn [e_recon e_found e_tasks]. split; [split; [|split; [|split; [|split]]]|split]; cbn [e_recon e_found e_tasks].
      + done.
      + by rewrite insert_length.
      + intros j k' l' [(<- & <- & _)|[Hne Hj]]%list_lookup_insert_Some Hl'.
        * assert (l' = l) as -> by congruence. exists fin. cbn. split; [done|]. split; [done|]. split; [done|]. done.
        * by eapply Htasks.
      + done.
      + intros t. rewrite elem_of_union, Hfound. split.
        * intros [Ht | (j & k' & Hj & Hdk & Ht)].
          -- exists i, (Task [] (k_phase k) (k_found k) true). rewrite list_lookup_insert by done. done.
          -- exists j, k'. rewrite list_lookup_insert_ne by congruence. done.
        * intros (j & k' & [(<- & <- & _)|[Hne Hj]]%list_lookup_insert_Some & Hdk & Ht); [by left|].
          right. by exists j, k'.
      + unfold work_at. cbn [e_tasks]. rewrite list_lookup_insert by done. cbn. lia.
      + intros j Hj. unfold work_at. cbn [e_tasks]. by rewrite list_lookup_insert_ne by done.
    - destruct H3 as [(T & T' & HT & HT' & Hmid) Hrest].
      assert (Htl : t ∈ l) by (rewrite Hfin; apply elem_of_app; right; by left).
      destruct (HL t) as (T0 & HT0 & He & Hf); [by eapply in_concat|]. assert (T0 = T) as -> by congruence. clear HT0.
      destruct (track_step_sound r (e_recon s) t T (k_phase k) T') as (T'' & res & Hstep & Hres); try done.
      { by rewrite Hr. }
      rewrite Hstep. cbn [mbind outcome_bind].
      pose proof (part_NoDup i l Hl) as HNl. rewrite Hfin in HNl. apply NoDup_app in HNl as (HN1 & HN2 & HN3).
      apply NoDup_cons in HN3 as [HN3 HN4].
      assert (Htf : t ∉ fin) by (intros Ht; by apply (HN2 t Ht); left).
      assert (Hfin1 : done_with (<[t := T'']> (rc_tracks (e_recon s))) fin).
      { intros t' T1 Ht' HT1. rewrite lookup_insert_ne by (intros ->; done). by apply H1. }
      set (m' := <[t := T'']> (rc_tracks (e_recon s))) in *.
      eexists. split; [reflexivity|]. cbn [e_recon e_found e_tasks]. split; [split; [|split; [|split; [|split]]]|split]; cbn [e_recon e_found e_tasks].
      + rewrite Hr at 1. done.
      + by rewrite insert_length.
      + intros j k' l' [(<- & <- & _)|[Hne Hj]]%list_lookup_insert_Some Hl'.
        * assert (l' = l) as -> by congruence. cbn [rc_tracks set_tracks]. destruct res as [p'|b].
          -- destruct Hres as [Hres _]. exists fin. cbn [k_todo k_found k_done k_phase]. split; [done|]. split; [done|]. split; [done|]. split; [|done]. split.
             ++ exists T, T''. split; [done|]. split; [unfold m'; by rewrite lookup_insert|done].
             ++ intros t' Ht'. unfold m'. rewrite lookup_insert_ne by (intros ->; done). by apply Hrest.
          -- exists (fin ++ [t]). cbn [k_todo k_found k_done k_phase]. split; [by rewrite <- app_assoc|]. split; [|split; [|split; [|done]]].
             ++ intros t' T1 [Ht' | ->%elem_of_list_singleton]%elem_of_app HT1; [by apply Hfin1|].
                assert (T1 = T) as -> by congruence. unfold m'. by rewrite lookup_insert, Hres.
             ++ intros t'. rewrite elem_of_app, elem_of_list_singleton. destruct b.
                ** rewrite elem_of_union, elem_of_singleton, H2. split.
                   --- intros [-> | [Ht' HT1]]; [|split; [by left|done]]. split; [by right|]. exists T. by rewrite Hres.
                   --- intros [[Ht' | ->] HT1]; [by right|by left].
                ** rewrite H2. split; [intros [? ?]; split; [by left|done]|]. intros [[Ht' | ->] HT1]; [done|].
                   destruct HT1 as (T1 & HT1 & Hfl). assert (T1 = T) as -> by congruence. by rewrite Hres in Hfl.
             ++ destruct todo as [|t2 todo]; [done|]. split.
                ** destruct (HL t2) as (T2 & HT2 & _). { eapply in_concat; [exact Hl|]. rewrite Hfin. apply elem_of_app. right. right. by left. }
                   exists T2, T2. split; [done|]. split; [|done]. unfold m'. rewrite lookup_insert_ne by (intros ->; apply HN3; by left).
                   rewrite <- HT2. apply Hrest. by left.
                ** intros t' Ht'. unfold m'. rewrite lookup_insert_ne by (intros ->; apply HN3; by right). apply Hrest. by right.
        * cbn [rc_tracks set_tracks]. apply task_inv_other; [|by eapply Htasks].
          intros Ht. apply Hne. by eapply concat_unique.
      + intros t' Ht'. cbn [rc_tracks set_tracks]. unfold m'. rewrite lookup_insert_ne; [by apply Hout|].
        intros ->. apply Ht'. by eapply in_concat.
      + intros t'. rewrite Hfound. split.
        * intros (j & k' & Hj & Hdk & Ht'). exists j, k'. rewrite list_lookup_insert_ne by congruence. done.
        * intros (j & k' & [(<- & <- & _)|[Hne Hj]]%list_lookup_insert_Some & Hdk & Ht'); [by destruct res|]. by exists j, k'.
      + unfold work_at. cbn [e_tasks]. rewrite list_lookup_insert by done. rewrite Hk. unfold work. rewrite Hd, Htodo.
        destruct res as [p'|b]; cbn [k_done k_todo k_phase].
        * destruct Hres as [_ Hrank]. assert (rank p' <= 2)%nat by (destruct p'; cbn; lia). lia.
        * assert (rank (k_phase k) <= 2)%nat by (destruct (k_phase k); cbn; lia). destruct todo; cbn [length rank]; lia.
      + intros j Hj. unfold work_at. cbn [e_tasks]. by rewrite list_lookup_insert_ne by done.
  Qed.

  Lemma run_sound sched : forall s, run_inv s ->
    exists s', run_steps (task_step g opts o) s sched = Ok s' /\ run_inv s' /\
      forall i, (work_at s' i <= work_at s i - length (filter (eq i) sched))%nat.
  Proof.
    induction sched as [|i sched IH]; intros s Hs; cbn [run_steps].
    { exists s. split; [done|]. split; [done|]. intros i. cbn. lia. }
    destruct (task_step_sound s i Hs) as (s1 & Hstep & Hs1 & Hw & Hw').
    destruct (IH s1 Hs1) as (s2 & Hrun & Hs2 & Hw2). exists s2. rewrite Hstep. split; [exact Hrun|]. split; [done|].
    intros j. rewrite filter_cons. specialize (Hw2 j). case_decide as Hj.
    - subst j. cbn [length]. lia.
    - rewrite (Hw' j) in Hw2 by done. done.
  Qed.

  Lemma start_inv (l : list N) ivs : interval_tracks l <$> ivs = L -> run_inv (start_state r l ivs).
  Proof.
    intros HLi. unfold start_state. split; [by destruct r|]. cbn [e_recon e_tasks e_found]. split; [by rewrite <- HLi, !fmap_length|].
    split; [|split; [done|]].
    - intros i k l' Hk Hl'. rewrite <- HLi in Hl'. rewrite list_lookup_fmap in Hk. rewrite list_lookup_fmap in Hl'.
      destruct (ivs !! i) as [iv|] eqn:Hiv; [|done]. cbn in Hk, Hl'. injection Hk as <-. injection Hl' as <-.
      exists []. cbn [k_todo k_found k_done k_phase]. split; [done|]. split; [by intros t T []%elem_of_nil|]. split; [|split; [|done]].
      + intros t. split; [by intros []%elem_of_empty|]. by intros [[]%elem_of_nil _].
      + destruct (interval_tracks l iv) as [|t todo] eqn:E; [done|]. split; [|done].
        destruct (HL t) as (T & HT & _).
        { eapply (in_concat (interval_tracks l iv) i); [|rewrite E; by left]. by rewrite <- HLi, list_lookup_fmap, Hiv. }
        by exists T, T.
    - intros t. split; [by intros []%elem_of_empty|]. intros (i & k & Hk & Hd & _).
      rewrite list_lookup_fmap in Hk. destruct (ivs !! i); [|done]. cbn in Hk. by injection Hk as <-.
  Qed.

  (** All tasks have returned: the result is determined. *)
  Lemma run_complete s : run_inv s -> forallb k_done (e_tasks s) = true ->
    (forall t T, t ∈ concat L -> rc_tracks r !! t = Some T ->
       rc_tracks (e_recon s) !! t = Some (final r t T).1 /\ (t ∈ e_found s <-> (final r t T).2 = true)) /\
    (forall t, t ∉ concat L -> t ∉ e_found s).
  Proof.
    intros (Hr & Hlen & Htasks & Hout & Hfound) Hall. rewrite forallb_forall in Hall.
    assert (Hdone : forall i k, e_tasks s !! i = Some k -> k_done k = true).
    { intros i k Hk. apply Hall, elem_of_list_In. by eapply elem_of_list_lookup_2. }
    assert (Hparts : forall t, t ∈ concat L -> exists i l, L !! i = Some l /\ t ∈ l).
    { clear. induction L as [|x L' IH]; intros t; [by intros []%elem_of_nil|]. cbn [concat]. intros [Ht | Ht]%elem_of_app.
      - exists 0%nat, x. done.
      - destruct (IH t Ht) as (i & l & ? & ?). by exists (S i), l. }
    split.
    - intros t T Ht HT. destruct (Hparts t Ht) as (i & l & Hl & Hin).
      destruct (lookup_lt_is_Some_2 (e_tasks s) i) as [k Hk]. { rewrite Hlen. by eapply lookup_lt_Some. }
      destruct (Htasks i k l Hk Hl) as (fin & Hfin & H1 & H2 & _ & H4). rewrite (H4 (Hdone i k Hk)), app_nil_r in Hfin. subst fin.
      split; [by apply H1|]. rewrite Hfound. split.
      + intros (j & k' & Hj & _ & Hf). destruct (lookup_lt_is_Some_2 L j) as [l' Hl'].
        { rewrite <- Hlen. by eapply lookup_lt_Some. }
        destruct (Htasks j k' l' Hj Hl') as (fin' & Hfin' & _ & H2' & _ & _). apply H2' in Hf as (_ & T' & HT' & Hb). congruence.
      + intros Hb. exists i, k. split; [done|]. split; [by eapply Hdone|]. apply H2. split; [done|]. by exists T.
    - intros t Ht (i & k & Hk & _ & Hf)%Hfound. apply Ht. destruct (lookup_lt_is_Some_2 L i) as [l Hl].
      { rewrite <- Hlen. by eapply lookup_lt_Some. }
      destruct (Htasks i k l Hk Hl) as (fin & Hfin & _ & H2 & _ & _). apply H2 in Hf as [Hf _]. eapply in_concat; [exact Hl|].
      rewrite Hfin. apply elem_of_app. by left.
  Qed.
End run.

(** ** EstimateTracks *)
Definition to_estimate r (ids : gset N) : list N :=
  filter (fun t => (t_est <$> rc_tracks r !! t) = Some false) (o (elements ids)).

Lemma elem_of_to_estimate r ids t :
  t ∈ to_estimate r ids <-> t ∈ ids /\ exists T, rc_tracks r !! t = Some T /\ t_est T = false.
Proof.
  unfold to_estimate. rewrite elem_of_list_filter, (ord_perm o), elem_of_elements, fmap_Some. split.
  - intros [(T & HT & He) Ht]. split; [done|]. by exists T.
  - intros [Ht (T & HT & He)]. split; [|done]. by exists T.
Qed.
Lemma to_estimate_NoDup r ids : NoDup (to_estimate r ids).
Proof. apply NoDup_filter. rewrite (ord_perm o). apply NoDup_elements. Qed.

(** What a complete run of EstimateTracks returns. *)
Definition result_of r (ids : gset N) (r' : recon F C D) (sm : est_summary) : Prop :=
  r' = set_tracks r (rc_tracks r') /\
  (forall t T, t ∈ to_estimate r ids -> rc_tracks r !! t = Some T ->
     rc_tracks r' !! t = Some (final r t T).1 /\ (t ∈ es_found sm <-> (final r t T).2 = true)) /\
  (forall t, t ∉ to_estimate r ids -> rc_tracks r' !! t = rc_tracks r !! t /\ t ∉ es_found sm) /\
  es_attempts sm = Z.of_nat (length (to_estimate r ids)) /\
  es_input sm = (Z.of_nat (size ids) - Z.of_nat (length (to_estimate r ids)))%Z.

Lemma estimate_tracks_sound r ids sched :
  consistent r -> (forall t, t ∈ ids -> is_Some (rc_tracks r !! t)) ->
  (Z.of_nat (size ids) < 2 ^ 31)%Z -> (1 <= eo_threads opts)%Z -> (1 <= eo_step opts)%Z ->
  exists res, estimate_tracks g opts o ids sched r = Ok res /\
    (forall r' sm, res = Some (r', sm) -> result_of r ids r' sm) /\
    ((forall i, (i < size ids)%nat -> (3 * size ids + 1 <= length (filter (eq i) sched))%nat) -> res <> None).
Proof.
  intros Hc Hex Hsize Hth Hstep. unfold estimate_tracks.
  rewrite unestimated_tracks_sound.
  2: { intros t Ht. apply Hex. rewrite (ord_perm o) in Ht. by apply elem_of_elements in Ht. }
  cbn [mbind outcome_bind]. fold (to_estimate r ids). set (l := to_estimate r ids).
  assert (Hll : (length l <= size ids)%nat).
  { unfold l, to_estimate. etransitivity; [apply filter_length|]. rewrite (ord_perm o). done. }
  case_decide as Hl0.
  - eexists. split; [reflexivity|]. split; [|done]. intros r' sm [= <- <-].
    split; [by destruct r|]. cbn [es_found es_input es_attempts]. fold l. split_and!; [|done|done|done].
    intros t T Ht. apply nil_length_inv in Hl0. fold l in Ht. rewrite Hl0 in Ht. by apply elem_of_nil in Ht.
  - destruct (intervals_sound l) as (ivs & Hivs & Hn & Hcat); try done; [by intros ->|lia|].
    rewrite Hivs. cbn [mbind outcome_bind]. set (L := interval_tracks l <$> ivs) in *.
    assert (HN : NoDup (concat L)) by (rewrite Hcat; apply to_estimate_NoDup).
    assert (HL : forall t, t ∈ concat L -> exists T, rc_tracks r !! t = Some T /\ t_est T = false /\
      forall u v, u ∈ t_views T -> rc_views r !! u = Some v -> is_Some (v_feats v !! t)).
    { rewrite Hcat. intros t [_ (T & HT & He)]%elem_of_to_estimate. exists T. split; [done|]. split; [done|].
      intros u v Hu Hv. destruct (proj1 (Hc u t)) as (v' & Hv' & Hf); [by exists T|]. congruence. }
    destruct (run_sound r L HN HL sched (start_state r l ivs)) as (s & Hrun & Hinv & Hwork); [by apply start_inv|].
    rewrite Hrun. cbn [mbind outcome_bind]. eexists. split; [reflexivity|]. split.
    + destruct (forallb k_done (e_tasks s)) eqn:Hall; [|done]. intros r' sm [= <- <-].
      destruct (run_complete r L s Hinv Hall) as [H1 H2]. destruct Hinv as (Hr & _ & _ & Hout & _).
      rewrite Hcat in H1, H2, Hout. split; [done|]. split; [done|]. split; [|done]. intros t Ht. split; [by apply Hout|by apply H2].
    + intros Hfair. assert (forallb k_done (e_tasks s) = true) as ->; [|done].
      apply forallb_forall. intros k Hk%elem_of_list_In. apply elem_of_list_lookup in Hk as [i Hk].
      destruct Hinv as (_ & Hlen & _). unfold L in Hlen. rewrite fmap_length in Hlen.
      assert (Hi : (i < length ivs)%nat) by (rewrite <- Hlen; by eapply lookup_lt_Some).
      specialize (Hwork i). specialize (Hfair i ltac:(lia)). unfold work_at in Hwork. rewrite Hk in Hwork.
      assert (H0 : (match e_tasks (start_state r l ivs) !! i with Some k => work k | None => 0 end <= 3 * length l + 1)%nat).
      { unfold start_state. cbn [e_tasks]. rewrite list_lookup_fmap. destruct (ivs !! i) as [iv|]; cbn; [|lia].
        unfold work. cbn [k_done k_todo k_phase]. pose proof (eq_refl (length (interval_tracks l iv))) as Hp.
        unfold interval_tracks in Hp at 2. rewrite take_length, drop_length in Hp.
        destruct (interval_tracks l iv); cbn [length rank] in *; lia. }
      unfold work in Hwork at 1. destruct (k_done k); [done|]. destruct (k_todo k); [lia|].
      assert (rank (k_phase k) <= 2)%nat by (destruct (k_phase k); cbn; lia). lia.
Qed.

(** The tracks EstimateAllTracks passes on. *)
Lemma all_tracks_loop r vs : forall s : gset N, forall t,
  t ∈ foldl (fun (s : gset N) u => match rc_views r !! u with
                                  | Some v => if v_est v then list_to_set ((o : order N) (elements (dom (v_feats v)))) ∪ s else s
                                  | None => s end) s vs <->
  t ∈ s \/ exists u, u ∈ vs /\ est_view r u /\ sees r u t.
Proof.
  induction vs as [|u vs IH]; intros s t; cbn [foldl].
  { split; [by left|]. intros [? | (u & []%elem_of_nil & _)]. done. }
  rewrite IH. clear IH. unfold est_view, sees. split.
  - intros [Ht | (u' & Hu' & H1 & H2)].
    + destruct (rc_views r !! u) as [v|] eqn:Hv; [|by left]. destruct (v_est v) eqn:He; [|by left].
      apply elem_of_union in Ht as [Ht | Ht]; [|by left]. rewrite elem_of_list_to_set, (ord_perm o), elem_of_elements, elem_of_dom in Ht.
      right. exists u. split; [by left|]. split; by exists v.
    + right. exists u'. split; [by right|done].
  - intros [Ht | (u' & [-> | Hu']%elem_of_cons & (v & Hv & He) & (v' & Hv' & Hf))].
    + left. destruct (rc_views r !! u) as [v|]; [|done]. destruct (v_est v); [|done]. apply elem_of_union. by right.
    + left. rewrite Hv, He. apply elem_of_union. left. rewrite elem_of_list_to_set, (ord_perm o), elem_of_elements, elem_of_dom.
      by simplify_eq.
    + right. exists u'. split; [done|]. split; [by exists v|by exists v'].
Qed.

Lemma estimate_all_sound r : exists ids, (forall t, t ∈ ids <-> exists u, est_view r u /\ sees r u t) /\
  forall sched, estimate_all_tracks g opts o sched r = estimate_tracks g opts o ids sched r.
Proof.
  eexists. split; [|intros sched; unfold estimate_all_tracks; reflexivity]. intros t. rewrite all_tracks_loop. split.
  - intros [[]%elem_of_empty | (u & _ & H1 & H2)]. by exists u.
  - intros (u & H1 & H2). right. exists u. split; [|done]. rewrite (ord_perm o), elem_of_elements, elem_of_dom.
    destruct H1 as (v & Hv & _). by exists v.
Qed.

(** Options outside of the guarded range. *)
Lemma estimate_tracks_options r ids sched :
  (forall t, t ∈ ids -> is_Some (rc_tracks r !! t)) -> (Z.of_nat (size ids) < 2 ^ 31)%Z ->
  (exists t T, t ∈ ids /\ rc_tracks r !! t = Some T /\ t_est T = false) ->
  (eo_threads opts = 0%Z -> estimate_tracks g opts o ids sched r = UB) /\
  ((eo_threads opts < 0)%Z -> estimate_tracks g opts o ids sched r = CheckFail) /\
  ((1 <= eo_threads opts)%Z -> eo_step opts = 0%Z -> estimate_tracks g opts o ids sched r = Hang) /\
  ((1 <= eo_threads opts)%Z -> (- 2 ^ 31 <= eo_step opts < 0)%Z -> exists res, estimate_tracks g opts o ids sched r = Ok res /\
     forall r' sm, res = Some (r', sm) -> r' = r /\ es_found sm = ∅).
Proof.
  intros Hex Hsize (t & T & Ht & HT & He). unfold estimate_tracks.
  rewrite unestimated_tracks_sound.
  2: { intros t' Ht'. apply Hex. rewrite (ord_perm o) in Ht'. by apply elem_of_elements in Ht'. }
  cbn [mbind outcome_bind]. fold (to_estimate r ids). set (l := to_estimate r ids).
  assert (Hll : (length l <= size ids)%nat).
  { unfold l, to_estimate. etransitivity; [apply filter_length|]. rewrite (ord_perm o). done. }
  assert (Hl0 : (0 < length l)%nat).
  { assert (Htl : t ∈ l) by (apply elem_of_to_estimate; eauto). destruct l; [by apply elem_of_nil in Htl|cbn; lia]. }
  rewrite decide_False by lia. unfold intervals. split_and!.
  - intros Hth. by rewrite decide_True by lia.
  - intros Hth. rewrite decide_False by lia. by rewrite bool_decide_eq_false_2 by lia.
  - intros Hth Hst. rewrite decide_False by lia. rewrite bool_decide_eq_true_2 by lia. cbn [check mbind outcome_bind].
    set (th := Z.min (eo_threads opts) (Z.of_nat (length l))).
    rewrite Z.quot_div_nonneg by lia. rewrite Hst, Z.min_l by (apply Z.div_pos; lia).
    generalize (S (Z.to_nat (Z.of_nat (length l)))). intros fuel.
    assert (Hloop : interval_loop fuel (Z.of_nat (length l)) 0 0 = Hang); [|by rewrite Hloop].
    induction fuel as [|fuel IH]; [done|]. cbn [interval_loop]. rewrite Z.mod_0_l by done. rewrite decide_True by lia.
    rewrite Z.add_0_r, IH. done.
  - intros Hth Hst. rewrite decide_False by lia. rewrite bool_decide_eq_true_2 by lia. cbn [check mbind outcome_bind].
    set (th := Z.min (eo_threads opts) (Z.of_nat (length l))).
    rewrite Z.quot_div_nonneg by lia. assert (0 <= Z.of_nat (length l) / th)%Z by (apply Z.div_pos; lia). rewrite Z.min_l by lia.
    assert (Hiv : interval_loop (S (Z.to_nat (Z.of_nat (length l)))) (Z.of_nat (length l)) (eo_step opts) 0 = Ok [(0, eo_step opts)%Z]).
    { cbn [interval_loop]. rewrite Z.mod_0_l by done. rewrite decide_True by lia. rewrite Z.add_0_l.
      destruct (Z.to_nat (Z.of_nat (length l))) as [|n] eqn:E; [lia|]. cbn [interval_loop].
      rewrite decide_False. { cbn [mbind outcome_bind]. do 3 f_equal. lia. }
      rewrite <- (Z.mod_add _ 1) by done. rewrite Z.mod_small by lia. lia. }
    rewrite Hiv. cbn [mbind outcome_bind].
    assert (Hstart : start_state r l [(0, eo_step opts)%Z] = EstState r ∅ [Task [] PStart ∅ false]).
    { unfold start_state. cbn [fmap list_fmap]. unfold interval_tracks. cbn [fst snd].
      replace (Z.to_nat (eo_step opts - 0)) with 0%nat by lia. by rewrite take_0. }
    rewrite Hstart.
    assert (Hrun : forall b, exists b', run_steps (task_step g opts o) (EstState r ∅ [Task [] PStart ∅ b]) sched = Ok (EstState r ∅ [Task [] PStart ∅ b'])).
    { clear. induction sched as [|i sched IH]; intros b; cbn [run_steps]; [by exists b|].
      destruct i as [|i].
      - unfold task_step at 2. cbn [e_tasks lookup list_lookup k_done k_todo]. destruct b; cbn [mbind outcome_bind]; [apply IH|].
        cbn [e_recon e_found k_found k_phase insert list_insert]. rewrite union_empty_l_L. apply IH.
      - assert (Hs : task_step g opts o (EstState r ∅ [Task [] PStart ∅ b]) (S i) = Ok (EstState r ∅ [Task [] PStart ∅ b])).
        { unfold task_step. cbn [e_tasks lookup list_lookup]. done. }
        rewrite Hs. apply IH. }
    destruct (Hrun false) as [b' Hb']. rewrite Hb'. cbn [mbind outcome_bind e_tasks forallb k_done]. eexists. split; [reflexivity|].
    intros r' sm. destruct b'; cbn; [|done]. by intros [= <- <-].
Qed.
End proofs.
