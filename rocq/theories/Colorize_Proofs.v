(** Proofs about ColorizeReconstruction: whatever the schedule, the sums are those of the pixels. *)
From stdpp Require Import gmap strings.
From Coq Require Import QArith Qcanon Qround Lqa.
From Verif Require Import Base Reconstruction_Model Colorize_Model Colorize_Spec.

(** * Vectors *)
Definition vsum (l : list vec) : vec := foldr vadd vzero l.
Lemma vadd_comm a b : vadd a b = vadd b a.
Proof. destruct a as [[? ?] ?], b as [[? ?] ?]. cbn. f_equal; [f_equal|]; ring. Qed.
Lemma vadd_assoc a b c : vadd a (vadd b c) = vadd (vadd a b) c.
Proof. destruct a as [[? ?] ?], b as [[? ?] ?], c as [[? ?] ?]. cbn. f_equal; [f_equal|]; ring. Qed.
Lemma vadd_0_r a : vadd a vzero = a.
Proof. destruct a as [[? ?] ?]. cbn. f_equal; [f_equal|]; ring. Qed.
Lemma vadd_0_l a : vadd vzero a = a.
Proof. rewrite vadd_comm. apply vadd_0_r. Qed.
Lemma vadd_cancel a b c : vadd a c = vadd b c -> a = b.
Proof.
  destruct a as [[? ?] ?], b as [[? ?] ?], c as [[? ?] ?]. intros H. pose proof (f_equal (fun v : vec => v.1.1) H) as H1. pose proof (f_equal (fun v : vec => v.1.2) H) as H2. pose proof (f_equal (fun v : vec => v.2) H) as H3. cbn [vadd fst snd] in H1, H2, H3. clear H.
  assert (K : forall x y z : Qc, (x + z = y + z)%Qc -> x = y). { intros x y z H. replace x with (x + z - z)%Qc by ring. rewrite H. ring. }
  apply K in H1, H2, H3. by subst.
Qed.
Lemma vsum_perm l l' : l ≡ₚ l' -> vsum l = vsum l'.
Proof.
  induction 1 as [|x l l' H IH|x y l|l l' l'' H IH H' IH']; cbn [vsum foldr]; [done|by fold (vsum l) (vsum l'); rewrite IH| |by rewrite IH].
  fold (vsum l). rewrite !vadd_assoc. by rewrite (vadd_comm y x).
Qed.
Lemma vsum_replace {A} (f : A -> vec) l i x y : l !! i = Some x -> vadd (vsum (f <$> <[i := y]> l)) (f x) = vadd (vsum (f <$> l)) (f y).
Proof.
  revert i. induction l as [|z l IH]; intros i H; [done|]. destruct i as [|i]; cbn in H.
  - injection H as ->. cbn [insert list_insert fmap list_fmap vsum foldr]. rewrite <- !vadd_assoc. rewrite (vadd_comm (f y)), (vadd_comm (f x)), <- !vadd_assoc. by rewrite (vadd_comm (f x)).
  - change (<[S i := y]> (z :: l)) with (z :: <[i := y]> l). cbn [fmap list_fmap vsum foldr]. specialize (IH i H). rewrite <- !vadd_assoc. f_equal. exact IH.
Qed.
Lemma vsum_zero {A} (f : A -> vec) l : Forall (fun x => f x = vzero) l -> vsum (f <$> l) = vzero.
Proof. induction 1 as [|x l Hx H IH]; [done|]. cbn [fmap list_fmap vsum foldr]. rewrite Hx. rewrite vadd_0_l. exact IH. Qed.
Lemma vsum_omap {A} (g : A -> option vec) (l : list A) : vsum ((fun x => default vzero (g x)) <$> l) = vsum (omap g l).
Proof.
  induction l as [|x l IH]; [done|]. cbn [fmap list_fmap omap list_omap]. destruct (g x); cbn [default from_option vsum foldr]; [by f_equal|]. rewrite vadd_0_l. exact IH.
Qed.
Lemma omap_scale {A} q (g : A -> option vec) (l : list A) : omap (fun x => vscale q <$> g x) l = vscale q <$> omap g l.
Proof. induction l as [|x l IH]; [done|]. cbn [omap list_omap]. destruct (g x); cbn [fmap option_fmap option_map]; [|exact IH]. by rewrite IH. Qed.
Lemma vsum_parts q l : vsum (vscale q <$> l) = (q * sum ((fun c : vec => c.1.1) <$> l), q * sum ((fun c : vec => c.1.2) <$> l), q * sum ((fun c : vec => c.2) <$> l))%Qc.
Proof.
  induction l as [|[[a b] c] l IH].
  - cbn. f_equal; [f_equal|]; ring.
  - cbn [fmap list_fmap vsum foldr sum]. unfold vsum in IH. change (list_fmap vec vec (vscale q) l) with (vscale q <$> l). rewrite IH. cbn [vscale vadd fst snd]. unfold sum. f_equal; [f_equal|]; ring.
Qed.

(** * Conversions *)
Lemma trunc_floor q : (0 <= this q)%Q -> trunc q = Qfloor (this q).
Proof. unfold trunc. destruct (this q) as [n d]. unfold Qle, Qfloor. cbn [Qnum Qden]. intros H. apply Z.quot_div_nonneg; lia. Qed.
Lemma floor_range q z : (0 <= q)%Q -> (q < inject_Z z)%Q -> (0 <= Qfloor q < z)%Z.
Proof.
  intros H0 H1. split.
  - change 0%Z with (Qfloor 0). by apply Qfloor_resp_le.
  - rewrite Zlt_Qlt. eapply Qle_lt_trans; [apply Qfloor_le|exact H1].
Qed.
Lemma to_int_floor q z : (0 <= this q)%Q -> (this q < inject_Z z)%Q -> (z <= 2 ^ 31)%Z -> to_int q = Ok (Qfloor (this q)).
Proof. intros H0 H1 Hz. unfold to_int. rewrite trunc_floor by done. pose proof (floor_range _ _ H0 H1). rewrite decide_True; [done|]. lia. Qed.
Lemma this_plus a b : (this (a + b)%Qc == this a + this b)%Q.
Proof. unfold Qcplus. cbn [this Q2Qc]. apply Qred_correct. Qed.
Lemma sum_range l : Forall unit_range l -> (0 <= this (sum l))%Q /\ (this (sum l) <= inject_Z (Z.of_nat (length l)))%Q.
Proof.
  induction 1 as [|q l [H1 H2] H IH]; [by split|]. cbn [sum foldr length]. fold (sum l). rewrite this_plus. rewrite Nat2Z.inj_succ. unfold Z.succ. rewrite inject_Z_plus.
  unfold Qcle in H1, H2. change (this (Q2Qc 0)) with 0%Q in H1. change (this 1%Qc) with 1%Q in H2. change (inject_Z 1) with 1%Q. destruct IH as [I1 I2]. set (a := this q) in *. set (s := this (sum l)) in *. set (n := inject_Z (Z.of_nat (length l))) in *. clearbody a s n. clear - H1 H2 I1 I2. split; lra.
Qed.
Lemma mean_ok l : l <> [] -> Forall unit_range l -> to_byte (/ Q2Qc (inject_Z (Z.of_nat (length l))) * (Q2Qc 255 * sum l))%Qc = Ok (mean_byte l).
Proof.
  intros Hl H. destruct (sum_range l H) as [S1 S2]. unfold to_byte, mean_byte. set (n := Q2Qc (inject_Z (Z.of_nat (length l)))).
  replace (/ n * (Q2Qc 255 * sum l))%Qc with (Q2Qc 255 * sum l / n)%Qc by (unfold Qcdiv; ring).
  assert (N : (0 < inject_Z (Z.of_nat (length l)))%Q). { change 0%Q with (inject_Z 0). rewrite <- Zlt_Qlt. destruct l; [done|]. cbn. lia. }
  set (q := (Q2Qc 255 * sum l / n)%Qc). assert (E : (this q == 255 * this (sum l) / inject_Z (Z.of_nat (length l)))%Q).
  { unfold q, Qcdiv, Qcmult, Qcinv, n. cbn [this Q2Qc]. rewrite !Qred_correct. reflexivity. }
  assert (Hq : (0 <= this q)%Q /\ (this q < inject_Z 256)%Q).
  { rewrite E. set (s := this (sum l)) in *. set (m := inject_Z (Z.of_nat (length l))) in *. change (inject_Z 256) with (256#1)%Q. clearbody s m. clear - S1 S2 N. split.
    - apply Qle_shift_div_l; [exact N|]. lra.
    - apply Qlt_shift_div_r; [exact N|]. lra. }
  destruct Hq as [H0 H1]. rewrite trunc_floor by exact H0. pose proof (floor_range _ _ H0 H1). by rewrite decide_True.
Qed.

(** * The tasks *)
Section proofs.
Context {C P : Type}.
Notation recon := (recon feature C (P * bytes)).
Notation view := (view feature C).
Notation task := (task C).
Context (files : string -> option image) (ot : string -> order N).
Notation task_step := (task_step files ot).
Notation pool_step := (pool_step files ot).

Definition pixel (im : image) (f : feature) : vec := im_pixel im (Qfloor (this f.1)) (Qfloor (this f.2)).
(** What a task has still to add to the sum of a track. *)
Definition pend (t : N) (k : task) : vec :=
  match k with
  | Todo file v => default vzero (im ← files file; f ← v_feats v !! t; Some (vscale (Q2Qc 255) (pixel im f)))
  | Running im v more => if decide (t ∈ more) then default vzero (f ← v_feats v !! t; Some (vscale (Q2Qc 255) (pixel im f))) else vzero
  end.
Definition need (k : task) : nat := match k with Todo _ v => S (size (v_feats v)) | Running _ _ more => length more end.
Definition ok_task (ts : gset N) (k : task) : Prop :=
  match k with
  | Todo file v => (exists im, files file = Some im /\ good_image im (v_feats v)) /\ dom (v_feats v) ⊆ ts
  | Running im v more => good_image im (v_feats v) /\ dom (v_feats v) ⊆ ts /\ NoDup more /\ Forall (fun t => t ∈ dom (v_feats v)) more
  end.
Lemma task_step_ok ts colors k : ok_task ts k -> dom colors = ts ->
  exists colors' k', task_step colors k = Ok (colors', k') /\ ok_task ts k' /\ dom colors' = ts /\ need k' = pred (need k) /\
    forall t c, colors !! t = Some c -> exists c', colors' !! t = Some c' /\ vadd c' (pend t k') = vadd c (pend t k).
Proof.
  intros Hk Hd. destruct k as [file v|im v [|t more]].
  - destruct Hk as [(im & Ef & G) Hs]. cbn [Colorize_Model.task_step]. rewrite Ef. cbn [or_die mbind outcome_bind]. rewrite decide_True by (left; apply G).
    eexists _, _. split; [reflexivity|]. set (l := ot (v_name v) (elements (dom (v_feats v)))). assert (Pl : l ≡ₚ elements (dom (v_feats v))) by apply ord_perm.
    assert (Hin : forall t, t ∈ l <-> t ∈ dom (v_feats v)). { intros t. rewrite Pl. apply elem_of_elements. }
    split; [|split; [exact Hd|split]].
    + split; [exact G|]. split; [exact Hs|]. split; [rewrite Pl; apply NoDup_elements|]. apply Forall_forall. intros t. apply Hin.
    + cbn [need pred]. rewrite Pl. by rewrite <- size_dom.
    + intros t c Hc. exists c. split; [exact Hc|]. f_equal. cbn [pend]. rewrite Ef. cbn [mbind option_bind]. destruct (decide (t ∈ l)) as [K|K]; [done|]. rewrite Hin in K. apply not_elem_of_dom in K. by rewrite K.
  - eexists _, _. split; [reflexivity|]. split; [exact Hk|]. split; [exact Hd|]. split; [done|]. intros t c Hc. by exists c.
  - destruct Hk as (G & Hs & Hn & Hm). apply NoDup_cons in Hn as [Hnt Hn]. apply Forall_cons in Hm as [Ht Hm]. cbn [Colorize_Model.task_step]. pose proof (Hs _ Ht) as Htc. rewrite <- Hd in Htc.
    apply elem_of_dom in Ht as [f Ef]. apply elem_of_dom in Htc as [c Ec]. rewrite Ef. cbn [or_ub mbind outcome_bind]. destruct G as (Gc & Gw & Gh & Gr & Gf). destruct (Gf t f Ef) as (F1 & F2 & F3 & F4).
    rewrite (to_int_floor _ _ F1 F2 Gw). cbn [mbind outcome_bind]. rewrite (to_int_floor _ _ F3 F4 Gh). cbn [mbind outcome_bind]. rewrite Ec. cbn [or_ub mbind outcome_bind].
    unfold get_xy. rewrite decide_True by (split; by apply floor_range). rewrite decide_True by lia. cbn [mbind outcome_bind]. fold (pixel im f).
    eexists _, _. split; [reflexivity|]. split; [|split; [|split]].
    + split; [by split|]. by split.
    + rewrite dom_insert_L. apply set_eq. intros x. rewrite elem_of_union, elem_of_singleton. split; [intros [->|K]; [by apply Hs, elem_of_dom_2 with f|by rewrite <- Hd]|intros K; right; by rewrite Hd].
    + done.
    + intros t' c' Hc'. destruct (decide (t' = t)) as [->|Hne].
      * rewrite Hc' in Ec. injection Ec as ->. eexists. split; [apply lookup_insert|]. cbn [pend]. rewrite decide_False by done. rewrite decide_True by (by left). rewrite Ef. cbn [mbind option_bind default from_option]. by rewrite vadd_0_r.
      * exists c'. split; [by rewrite lookup_insert_ne|]. f_equal. cbn [pend]. destruct (decide (t' ∈ more)) as [K|K]; [by rewrite decide_True by (by right)|]. rewrite decide_False; [done|]. rewrite not_elem_of_cons. done.
Qed.
Definition outstanding (t : N) (ks : list task) : vec := vsum (pend t <$> ks).
Lemma pool_run_ok ts total sched colors ks : dom colors = ts -> Forall (ok_task ts) ks ->
  (forall t c, colors !! t = Some c -> vadd c (outstanding t ks) = total t) ->
  (forall i k, ks !! i = Some k -> (need k <= count_occ Nat.eq_dec sched i)%nat) ->
  exists colors' ks', run_steps pool_step (colors, ks) sched = Ok (colors', ks') /\ forallb finished ks' = true /\ dom colors' = ts /\
    forall t c, colors' !! t = Some c -> c = total t.
Proof.
  revert colors ks. induction sched as [|i sched IH]; intros colors ks Hd Hok Ht Hn.
  - exists colors, ks. split; [reflexivity|].
    assert (Z : Forall (fun k => need k = 0%nat) ks). { apply Forall_lookup. intros i k E. specialize (Hn i k E). cbn in Hn. lia. }
    split; [|split; [exact Hd|]].
    + apply forallb_forall. intros k Hk. apply elem_of_list_In in Hk. rewrite Forall_forall in Z. specialize (Z k Hk). destruct k as [? ?|? ? [|? ?]]; cbn in Z; [lia|done|lia].
    + intros t c Hc. rewrite <- (Ht t c Hc). unfold outstanding. rewrite vsum_zero; [by rewrite vadd_0_r|]. eapply Forall_impl; [exact Z|]. intros [? ?|? ? [|? ?]] K; cbn in K; [lia| |lia]. cbn [pend]. rewrite decide_False; [done|]. apply not_elem_of_nil.
  - cbn [run_steps]. unfold Colorize_Model.pool_step at 2. cbn [fst snd]. destruct (ks !! i) as [k|] eqn:Ek.
    + pose proof Hok as Hok'. rewrite Forall_lookup in Hok'. destruct (task_step_ok ts colors k (Hok' i k Ek) Hd) as (colors' & k' & E & Ok' & Hd' & Hneed & Hc). rewrite E. cbn [mbind outcome_bind].
      apply (IH colors' (<[i := k']> ks)); [exact Hd'|by apply Forall_insert| |].
      * intros t c' Hc'. assert (exists c, colors !! t = Some c) as [c Ec]. { apply elem_of_dom. rewrite Hd, <- Hd'. by eapply elem_of_dom_2. } destruct (Hc t c Ec) as (c'' & Ec'' & Ev). rewrite Hc' in Ec''. injection Ec'' as <-.
        rewrite <- (Ht t c Ec). unfold outstanding. pose proof (vsum_replace (pend t) ks i k k' Ek) as R. apply (vadd_cancel _ _ (pend t k)). rewrite <- !vadd_assoc, R. rewrite (vadd_comm _ (pend t k')), vadd_assoc, Ev, <- vadd_assoc. f_equal. apply vadd_comm.
      * intros j kj Ej. destruct (decide (j = i)) as [->|Hne].
        { rewrite list_lookup_insert in Ej by (by eapply lookup_lt_Some). injection Ej as <-. specialize (Hn i k Ek). cbn [count_occ] in Hn. destruct (Nat.eq_dec i i); [|done]. lia. }
        { rewrite list_lookup_insert_ne in Ej by done. specialize (Hn j kj Ej). cbn [count_occ] in Hn. destruct (Nat.eq_dec i j); [congruence|]. done. }
    + cbn [mbind outcome_bind]. apply (IH colors ks); try done. intros j kj Ej. specialize (Hn j kj Ej). cbn [count_occ] in Hn. destruct (Nat.eq_dec i j) as [->|]; [congruence|done].
Qed.

(** * The whole call *)
Lemma colors_init ids : dom (foldl (fun m t => <[t := vzero]> m) (∅ : gmap N vec) ids) = list_to_set ids /\
  forall t c, foldl (fun m t => <[t := vzero]> m) (∅ : gmap N vec) ids !! t = Some c -> c = vzero.
Proof.
  assert (G : forall m : gmap N vec, (forall t c, m !! t = Some c -> c = vzero) ->
    dom (foldl (fun m t => <[t := vzero]> m) m ids) = dom m ∪ list_to_set ids /\ forall t c, foldl (fun m t => <[t := vzero]> m) m ids !! t = Some c -> c = vzero).
  { induction ids as [|x ids IH]; intros m Hm; cbn [foldl list_to_set]; [split; [set_solver|done]|]. destruct (IH (<[x := vzero]> m)) as [I1 I2].
    - intros t c. destruct (decide (t = x)) as [->|]; [rewrite lookup_insert; by intros [= <-]|rewrite lookup_insert_ne by done; apply Hm].
    - split; [|exact I2]. rewrite I1, dom_insert_L. clear. set_solver. }
  destruct (G ∅) as [G1 G2]; [intros t c; by rewrite lookup_empty|]. split; [|exact G2]. rewrite G1, dom_empty_L. apply (left_id_L ∅ (∪)).
Qed.
Lemma new_tasks (r : recon) dir us ks : (forall u, u ∈ us -> exists v im, rc_views r !! u = Some v /\ files (dir ++ v_name v)%string = Some im) ->
  exists ks', run_steps (new_task files r dir) ks us = Ok (ks ++ ks') /\ Forall2 (fun u k => exists v, rc_views r !! u = Some v /\ k = Todo (dir ++ v_name v)%string v) us ks'.
Proof.
  revert ks. induction us as [|u us IH]; intros ks H.
  - exists []. rewrite app_nil_r. by split; [|constructor].
  - destruct (H u ltac:(by left)) as (v & im & Ev & Ef). cbn [run_steps]. unfold new_task at 2. rewrite Ev. cbn [or_ub mbind outcome_bind]. rewrite bool_decide_eq_true_2 by (by eexists). cbn [check mbind outcome_bind].
    destruct (IH (ks ++ [Todo (dir ++ v_name v)%string v])) as (ks' & E & F); [intros u' Hu'; apply H; by right|].
    exists (Todo (dir ++ v_name v)%string v :: ks'). rewrite E, <- app_assoc. split; [done|]. constructor; [by exists v|exact F].
Qed.
Lemma omap_perm {A B} (g : A -> option B) (l l' : list A) : NoDup l -> NoDup l' -> (forall x, is_Some (g x) -> x ∈ l <-> x ∈ l') -> omap g l ≡ₚ omap g l'.
Proof.
  intros Hl Hl' H. assert (E : forall l : list A, omap g l = omap g (filter (fun x => is_Some (g x)) l)).
  { clear. induction l as [|x l IH]; [done|]. cbn [omap list_omap]. destruct (g x) eqn:E; [rewrite filter_cons_True by (by rewrite E; eexists); cbn [omap list_omap]; by rewrite E, IH|]. rewrite filter_cons_False; [exact IH|]. rewrite E. by intros [? ?]. }
  rewrite (E l), (E l'). apply omap_Permutation. apply NoDup_Permutation; [by apply NoDup_filter..|]. intros x. rewrite !elem_of_list_filter. split; intros [Hg Hx]; (split; [done|]); by apply H.
Qed.
Lemma mean_steps colors (res : N -> bytes) ids (r : recon) : NoDup ids ->
  (forall t, t ∈ ids -> exists T, rc_tracks r !! t = Some T) ->
  (forall (r' : recon) t T, t ∈ ids -> rc_tracks r' !! t = Some T -> rc_tracks r !! t = Some T -> mean_step colors r' t = Ok (set_tracks r' (<[t := Track (t_est T) ((t_data T).1, res t) (t_views T)]> (rc_tracks r')))) ->
  exists m, run_steps (mean_step colors) r ids = Ok (set_tracks r m) /\
    forall t, m !! t = if decide (t ∈ ids) then (fun T => Track (t_est T) ((t_data T).1, res t) (t_views T)) <$> rc_tracks r !! t else rc_tracks r !! t.
Proof.
  intros Hn. revert r. induction ids as [|t ids IH]; intros r Hin Hstep.
  - exists (rc_tracks r). split; [by destruct r|]. intros t. by rewrite decide_False by apply not_elem_of_nil.
  - apply NoDup_cons in Hn as [Ht Hn]. destruct (Hin t ltac:(by left)) as [T ET]. cbn [run_steps]. rewrite (Hstep r t T) by (done || by left). cbn [mbind outcome_bind].
    set (r1 := set_tracks r (<[t := _]> (rc_tracks r))). assert (Other : forall t', t' <> t -> rc_tracks r1 !! t' = rc_tracks r !! t') by (intros t' Hne; unfold r1; cbn [set_tracks rc_tracks]; by rewrite lookup_insert_ne).
    destruct (IH Hn r1) as (m & E & Hm).
    + intros t' Ht'. rewrite Other by (intros ->; done). apply Hin. by right.
    + intros r' t' T' Ht' E1 E2. rewrite Other in E2 by (intros ->; done). apply Hstep; [by right|done..].
    + exists m. split; [rewrite E; by destruct r|]. intros t'. rewrite Hm. destruct (decide (t' = t)) as [->|Hne].
      * rewrite decide_False by done. rewrite decide_True by (by left). unfold r1. cbn [set_tracks rc_tracks]. by rewrite lookup_insert, ET.
      * rewrite Other by done. destruct (decide (t' ∈ ids)) as [K|K]; [by rewrite decide_True by (by right)|]. rewrite decide_False; [done|]. rewrite not_elem_of_cons. done.
Qed.
End proofs.
