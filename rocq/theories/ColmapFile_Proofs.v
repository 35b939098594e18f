(** Proofs about COLMAP files. *)
From stdpp Require Import gmap strings.
From Verif Require Import Base Reconstruction_Model Reconstruction_Spec Reconstruction_Proofs Reconstruction_Lemmas SfmQueries_Spec
  ReconstructionBuilder_Model ReconstructionBuilder_Spec ReconstructionBuilder_Proofs ColmapFile_Model ColmapFile_Spec.

Lemma run_append {X Y} (R : X -> Y -> Prop) (step : list Y -> X -> outcome (list Y)) xs :
  (forall x, x ∈ xs -> exists y, R x y /\ forall l, step l x = Ok (l ++ [y])) -> exists ys, Forall2 R xs ys /\ forall l, run_steps step l xs = Ok (l ++ ys).
Proof.
  induction xs as [|x xs IH]; intros H. { exists []. split; [constructor|]. intros l. cbn. by rewrite app_nil_r. }
  destruct (H x ltac:(by left)) as (y & Hy & Hs). destruct IH as (ys & Hys & Hr); [intros z Hz; apply H; by right|].
  exists (y :: ys). split; [by constructor|]. intros l. cbn [run_steps]. rewrite Hs. cbn [mbind outcome_bind]. rewrite Hr. by rewrite <- app_assoc.
Qed.
Lemma Forall2_in_l {X Y} (R : X -> Y -> Prop) xs ys x : Forall2 R xs ys -> x ∈ xs -> exists y, y ∈ ys /\ R x y.
Proof. intros H (i & Hi)%elem_of_list_lookup. destruct (Forall2_lookup_l _ _ _ _ _ H Hi) as (y & Hy & K). exists y. split; [by eapply elem_of_list_lookup_2|done]. Qed.
Lemma Forall2_in_r {X Y} (R : X -> Y -> Prop) xs ys y : Forall2 R xs ys -> y ∈ ys -> exists x, x ∈ xs /\ R x y.
Proof. intros H (i & Hi)%elem_of_list_lookup. destruct (Forall2_lookup_r _ _ _ _ _ H Hi) as (x & Hx & K). exists x. split; [by eapply elem_of_list_lookup_2|done]. Qed.
Lemma Forall2_keys {X Y} (R : X -> Y -> Prop) (key : Y -> X) xs ys : (forall x y, R x y -> key y = x) -> Forall2 R xs ys -> key <$> ys = xs.
Proof. intros Hk. induction 1 as [|x y xs ys H _ IH]; [done|]. rewrite fmap_cons, IH. f_equal. by apply Hk. Qed.
Lemma Forall2_keys_nodup {X Y} (R : X -> Y -> Prop) (key : Y -> X) xs ys : (forall x y, R x y -> key y = x) -> NoDup xs -> Forall2 R xs ys -> NoDup (key <$> ys).
Proof. intros Hk Hd H. by rewrite (Forall2_keys R key xs ys). Qed.

Lemma find_index_lookup t l : t ∈ l -> l !! find_index t l = Some t.
Proof.
  induction l as [|x l IH]; [by intros ?%elem_of_nil|]. intros H. cbn [find_index]. destruct (decide (x = t)) as [->|Hne]; [done|].
  cbn. apply IH. by apply elem_of_cons in H as [->|H].
Qed.

Section proofs.
Context {F C D : Type}.
Notation recon := (recon F C D).
Context {W P T S A K : Type} (dims : C -> W) (pose : C -> P) (point : D -> T)
  (intr : N -> S) (pinhole : S -> bool) (linear : S -> A) (k1 k2 : S -> K).
Implicit Types r e : recon.

(** *** What holds of the estimated part *)
Lemma ok_consistent e : ok e -> consistent e.
Proof.
  intros (a & R & W0) u t. change (exists v, rc_views e !! u = Some v /\ is_Some (v_feats v !! t)) with (sees e u t). rewrite (sees_obs e a u t R W0). split.
  - intros (tr & Ht & Hu). destruct (rel_track_Some e a t tr R Ht) as (at_ & _ & _ & _ & H3). by apply H3.
  - intros H. destruct (wf_obs a W0 u t H) as [_ [at_ Ha]]. destruct (rel_track_Some' e a t at_ R Ha) as (tr & Ht & _ & _ & H3). exists tr. split; [done|]. by apply H3.
Qed.
Lemma ok_group e u v : ok e -> rc_views e !! u = Some v -> exists g X, rc_view_group e !! u = Some g /\ rc_groups e !! g = Some X /\ u ∈ X.
Proof.
  intros (a & R & W0) Hv. destruct (rel_view_Some e a u v R Hv) as (av & Ha & _). exists (a_group av). pose proof (proj2 (rel_groups e a R (a_group av) u) (ex_intro _ av (conj Ha eq_refl))) as Hin.
  unfold lookup_total, map_lookup_total in Hin. destruct (rc_groups e !! a_group av) as [X|] eqn:E; cbn in Hin; [|by apply elem_of_empty in Hin].
  exists X. split; [|done]. by rewrite (rel_vgroup e a R), Ha.
Qed.
Lemma ok_members e g X : ok e -> rc_groups e !! g = Some X -> X <> ∅ /\ forall u, u ∈ X <-> exists v, rc_views e !! u = Some v /\ rc_view_group e !! u = Some g.
Proof.
  intros (a & R & W0) Hg. split; [by eapply (rel_groups_ne e a R)|]. intros u. pose proof (rel_groups e a R g u) as H. rewrite (lookup_total_correct _ _ _ Hg) in H. rewrite H. split.
  - intros (av & Ha & Hgr). destruct (rel_view_Some' e a u av R Ha) as (v & Hv & _). exists v. split; [done|]. rewrite (rel_vgroup e a R), Ha. cbn. by rewrite Hgr.
  - intros (v & Hv & K1). destruct (rel_view_Some e a u v R Hv) as (av & Ha & _). exists av. split; [done|]. rewrite (rel_vgroup e a R), Ha in K1. by injection K1.
Qed.
Lemma ok_share e u u' v v' g : ok e -> rc_views e !! u = Some v -> rc_views e !! u' = Some v' -> rc_view_group e !! u = Some g -> rc_view_group e !! u' = Some g -> v_intr v = v_intr v'.
Proof.
  intros (a & R & W0) Hv Hv' Hg Hg'. destruct (rel_view_Some e a u v R Hv) as (av & Ha & _ & _ & I1 & _). destruct (rel_view_Some e a u' v' R Hv') as (av' & Ha' & _ & _ & I2 & _).
  rewrite (rel_vgroup e a R), Ha in Hg. rewrite (rel_vgroup e a R), Ha' in Hg'. cbn in Hg, Hg'. rewrite I1, I2. apply (wf_share a W0 u u' av av' Ha Ha'). congruence.
Qed.

Definition flist (ov : N -> order N) (u : N) (v : view F C) : list N := ov u (elements (dom (v_feats v))).
Lemma flist_nodup ov u v : NoDup (flist ov u v).
Proof. unfold flist. rewrite (ord_perm (ov u)). apply NoDup_elements. Qed.
Lemma flist_in ov u v t : t ∈ flist ov u v <-> is_Some (v_feats v !! t).
Proof. unfold flist. by rewrite (ord_perm (ov u)), elem_of_elements, elem_of_dom. Qed.

(** *** The three files of the estimated part *)
Definition image_of ov e (u : N) (i : image_lines) : Prop :=
  exists v g obs, rc_views e !! u = Some v /\ rc_view_group e !! u = Some g /\ i = (u, pose (v_data v), g, v_name v, obs) /\
    Forall2 (fun t o => o.2 = t /\ v_feats v !! t = Some o.1) (flist ov u v) obs.
Lemma images_ok (o : order N) ov e : ok e -> exists is, images_file pose o ov e = Ok is /\ Forall2 (image_of ov e) (o (elements (dom (rc_views e)))) is.
Proof.
  intros He. unfold images_file. destruct (run_append (image_of ov e) (colmap_image pose ov e) (o (elements (dom (rc_views e))))) as (is & H & Hr); [|exists is; split; [by rewrite Hr|done]].
  intros u Hu. rewrite (ord_perm o), elem_of_elements, elem_of_dom in Hu. destruct Hu as [v Hv]. destruct (ok_group e u v He Hv) as (g & X & Hg & _).
  destruct (run_append (fun t o => o.2 = t /\ v_feats v !! t = Some o.1) (colmap_feature v) (flist ov u v)) as (obs & Ho & Hobs).
  { intros t Ht. apply flist_in in Ht as [f Hf]. exists (f, t). split; [done|]. intros l. unfold colmap_feature. by rewrite Hf. }
  exists (u, pose (v_data v), g, v_name v, obs). split; [by exists v, g, obs|]. intros l. unfold colmap_image. rewrite Hv. cbn [or_ub mbind outcome_bind]. fold (flist ov u v). rewrite Hobs. cbn [mbind outcome_bind app]. by rewrite Hg.
Qed.

Definition point_of ov ot e (t : N) (p : point_line) : Prop :=
  exists tr obs, rc_tracks e !! t = Some tr /\ p = (t, point (t_data tr), obs) /\
    Forall2 (fun u x => exists v, rc_views e !! u = Some v /\ x = (u, find_index t (flist ov u v))) ((ot : N -> order N) t (elements (t_views tr))) obs.
Lemma points_ok (o : order N) ov ot e : ok e -> exists ps, points_file point o ov ot e = Ok ps /\ Forall2 (point_of ov ot e) (o (elements (dom (rc_tracks e)))) ps.
Proof.
  intros He. unfold points_file. destruct (run_append (point_of ov ot e) (colmap_point point ov ot e) (o (elements (dom (rc_tracks e))))) as (ps & H & Hr); [|exists ps; split; [by rewrite Hr|done]].
  intros t Ht. rewrite (ord_perm o), elem_of_elements, elem_of_dom in Ht. destruct Ht as [tr Htr].
  destruct (run_append (fun u x => exists v, rc_views e !! u = Some v /\ x = (u, find_index t (flist ov u v))) (colmap_observation ov e t) (ot t (elements (t_views tr)))) as (obs & Ho & Hobs).
  { intros u Hu. rewrite (ord_perm (ot t)), elem_of_elements in Hu. destruct (proj1 (ok_consistent e He u t)) as (v & Hv & _); [by exists tr|].
    exists (u, find_index t (flist ov u v)). split; [by exists v|]. intros l. unfold colmap_observation. by rewrite Hv. }
  exists (t, point (t_data tr), obs). split; [by exists tr, obs|]. intros l. unfold colmap_point. rewrite Htr. cbn [or_ub mbind outcome_bind]. rewrite Hobs. done.
Qed.

Definition camera_of e (g : N) (c : camera_line) : Prop :=
  exists u v, rc_views e !! u = Some v /\ rc_view_group e !! u = Some g /\ c = (g, dims (v_data v), linear (intr (v_intr v)), k1 (intr (v_intr v)), k1 (intr (v_intr v))).
Notation camera_step := (colmap_camera dims intr pinhole linear k1).
Lemma camera_stop og e gs : forall l, run_steps (camera_step og e) (l, false) gs = Ok (l, false).
Proof. induction gs as [|g gs IH]; intros l; [done|]. cbn [run_steps]. assert (Hs : camera_step og e (l, false) g = Ok (l, false)) by done. rewrite Hs. cbn [mbind outcome_bind]. apply IH. Qed.
Lemma camera_first og e g : ok e -> is_Some (rc_groups e !! g) -> exists u v, rc_views e !! u = Some v /\ rc_view_group e !! u = Some g /\
  forall l, camera_step og e (l, true) g = if pinhole (intr (v_intr v)) then Ok (l ++ [(g, dims (v_data v), linear (intr (v_intr v)), k1 (intr (v_intr v)), k1 (intr (v_intr v)))], true) else Ok (l, false).
Proof.
  intros He [X HX]. destruct (ok_members e g X He HX) as [Hne Hin]. destruct (og g (elements X)) as [|u xs] eqn:E.
  { exfalso. apply Hne, leibniz_equiv, elements_empty_inv. pose proof (ord_perm (og g) (elements X)) as Hp. rewrite E in Hp. by apply Permutation_nil in Hp. }
  assert (Hu : u ∈ X). { apply elem_of_elements. rewrite <- (ord_perm (og g)), E. by left. } apply Hin in Hu as (v & Hv & Hg). exists u, v. do 2 (split; [done|]).
  intros l. unfold colmap_camera. cbn [negb]. rewrite HX. cbn [or_die mbind outcome_bind]. rewrite E. cbn [head or_ub mbind outcome_bind]. rewrite Hv. cbn [or_ub mbind outcome_bind]. by destruct (pinhole _).
Qed.
Lemma cameras_ok (o : order N) og e : ok e -> (forall u v, rc_views e !! u = Some v -> pinhole (intr (v_intr v)) = true) ->
  exists cs, cameras_file dims intr pinhole linear k1 o og e = Ok (cs, true) /\ Forall2 (camera_of e) (o (elements (dom (rc_groups e)))) cs.
Proof.
  intros He Hp. unfold cameras_file. assert (Hgs : forall g, g ∈ o (elements (dom (rc_groups e))) -> is_Some (rc_groups e !! g)) by (intros g; by rewrite (ord_perm o), elem_of_elements, elem_of_dom).
  set (gs := o (elements (dom (rc_groups e)))) in *. clearbody gs.
  assert (G : exists cs, Forall2 (camera_of e) gs cs /\ forall l, run_steps (camera_step og e) (l, true) gs = Ok (l ++ cs, true)).
  { induction gs as [|g gs IH]; [exists []; split; [constructor|]; intros l; cbn; by rewrite app_nil_r|]. destruct IH as (cs & Hcs & Hr); [intros x Hx; apply Hgs; by right|].
    destruct (camera_first og e g He (Hgs g ltac:(by left))) as (u & v & Hv & Hg & Hs). rewrite (Hp u v Hv) in Hs. eexists (_ :: cs). split; [constructor; [by exists u, v|done]|].
    intros l. cbn [run_steps]. rewrite Hs. cbn [mbind outcome_bind]. rewrite Hr. by rewrite <- app_assoc. }
  destruct G as (cs & Hcs & Hr). exists cs. split; [by rewrite Hr|done].
Qed.
Lemma cameras_not (o : order N) og e u v : ok e -> rc_views e !! u = Some v -> pinhole (intr (v_intr v)) = false ->
  exists cs, cameras_file dims intr pinhole linear k1 o og e = Ok (cs, false).
Proof.
  intros He Hv Hp. destruct (ok_group e u v He Hv) as (g & X & Hg & HX & _). unfold cameras_file.
  assert (Hgs : forall x, x ∈ o (elements (dom (rc_groups e))) <-> is_Some (rc_groups e !! x)) by (intros x; by rewrite (ord_perm o), elem_of_elements, elem_of_dom).
  assert (Hin : g ∈ o (elements (dom (rc_groups e)))) by (apply Hgs; by exists X). assert (Hall : forall x, x ∈ o (elements (dom (rc_groups e))) -> is_Some (rc_groups e !! x)) by (intros x; apply Hgs). clear Hgs.
  generalize (@nil (camera_line (W:=W) (A:=A) (K:=K))). induction (o (elements (dom (rc_groups e)))) as [|x gs IH]; [by apply elem_of_nil in Hin|]. intros l. cbn [run_steps].
  destruct (camera_first og e x He (Hall x ltac:(by left))) as (w & y & Hy & Hgx & Hs). rewrite Hs. destruct (pinhole (intr (v_intr y))) eqn:Ey; cbn [mbind outcome_bind].
  - apply IH; [|intros z Hz; apply Hall; by right]. apply elem_of_cons in Hin as [->|Hin]; [|done]. exfalso. rewrite (ok_share e u w v y x He Hv Hy Hg Hgx) in Hp. congruence.
  - exists l. apply camera_stop.
Qed.

(** *** In terms of the whole reconstruction *)
Lemma part_view r e u v' : part r (est_view r) (est_track r) e -> rc_views e !! u = Some v' -> exists v, rc_views r !! u = Some v /\ v_est v = true /\ v_name v' = v_name v /\ v_intr v' = v_intr v /\ v_data v' = v_data v /\
  forall t f, v_feats v' !! t = Some f <-> v_feats v !! t = Some f /\ est_track r t.
Proof.
  intros (P1 & P2 & _) Hv'. destruct (proj1 (P1 u) (mk_is_Some _ _ Hv')) as [_ (v & Hv & He)]. destruct (P2 u v v' Hv Hv') as (K1 & _ & K3 & K4 & K5). by exists v.
Qed.
Lemma part_view' r e u v : part r (est_view r) (est_track r) e -> rc_views r !! u = Some v -> v_est v = true -> exists v', rc_views e !! u = Some v' /\ v_intr v' = v_intr v.
Proof.
  intros (P1 & P2 & _) Hv He. destruct (proj2 (P1 u)) as [v' Hv']; [split; [by exists v|by exists v]|]. exists v'. split; [done|]. by destruct (P2 u v v' Hv Hv') as (_ & _ & K3 & _).
Qed.
Lemma part_group r e u g : part r (est_view r) (est_track r) e -> rc_view_group e !! u = Some g <-> rc_view_group r !! u = Some g /\ est_view r u.
Proof. intros (_ & _ & _ & _ & _ & P6). apply P6. Qed.

Lemma images_shown_ok (o : order N) ov r e is : ok e -> part r (est_view r) (est_track r) e -> Forall2 (image_of ov e) (o (elements (dom (rc_views e)))) is -> images_shown pose r is.
Proof.
  intros He Hp H. split; [|split].
  - apply (Forall2_keys_nodup (image_of ov e) (fun i => i.1.1.1.1) (o (elements (dom (rc_views e)))) is); [by intros x y (v & g & obs & _ & _ & -> & _)|rewrite (ord_perm o); apply NoDup_elements|done].
  - intros u (v & Hv & Ev). destruct (part_view' r e u v Hp Hv Ev) as (v' & Hv' & _).
    destruct (Forall2_in_l _ _ _ u H) as (i & Hi & (v2 & g & obs & _ & _ & -> & _)); [|by eexists _, _, _, _]. rewrite (ord_perm o), elem_of_elements, elem_of_dom. by exists v'.
  - intros u p g n obs Hi. destruct (Forall2_in_r _ _ _ _ H Hi) as (x & _ & (v' & g' & obs' & Hv' & Hg & Eq & Ho)). injection Eq as -> -> -> -> ->.
    destruct (part_view r e x v' Hp Hv') as (v & Hv & Ev & En & Ei & Ed & Ef). exists v. split; [done|]. split; [done|]. split; [by rewrite Ed|]. split; [by apply (part_group r e x g' Hp) in Hg as [? _]|]. split; [done|].
    split.
    + eapply (Forall2_keys_nodup _ snd); [|apply (flist_nodup ov x v')|exact Ho]. by intros ? ? [? _].
    + intros f t. rewrite <- Ef. split.
      * intros K0. destruct (Forall2_in_r _ _ _ _ Ho K0) as (t' & _ & <- & K2). done.
      * intros K0. destruct (Forall2_in_l _ _ _ t Ho) as ([f' t'] & K1 & K2 & K3); [by apply flist_in; exists f|]. cbn [fst snd] in K2, K3. subst t'. by replace f with f' by congruence.
Qed.

Lemma cameras_shown_ok (o : order N) r e cs : ok e -> part r (est_view r) (est_track r) e -> Forall2 (camera_of e) (o (elements (dom (rc_groups e)))) cs -> cameras_shown dims intr linear k1 k1 r cs.
Proof.
  intros He Hp H. split; [|split].
  - apply (Forall2_keys_nodup (camera_of e) (fun c => c.1.1.1.1) (o (elements (dom (rc_groups e)))) cs); [by intros x y (u & v & _ & _ & ->)|rewrite (ord_perm o); apply NoDup_elements|done].
  - intros u g Hu Hg. pose proof Hu as (v & Hv & Ev). destruct (part_view' r e u v Hp Hv Ev) as (v' & Hv' & _). destruct (ok_group e u v' He Hv') as (g' & X & Hg' & HX & _).
    assert (g' = g) as -> by (apply (part_group r e u g' Hp) in Hg' as [? _]; congruence).
    destruct (Forall2_in_l _ _ _ g H) as (c & Hc & (w & y & _ & _ & ->)); [|by eexists _, _, _, _]. rewrite (ord_perm o), elem_of_elements, elem_of_dom. by exists X.
  - intros g w a x y Hc. destruct (Forall2_in_r _ _ _ _ H Hc) as (g' & _ & (u & v' & Hv' & Hg & Eq)). injection Eq as -> -> -> -> ->. split.
    + destruct (part_view r e u v' Hp Hv') as (v & Hv & Ev & _ & _ & Ed & _). exists u, v. split; [done|]. split; [done|]. split; [by apply (part_group r e u g' Hp) in Hg as [? _]|]. by rewrite Ed.
    + intros u2 v2 Hv2 Ev2 Hg2. destruct (part_view' r e u2 v2 Hp Hv2 Ev2) as (y2 & Hy2 & Ei). assert (Hg2' : rc_view_group e !! u2 = Some g') by (apply (part_group r e u2 g' Hp); split; [done|by exists v2]).
      rewrite <- Ei. by rewrite (ok_share e u2 u y2 v' g' He Hy2 Hv' Hg2' Hg).
Qed.

Lemma points_shown_ok (o : order N) ov ot r e is ps : ok e -> part r (est_view r) (est_track r) e -> Forall2 (image_of ov e) (o (elements (dom (rc_views e)))) is ->
  Forall2 (point_of ov ot e) (o (elements (dom (rc_tracks e)))) ps -> points_shown point r is ps.
Proof.
  intros He Hp Hi H. pose proof Hp as (_ & _ & P3 & P4 & _). pose proof (ok_consistent e He) as Hc. split; [|split].
  - apply (Forall2_keys_nodup (point_of ov ot e) (fun c => c.1.1) (o (elements (dom (rc_tracks e)))) ps); [by intros x y (u & v & _ & -> & _)|rewrite (ord_perm o); apply NoDup_elements|done].
  - intros t Ht Hs. destruct (Forall2_in_l _ _ _ t H) as (c & Hc' & (w & y & _ & -> & _)); [|by eexists _, _]. rewrite (ord_perm o), elem_of_elements, elem_of_dom. apply P3. split; [|done]. destruct Ht as (tr & Htr & _). by exists tr.
  - intros t p obs Hx. destruct (Forall2_in_r _ _ _ _ H Hx) as (t' & _ & (tr' & obs' & Htr' & Eq & Ho)). injection Eq as -> -> ->. destruct (proj1 (P3 t') (mk_is_Some _ _ Htr')) as ([tr Htr] & Et & _).
    split; [done|]. split; [exists tr; split; [done|]; by destruct (P4 t' tr tr' Htr Htr') as (_ & -> & _)|].
    assert (Hkeys : obs'.*1 = ot t' (elements (t_views tr'))) by (eapply (Forall2_keys _ fst); [|exact Ho]; by intros ? ? (? & _ & ->)). split.
    + apply (NoDup_fmap_1 fst). rewrite Hkeys, (ord_perm (ot t')). apply NoDup_elements.
    + intros u k. split.
      * intros K0. destruct (Forall2_in_r _ _ _ _ Ho K0) as (u' & Hu' & (v & Hv & Eq)). injection Eq as -> ->. rewrite (ord_perm (ot t')), elem_of_elements in Hu'.
        destruct (proj1 (Hc u' t')) as (v2 & Hv2 & Hf); [by exists tr'|]. assert (v2 = v) as -> by congruence.
        destruct (Forall2_in_l _ _ _ u' Hi) as (i & Hi' & (v3 & g & fs & Hv3 & Hg & -> & Hfs)); [rewrite (ord_perm o), elem_of_elements, elem_of_dom; by exists v|]. assert (v3 = v) as -> by congruence.
        destruct (Forall2_lookup_l _ _ _ _ _ Hfs (find_index_lookup t' (flist ov u' v) (proj2 (flist_in ov u' v t') Hf))) as ([f t2] & Hk & K1 & K2). cbn [fst snd] in K1. subst t2.
        eexists _, _, _, _, f. split; [exact Hi'|done].
      * intros (q & g & n & fs & f & Hi' & Hk). destruct (Forall2_in_r _ _ _ _ Hi Hi') as (u' & _ & (v & g' & fs' & Hv & Hg & Eq & Hfs)). injection Eq as -> -> -> -> ->.
        destruct (Forall2_lookup_r _ _ _ _ _ Hfs Hk) as (t2 & Hl & K1 & K2). cbn [fst snd] in K1, K2. subst t2.
        destruct (proj2 (Hc u' t')) as (tr2 & Htr2 & Hu'); [exists v; split; [done|by exists f]|]. assert (tr2 = tr') as -> by congruence.
        destruct (Forall2_in_l _ _ _ u' Ho) as (x & Hx' & (v2 & Hv2 & ->)); [by rewrite (ord_perm (ot t')), elem_of_elements|]. assert (v2 = v) as -> by congruence.
        assert (find_index t' (flist ov u' v) = k) as <-; [|done]. apply (NoDup_lookup _ _ _ t' (flist_nodup ov u' v)); [|done]. apply find_index_lookup. by eapply elem_of_list_lookup_2.
Qed.
End proofs.
