(** C158: NVM files. *)
From stdpp Require Import gmap strings pretty.
From Verif Require Import Base Reconstruction_Model SfmQueries_Spec SfmQueries_Props NvmFile_Model NvmFile_Spec.

Section props.
Context {F C D V T X : Type}.
Notation recon := (recon F C D).
Context (pinhole : view F C -> bool) (camera : view F C -> V) (point : D -> T) (centered : view F C -> F -> X).
Implicit Types r : recon.

Lemma number_features_other u ts : forall k m x t, x <> u \/ t ∉ ts -> number_features u k m ts !! (x, t) = m !! (x, t).
Proof.
  induction ts as [|y ts IH]; intros k m x t H; cbn [number_features]; [done|]. rewrite IH.
  - rewrite lookup_insert_ne; [done|]. intros [= K1 K2]. destruct H as [H|H]; [done|]. apply H. subst. by left.
  - destruct H as [H|H]; [by left|right]. intros K. apply H. by right.
Qed.
Lemma number_features_this u ts : forall k m j t, NoDup ts -> ts !! j = Some t -> number_features u k m ts !! (u, t) = Some (k + j)%nat.
Proof.
  induction ts as [|y ts IH]; intros k m j t Hd Hj; cbn [number_features]; [done|]. apply NoDup_cons in Hd as [Ny Hd]. destruct j as [|j].
  - injection Hj as ->. rewrite number_features_other by (by right). rewrite lookup_insert. f_equal. lia.
  - cbn in Hj. rewrite (IH _ _ j t Hd Hj). f_equal. lia.
Qed.

Definition feature_list (ov : N -> order N) r (u : N) : list N := match rc_views r !! u with Some v => ov u (elements (dom (v_feats v))) | None => [] end.
Lemma feature_list_ok ov r u v : rc_views r !! u = Some v -> NoDup (feature_list ov r u) /\ forall t, t ∈ feature_list ov r u <-> is_Some (v_feats v !! t).
Proof. intros Hv. unfold feature_list. rewrite Hv. split; [rewrite (ord_perm (ov u)); apply NoDup_elements|]. intros t. by rewrite (ord_perm (ov u)), elem_of_elements, elem_of_dom. Qed.

(** The loop over the views. *)
Lemma views_loop ov r us : forall pre cams idx feats, (forall u, u ∈ us -> exists v, rc_views r !! u = Some v /\ pinhole v = true) -> NoDup (pre ++ us) ->
  (size idx = length pre) -> (forall u i, pre !! i = Some u -> idx !! u = Some i) -> dom idx = list_to_set pre ->
  (forall u k t, u ∈ pre -> feature_list ov r u !! k = Some t -> feats !! (u, t) = Some k) ->
  Forall2 (fun u c => exists v, rc_views r !! u = Some v /\ c = (v_name v, camera v)) pre cams ->
  exists cams' idx' feats', run_steps (nvm_view pinhole camera ov r) (cams, idx, feats) us = Ok (cams', idx', feats') /\
    (forall u i, (pre ++ us) !! i = Some u -> idx' !! u = Some i) /\
    (forall u k t, u ∈ pre ++ us -> feature_list ov r u !! k = Some t -> feats' !! (u, t) = Some k) /\
    Forall2 (fun u c => exists v, rc_views r !! u = Some v /\ c = (v_name v, camera v)) (pre ++ us) cams'.
Proof.
  induction us as [|u us IH]; intros pre cams idx feats Hus Hd Hsz Hidx Hdom Hfe Hc.
  { rewrite app_nil_r. exists cams, idx, feats. done. }
  destruct (Hus u ltac:(by left)) as (v & Hv & Hp). cbn [run_steps].
  assert (Hs : nvm_view pinhole camera ov r (cams, idx, feats) u = Ok (cams ++ [(v_name v, camera v)], <[u := size idx]> idx, number_features u 0 feats (ov u (elements (dom (v_feats v)))))).
  { unfold nvm_view. rewrite Hv. cbn [or_ub mbind outcome_bind]. by rewrite Hp. }
  rewrite Hs. clear Hs. cbn [mbind outcome_bind].
  assert (Nu : u ∉ pre). { apply NoDup_app in Hd as (_ & Hd & _). intros K. apply (Hd u K). by left. }
  assert (Ni : idx !! u = None). { apply not_elem_of_dom. rewrite Hdom. by rewrite elem_of_list_to_set. }
  assert (Hlist : ov u (elements (dom (v_feats v))) = feature_list ov r u) by (unfold feature_list; by rewrite Hv). rewrite Hlist. destruct (feature_list_ok ov r u v Hv) as [Dl _].
  replace (pre ++ u :: us) with ((pre ++ [u]) ++ us) in * by (by rewrite <- app_assoc).
  apply IH; [intros x Hx; apply Hus; by right|done| | | | |].
  - rewrite map_size_insert_None by done. rewrite app_length, Hsz. cbn. lia.
  - intros x i Hi. apply lookup_app_Some in Hi as [Hi|[Hle Hi]].
    + rewrite lookup_insert_ne; [by apply Hidx|]. intros ->. apply Nu. by eapply elem_of_list_lookup_2.
    + destruct (i - length pre)%nat as [|n] eqn:En; [|done]. injection Hi as <-. rewrite lookup_insert, Hsz. f_equal. lia.
  - rewrite dom_insert_L, Hdom, list_to_set_app_L. cbn. set_solver.
  - intros x k t [Hx|Hx]%elem_of_app Hk.
    + rewrite number_features_other by (left; intros ->; done). by apply Hfe.
    + apply elem_of_list_singleton in Hx as ->. by apply (number_features_this u _ 0 feats k t).
  - apply Forall2_app; [done|]. constructor; [by exists v|constructor].
Qed.

(** The observations of a track. *)
Lemma observations_loop ov r idx feats us t xs : (forall u i, us !! i = Some u -> idx !! u = Some i) ->
  (forall u k t, u ∈ us -> feature_list ov r u !! k = Some t -> feats !! (u, t) = Some k) -> (forall u, is_Some (rc_views r !! u) -> u ∈ us) ->
  (forall u, u ∈ xs -> sees r u t) -> NoDup us -> NoDup xs -> forall l,
  exists l', run_steps (nvm_observation centered r idx feats t) l xs = Ok (l ++ l') /\ length l' = length xs /\
    (forall i k x, (i, k, x) ∈ l' <-> exists u v f, u ∈ xs /\ us !! i = Some u /\ rc_views r !! u = Some v /\ feature_list ov r u !! k = Some t /\ v_feats v !! t = Some f /\ x = centered v f) /\
    NoDup (fst <$> l').
Proof.
  intros Hidx Hfe Hall. induction xs as [|u xs IH]; intros Hxs Dus Dxs l.
  { exists []. split; [cbn; by rewrite app_nil_r|]. split; [done|]. split; [|constructor]. intros i k x. split; [intros K; by apply elem_of_nil in K|]. intros (u & _ & _ & K & _). by apply elem_of_nil in K. }
  apply NoDup_cons in Dxs as [Nu Dxs]. destruct (Hxs u ltac:(by left)) as (v & Hv & [f Hf]). destruct (feature_list_ok ov r u v Hv) as [Dl Hl].
  assert (Hk : exists k, feature_list ov r u !! k = Some t) by (apply elem_of_list_lookup, Hl; by exists f). destruct Hk as [k Hk].
  assert (Hi : exists i, us !! i = Some u) by (apply elem_of_list_lookup, Hall; by exists v). destruct Hi as [i Hi].
  cbn [run_steps]. assert (Hs : nvm_observation centered r idx feats t l u = Ok (l ++ [(i, k, centered v f)])).
  { unfold nvm_observation. rewrite Hv. cbn [or_ub mbind outcome_bind]. rewrite Hf. cbn [or_ub mbind outcome_bind]. rewrite (Hfe u k t); [|by eapply elem_of_list_lookup_2|done]. cbn [or_die mbind outcome_bind]. by rewrite (Hidx u i Hi). }
  rewrite Hs. clear Hs. cbn [mbind outcome_bind]. destruct (IH ltac:(intros x Hx; apply Hxs; by right) Dus Dxs (l ++ [(i, k, centered v f)])) as (l' & -> & L & Hin & Hnd).
  exists ((i, k, centered v f) :: l'). split; [by rewrite <- app_assoc|]. split; [cbn; by rewrite L|]. split.
  - intros i' k' x. rewrite elem_of_cons, Hin. split.
    + intros [[= -> -> ->]|(w & v' & f' & Hw & K)]; [exists u, v, f; split; [by left|done]|]. exists w, v', f'. split; [by right|done].
    + intros (w & v' & f' & Hw & K1 & K2 & K3 & K4 & ->). apply elem_of_cons in Hw as [->|Hw]; [left|right; exists w, v', f'; done]. rewrite Hv in K2. injection K2 as <-. rewrite Hf in K4. injection K4 as <-.
      assert (i' = i) as -> by exact (NoDup_lookup us i' i u Dus K1 Hi). assert (k' = k) as -> by exact (NoDup_lookup _ k' k t Dl K3 Hk). done.
  - rewrite fmap_cons. apply NoDup_cons. split; [|done]. cbn [fst]. intros K. apply elem_of_list_fmap in K as ([[i' k'] x] & Eq & K). cbn [fst] in Eq. injection Eq as <- <-. apply Hin in K as (w & _ & _ & Hw & K & _). rewrite Hi in K. injection K as <-. done.
Qed.

(** C158: an NVM file shows the reconstruction, and writing one does not end the program if all cameras are pinhole cameras. *)
Theorem nvm_contents : forall (o : order N) (ov ot : N -> order N) r,
  consistent r -> (forall u v, rc_views r !! u = Some v -> pinhole v = true) ->
  exists file us ts fs, write_nvm pinhole camera point centered o ov ot true r = Ok (true, Some file) /\ nvm_shows camera point centered r file us ts fs.
Proof.
  intros o ov ot r Hc Hp. unfold write_nvm. cbn [negb]. set (us := o (elements (dom (rc_views r)))). set (ts := o (elements (dom (rc_tracks r)))).
  assert (Dus : NoDup us) by (unfold us; rewrite (ord_perm o); apply NoDup_elements). assert (Dts : NoDup ts) by (unfold ts; rewrite (ord_perm o); apply NoDup_elements).
  assert (Hus : forall u, u ∈ us <-> is_Some (rc_views r !! u)) by (intros u; unfold us; by rewrite (ord_perm o), elem_of_elements, elem_of_dom).
  assert (Hts : forall t, t ∈ ts <-> is_Some (rc_tracks r !! t)) by (intros t; unfold ts; by rewrite (ord_perm o), elem_of_elements, elem_of_dom).
  destruct (views_loop ov r us [] [] ∅ ∅) as (cams & idx & feats & -> & Hidx & Hfe & Hcams); cbn [app] in *; [|done|done|done|by rewrite dom_empty_L| |constructor|].
  { intros u Hu. apply Hus in Hu as [v Hv]. exists v. split; [done|]. by apply (Hp u). }
  { intros u k t Hu. by apply elem_of_nil in Hu. }
  cbn [mbind outcome_bind].
  assert (G : forall xs l, (forall t, t ∈ xs -> is_Some (rc_tracks r !! t)) -> exists l', run_steps (nvm_track point centered ot r idx feats) l xs = Ok (l ++ l') /\
    Forall2 (fun t p => exists tr, rc_tracks r !! t = Some tr /\ p.1.1 = point (t_data tr) /\ p.1.2 = length p.2 /\ NoDup (fst <$> p.2) /\
      forall i k x, (i, k, x) ∈ p.2 <->
        exists u v f, us !! i = Some u /\ rc_views r !! u = Some v /\ feature_list ov r u !! k = Some t /\ v_feats v !! t = Some f /\ x = centered v f) xs l').
  { induction xs as [|t xs IH]; intros l Hxs; [exists []; split; [cbn; by rewrite app_nil_r|constructor]|]. destruct (Hxs t ltac:(by left)) as [tr Htr]. cbn [run_steps].
    assert (Hsee : forall u, u ∈ ot t (elements (t_views tr)) <-> sees r u t).
    { intros u. rewrite (ord_perm (ot t)), elem_of_elements. unfold sees. rewrite <- (Hc u t). split; [by exists tr|]. intros (tr' & K & K'). congruence. }
    destruct (observations_loop ov r idx feats us t (ot t (elements (t_views tr))) Hidx Hfe) with (l := @nil (nat * nat * X)) as (obs & Hobs & Lobs & Hin & Hnd); [intros u Hu; by apply Hus|intros u Hu; by apply Hsee|done|rewrite (ord_perm (ot t)); apply NoDup_elements|].
    assert (Hs : nvm_track point centered ot r idx feats l t = Ok (l ++ [(point (t_data tr), size (t_views tr), obs)])).
    { unfold nvm_track. rewrite Htr. cbn [or_ub mbind outcome_bind]. by rewrite Hobs. }
    rewrite Hs. clear Hs. cbn [mbind outcome_bind]. destruct (IH (l ++ [(point (t_data tr), size (t_views tr), obs)])) as (l' & -> & Hl'); [intros x Hx; apply Hxs; by right|].
    exists ((point (t_data tr), size (t_views tr), obs) :: l'). split; [by rewrite <- app_assoc|]. constructor; [|done]. exists tr. cbn [fst snd]. split; [done|]. split; [done|]. split; [by rewrite Lobs, (ord_perm (ot t))|]. split; [done|].
    intros i k x. rewrite Hin. split.
    - intros (u & v & f & _ & K). by exists u, v, f.
    - intros (u & v & f & K1 & K2 & K3 & K4 & K5). exists u, v, f. split; [|done]. apply Hsee. exists v. split; [done|by exists f]. }
  destruct (G ts []) as (points & -> & Hpoints); [intros t; apply Hts|]. cbn [mbind outcome_bind app]. eexists _, us, ts, (feature_list ov r). split; [done|]. unfold nvm_shows. cbn [nvm_num_cameras nvm_cameras nvm_num_points nvm_points].
  split; [done|]. split; [done|]. split; [intros u v Hv; by apply feature_list_ok|]. split; [by apply Forall2_length in Hcams|]. split; [by apply Forall2_length in Hpoints|]. done.
Qed.
(** A view with another camera model ends the program, after the file has been opened. *)
Theorem nvm_other_model : forall (o : order N) (ov ot : N -> order N) r u v,
  rc_views r !! u = Some v -> pinhole v = false -> write_nvm pinhole camera point centered o ov ot true r = CheckFail.
Proof.
  intros o ov ot r u v Hv Hp. unfold write_nvm. cbn [negb]. assert (G : forall us st, u ∈ us -> (forall x, x ∈ us -> is_Some (rc_views r !! x)) -> run_steps (nvm_view pinhole camera ov r) st us = CheckFail).
  { induction us as [|x us IH]; intros [[cams idx] feats] Hu Hall; [by apply elem_of_nil in Hu|]. cbn [run_steps]. destruct (Hall x ltac:(by left)) as [y Hy].
    assert (Hs : nvm_view pinhole camera ov r (cams, idx, feats) x = if pinhole y then Ok (cams ++ [(v_name y, camera y)], <[x := size idx]> idx, number_features x 0 feats (ov x (elements (dom (v_feats y))))) else CheckFail).
    { unfold nvm_view. rewrite Hy. cbn [or_ub mbind outcome_bind]. by destruct (pinhole y). }
    rewrite Hs. destruct (pinhole y) eqn:Ey; [|done]. cbn [mbind outcome_bind]. apply IH; [|intros z Hz; apply Hall; by right]. apply elem_of_cons in Hu as [->|Hu]; [|done]. congruence. }
  rewrite G; [done| |].
  - rewrite (ord_perm o), elem_of_elements, elem_of_dom. by exists v.
  - intros x Hx. by rewrite (ord_perm o), elem_of_elements, elem_of_dom in Hx.
Qed.
End props.
Print Assumptions nvm_contents.
Print Assumptions nvm_other_model.

(** Three views, two tracks; view 1 has both as features 1 and 0 with the reversed order. *)
Definition nvm_ops : list (rc_op N N N) :=
  [OAddView ord_id "a"; OAddView ord_id "b"; OAddView ord_id "c"; OAddTrack [(0, 7); (1, 8)]%N; OAddTrack [(1, 9); (2, 10)]%N; OSetTrack 0 true 5; OSetTrack 1 true 6]%N.
Example nvm_sample : match run_obs (rc_step 0%N 0%N) rc_empty nvm_ops with
  | Ok (r, _) => write_nvm (fun _ => true) (fun v => v_data v) (fun d => d) (fun _ f => f) ord_id (fun _ => ord_rev) (fun _ => ord_id) true r =
      Ok (true, Some (NvmFile 3 [("a", 0); ("b", 0); ("c", 0)]%N 2 [(5%N, 2%nat, [(0%nat, 0%nat, 7%N); (1%nat, 1%nat, 8%N)]); (6%N, 2%nat, [(1%nat, 0%nat, 9%N); (2%nat, 0%nat, 10%N)])])) /\
      write_nvm (fun v => bool_decide (v_name v = "a")) (fun v => v_data v) (fun d => d) (fun _ f => f) ord_id (fun _ => ord_rev) (fun _ => ord_id) true r = CheckFail
  | _ => False end.
Proof. vm_compute. split; reflexivity. Qed.
