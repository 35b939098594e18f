(** C161: Bundler files. *)
From stdpp Require Import gmap strings.
From Verif Require Import Base Reconstruction_Model Reconstruction_Spec Reconstruction_Proofs Reconstruction_Lemmas SfmQueries_Spec
  ReconstructionBuilder_Model ReconstructionBuilder_Spec ReconstructionBuilder_Proofs ColmapFile_Proofs BundlerFile_Model BundlerFile_Spec.

Section props.
Context {F C D L V T X S : Type} (prior : C -> option L) (camera : C -> S -> V) (point : D -> T) (centered : C -> S -> F -> X)
  (intr : N -> S) (pinhole : S -> bool).
Notation recon := (recon F C D).
Notation write := (write_bundler prior camera point centered intr pinhole).
Implicit Types r e : recon.

(** The loop over the views. *)
Lemma bundler_views e us : forall pre names cams idx, (forall u, u ∈ us -> exists v, rc_views e !! u = Some v /\ pinhole (intr (v_intr v)) = true) -> NoDup (pre ++ us) ->
  (forall u i, pre !! i = Some u -> idx !! u = Some i) ->
  Forall2 (fun u l => exists v, rc_views e !! u = Some v /\ l = (v_name v, prior (v_data v))) pre names ->
  Forall2 (fun u c => exists v, rc_views e !! u = Some v /\ c = camera (v_data v) (intr (v_intr v))) pre cams ->
  exists names' cams' idx', run_steps (bundler_view prior camera intr pinhole e) (names, cams, idx) us = Ok (names', cams', idx') /\
    (forall u i, (pre ++ us) !! i = Some u -> idx' !! u = Some i) /\
    Forall2 (fun u l => exists v, rc_views e !! u = Some v /\ l = (v_name v, prior (v_data v))) (pre ++ us) names' /\
    Forall2 (fun u c => exists v, rc_views e !! u = Some v /\ c = camera (v_data v) (intr (v_intr v))) (pre ++ us) cams'.
Proof.
  induction us as [|u us IH]; intros pre names cams idx Hus Hd Hidx Hn Hc. { rewrite app_nil_r. by exists names, cams, idx. }
  destruct (Hus u ltac:(by left)) as (v & Hv & Hp). cbn [run_steps].
  assert (Hs : bundler_view prior camera intr pinhole e (names, cams, idx) u = Ok (names ++ [(v_name v, prior (v_data v))], cams ++ [camera (v_data v) (intr (v_intr v))], <[u := length names]> idx)).
  { unfold bundler_view. rewrite Hv. cbn [or_ub mbind outcome_bind]. by rewrite Hp. }
  rewrite Hs. clear Hs. cbn [mbind outcome_bind].
  assert (Nu : u ∉ pre). { apply NoDup_app in Hd as (_ & Hd & _). intros H. apply (Hd u H). by left. }
  replace (pre ++ u :: us) with ((pre ++ [u]) ++ us) in * by (by rewrite <- app_assoc).
  apply IH; [intros x Hx; apply Hus; by right|done| | |].
  - intros x i Hi. apply lookup_app_Some in Hi as [Hi|[Hle Hi]].
    + rewrite lookup_insert_ne; [by apply Hidx|]. intros ->. apply Nu. by eapply elem_of_list_lookup_2.
    + destruct (i - length pre)%nat as [|n] eqn:En; [|done]. injection Hi as <-. rewrite lookup_insert. apply Forall2_length in Hn. f_equal. lia.
  - apply Forall2_app; [done|]. constructor; [by exists v|constructor].
  - apply Forall2_app; [done|]. constructor; [by exists v|constructor].
Qed.
Lemma bundler_views_stop e us u v : forall st, u ∈ us -> (forall x, x ∈ us -> is_Some (rc_views e !! x)) -> rc_views e !! u = Some v -> pinhole (intr (v_intr v)) = false ->
  run_steps (bundler_view prior camera intr pinhole e) st us = CheckFail.
Proof.
  induction us as [|x us IH]; intros [[names cams] idx] Hu Hall Hv Hp; [by apply elem_of_nil in Hu|]. cbn [run_steps]. destruct (Hall x ltac:(by left)) as [y Hy].
  assert (Hs : bundler_view prior camera intr pinhole e (names, cams, idx) x = if pinhole (intr (v_intr y)) then Ok (names ++ [(v_name y, prior (v_data y))], cams ++ [camera (v_data y) (intr (v_intr y))], <[x := length names]> idx) else CheckFail).
  { unfold bundler_view. rewrite Hy. cbn [or_ub mbind outcome_bind]. destruct (pinhole (intr (v_intr y))); reflexivity. }
  rewrite Hs. destruct (pinhole (intr (v_intr y))) eqn:Ey; [|done]. cbn [mbind outcome_bind]. apply IH; [|intros z Hz; apply Hall; by right|done|done]. apply elem_of_cons in Hu as [->|Hu]; [|done]. congruence.
Qed.

(** C161: if all estimated views have pinhole cameras, the files show the estimated part of the reconstruction. *)
Theorem bundler_contents : forall c0 d0 (o : order N) (ot : N -> order N) ops r rs, (N.of_nat (length ops) < 2 ^ 32)%N -> run_obs (rc_step c0 d0) rc_empty ops = Ok (r, rs) ->
  (forall u v, rc_views r !! u = Some v -> v_est v = true -> pinhole (intr (v_intr v)) = true) ->
  exists files us ts, write o ot true true r = Ok (true, Some files) /\ bundler_shows prior camera point centered intr r files us ts.
Proof.
  intros c0 d0 o ot ops r rs Hl Hr Hp. destruct (reach_rel c0 d0 ops r rs Hl Hr) as (a & _ & R & W0 & _). destruct (create_estimated_part o r) as (e & E & He & Hpart); [by exists a|]. clear a R W0.
  unfold write_bundler. rewrite E. cbn [mbind outcome_bind]. unfold write_bundle. cbn [negb]. pose proof (ok_consistent e He) as Hc. pose proof Hpart as (P1 & P2 & P3 & P4 & _).
  set (us := o (elements (dom (rc_views e)))). set (ts := o (elements (dom (rc_tracks e)))).
  assert (Dus : NoDup us) by (unfold us; rewrite (ord_perm o); apply NoDup_elements). assert (Dts : NoDup ts) by (unfold ts; rewrite (ord_perm o); apply NoDup_elements).
  assert (Hus : forall u, u ∈ us <-> is_Some (rc_views e !! u)) by (intros u; unfold us; by rewrite (ord_perm o), elem_of_elements, elem_of_dom).
  assert (Hts : forall t, t ∈ ts <-> is_Some (rc_tracks e !! t)) by (intros t; unfold ts; by rewrite (ord_perm o), elem_of_elements, elem_of_dom).
  destruct (bundler_views e us [] [] [] ∅) as (names & cams & idx & Ev & Hidx & Hn & Hcams); [|done|done|constructor|constructor|].
  { intros u Hu. apply Hus in Hu as [v' Hv']. exists v'. split; [done|]. destruct (part_view r e u v' Hpart Hv') as (v & Hv & Ee & _ & -> & _). by apply (Hp u). }
  rewrite Ev. cbn [mbind outcome_bind app] in *.
  destruct (run_append (fun t p => exists tr, rc_tracks r !! t = Some tr /\ p.1.1 = point (t_data tr) /\ p.1.2 = length p.2 /\ NoDup p.2.*1 /\
    forall i x, (i, x) ∈ p.2 <-> exists u v f, us !! i = Some u /\ rc_views r !! u = Some v /\ v_feats v !! t = Some f /\ x = centered (v_data v) (intr (v_intr v)) f) (bundler_track point centered intr ot e idx) ts) as (points & Hpts & Er).
  { intros t Ht. apply Hts in Ht as [tr' Htr']. destruct (proj1 (P3 t) (mk_is_Some _ _ Htr')) as ([tr Htr] & Et & _). destruct (P4 t tr tr' Htr Htr') as (_ & Ed & _).
    destruct (run_append (fun u x => exists v f, us !! x.1 = Some u /\ rc_views e !! u = Some v /\ v_feats v !! t = Some f /\ x.2 = centered (v_data v) (intr (v_intr v)) f) (bundler_observation centered intr e idx t) (ot t (elements (t_views tr')))) as (obs & Ho & Eo).
    { intros u Hu. rewrite (ord_perm (ot t)), elem_of_elements in Hu. destruct (proj1 (Hc u t)) as (v & Hv & [f Hf]); [by exists tr'|].
      assert (Hi : exists i, us !! i = Some u) by (apply elem_of_list_lookup, Hus; by exists v). destruct Hi as [i Hi].
      exists (i, centered (v_data v) (intr (v_intr v)) f). split; [by exists v, f|]. intros l. unfold bundler_observation. rewrite (Hidx u i Hi). cbn [or_die mbind outcome_bind]. rewrite Hv. cbn [or_ub mbind outcome_bind]. by rewrite Hf. }
    exists (point (t_data tr'), size (t_views tr'), obs). split; [|intros l; unfold bundler_track; rewrite Htr'; cbn [or_ub mbind outcome_bind]; by rewrite Eo].
    exists tr. split; [done|]. cbn [fst snd]. split; [by rewrite Ed|]. split; [by rewrite <- (Forall2_length _ _ _ Ho), (ord_perm (ot t))|]. split.
    - assert (Dx : NoDup (ot t (elements (t_views tr')))) by (rewrite (ord_perm (ot t)); apply NoDup_elements). clear Eo. revert Dx. induction Ho as [|u x xs obs Hx Ho IH]; intros Dx; [constructor|]. apply NoDup_cons in Dx as [Nx Dx].
      rewrite fmap_cons. apply NoDup_cons. split; [|by apply IH]. intros ((i & y) & Ei & Hy)%elem_of_list_fmap. cbn [fst] in Ei. destruct (Forall2_in_r _ _ _ _ Ho Hy) as (u' & Hu' & (v1 & f1 & K1 & _)). destruct Hx as (v2 & f2 & K2 & _).
      cbn [fst] in K1. rewrite Ei, K1 in K2. injection K2 as ->. done.
    - intros i x. split.
      + intros Hx. destruct (Forall2_in_r _ _ _ _ Ho Hx) as (u & _ & (v' & f & K1 & Hv' & Hf & K4)). cbn [fst snd] in K1, K4. destruct (part_view r e u v' Hpart Hv') as (v & Hv & _ & _ & Ei & Edv & Ef).
        exists u, v, f. split; [done|]. split; [done|]. split; [by apply Ef|]. by rewrite <- Ei, <- Edv.
      + intros (u & v & f & Hi & Hv & Hf & ->). assert (Hu : is_Some (rc_views e !! u)) by (apply Hus; by eapply elem_of_list_lookup_2). destruct Hu as [v' Hv']. destruct (part_view r e u v' Hpart Hv') as (v2 & Hv2 & _ & _ & Ei & Edv & Ef).
        assert (v2 = v) as -> by congruence. assert (Hf' : v_feats v' !! t = Some f) by (by apply Ef). destruct (proj2 (Hc u t)) as (tr2 & Htr2 & Hin); [exists v'; split; [done|by exists f]|]. assert (tr2 = tr') as -> by congruence.
        destruct (Forall2_in_l _ _ _ u Ho) as ([i' x'] & Hx & (v3 & f3 & K1 & Hv3 & Hf3 & K4)); [by rewrite (ord_perm (ot t)), elem_of_elements|]. cbn [fst snd] in K1, K4.
        assert (i' = i) as -> by exact (NoDup_lookup us i' i u Dus K1 Hi). assert (v3 = v') as -> by congruence. assert (f3 = f) as -> by congruence. by rewrite <- Ei, <- Edv, <- K4. }
  rewrite Er. cbn [mbind outcome_bind app]. eexists _, us, ts. split; [done|]. unfold bundler_shows. cbn [bf_num_views bf_num_tracks bf_cameras bf_points bf_list].
  split; [split; [done|]; intros u; rewrite Hus, P1; split; [by intros [_ ?]|]; intros K; split; [|done]; destruct K as (v & Hv & _); by exists v|].
  split; [split; [done|]; intros t; rewrite Hts, P3; split; [by intros [_ ?]|]; intros [K K']; split; [|done]; destruct K as (x & Hx & _); by exists x|].
  split; [rewrite <- (Forall2_length _ _ _ Hcams); unfold us; by rewrite (ord_perm o)|].
  split; [rewrite <- (Forall2_length _ _ _ Hpts); unfold ts; by rewrite (ord_perm o)|].
  split; [|split; [|done]].
  - eapply Forall2_impl; [exact Hn|]. intros u l (v' & Hv' & ->). destruct (part_view r e u v' Hpart Hv') as (v & Hv & _ & En & _ & Ed & _). exists v. by rewrite En, Ed.
  - eapply Forall2_impl; [exact Hcams|]. intros u c (v' & Hv' & ->). destruct (part_view r e u v' Hpart Hv') as (v & Hv & _ & _ & Ei & Ed & _). exists v. by rewrite Ei, Ed.
Qed.
(** An estimated view with another camera model ends the program. *)
Theorem bundler_other_model : forall c0 d0 (o : order N) (ot : N -> order N) ops r rs u v, (N.of_nat (length ops) < 2 ^ 32)%N -> run_obs (rc_step c0 d0) rc_empty ops = Ok (r, rs) ->
  rc_views r !! u = Some v -> v_est v = true -> pinhole (intr (v_intr v)) = false -> write o ot true true r = CheckFail.
Proof.
  intros c0 d0 o ot ops r rs u v Hl Hr Hv Ev Hp. destruct (reach_rel c0 d0 ops r rs Hl Hr) as (a & _ & R & W0 & _). destruct (create_estimated_part o r) as (e & E & He & Hpart); [by exists a|].
  unfold write_bundler. rewrite E. cbn [mbind outcome_bind]. unfold write_bundle. cbn [negb]. destruct (part_view' r e u v Hpart Hv Ev) as (v' & Hv' & Ei).
  rewrite (bundler_views_stop e _ u v'); [done| | |done|by rewrite Ei].
  - rewrite (ord_perm o), elem_of_elements, elem_of_dom. by exists v'.
  - intros x Hx. by rewrite (ord_perm o), elem_of_elements, elem_of_dom in Hx.
Qed.
End props.
Print Assumptions bundler_contents.
Print Assumptions bundler_other_model.

(** Three views, of which the first and the last are estimated, and two tracks, of which the second is estimated. *)
Definition bundler_ops : list (rc_op N N N) :=
  [OAddView ord_id "a"; OAddView ord_id "b"; OAddView ord_id "c"; OAddTrack [(0, 7); (1, 8)]; OAddTrack [(0, 9); (1, 10); (2, 11)];
   OSetTrack 0 false 5; OSetTrack 1 true 6; OSetView 0 true 3; OSetView 2 true 4]%N.
Example bundler_sample : match run_obs (rc_step 0%N 0%N) rc_empty bundler_ops with
  | Ok (r, _) => write_bundler (fun c => if decide (c = 3%N) then Some 30%N else None) (fun c s => (c, s)) (fun d => d) (fun _ _ f => f) (fun p => p) (fun _ => true) ord_rev (fun _ => ord_id) true true r =
      Ok (true, Some (BundlerFiles 2 1 [(4, 2); (3, 0)]%N [(6%N, 2%nat, [(1%nat, 9%N); (0%nat, 11%N)])] [("c", None); ("a", Some 30%N)]))
  | _ => False end.
Proof. vm_compute. reflexivity. Qed.
