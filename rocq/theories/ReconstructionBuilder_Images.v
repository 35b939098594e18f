(** Proofs about the images that are added to a reconstruction builder. *)
From stdpp Require Import gmap strings.
From Verif Require Import Base Reconstruction_Model Reconstruction_Spec Reconstruction_Lemmas Reconstruction_Proofs ViewGraph_Model TrackBuilder_Model
  SfmQueries_Spec ReconstructionBuilder_Model ReconstructionBuilder_Spec ReconstructionBuilder_Proofs ReconstructionBuilder_Calls.

Section images.
Context {F : Type} `{Countable F} {C D E P : Type}.
Context (c0 : C) (d0 : D).
Context (filename : string -> string) (with_prior : P -> C -> C) (focal_set : C -> bool) (swap : E -> outcome E).
Notation pair_match := (string * string * E * list (F * F))%type.
Notation step := (builder_step c0 filename with_prior focal_set swap).
Notation idn := rc_view_id_from_name.
Notation reached := (reached c0 d0).
Notation note_prior := (note_prior with_prior).
Notation note_call := (note_call (F := F) (E := E) c0 filename with_prior).
Implicit Types (r : recon F C D) (b : builder F C D E P) (d : string -> option C).

Definition described d r : Prop :=
  (forall n, is_Some (d n) <-> is_Some (rc_names r !! n)) /\
  (forall n u v, rc_names r !! n = Some u -> rc_views r !! u = Some v -> v_name v = n /\ d n = Some (v_data v)).

Lemma described_add n o d r path p g r' ok : (N.of_nat n < 2 ^ 31)%N -> reached n r -> described d r -> add_view_to c0 filename with_prior o path p g r = Ok (r', ok) ->
  described (note_call d (BAddImage o path p g, ok)) r' /\ (ok = true <-> d (filename path) = None).
Proof.
  intros Hn Hr [D1 D2]. destruct (reached_next c0 d0 n r Hn Hr) as [Hnext Hfresh]. unfold add_view_to. intros (_ & Hne%check_Ok & K)%bind_Ok. apply bind_Ok in K as ([r1 id] & Hadd & K).
  set (nm := filename path) in *. apply negb_true_iff, bool_decide_eq_false in Hne.
  assert (Ha : rc_names r1 = rc_names r /\ rc_views r1 = rc_views r /\ id = kInvalidId /\ is_Some (rc_names r !! nm) \/
               rc_names r !! nm = None /\ rc_names r1 = <[nm := rc_next_view r]> (rc_names r) /\ (exists ptr, rc_views r1 = <[rc_next_view r := View nm false ptr c0 ∅]> (rc_views r)) /\ id = rc_next_view r).
  { assert (Hgr : forall gr r2 id2, rc_add_view_group c0 o r nm gr = Ok (r2, id2) ->
      rc_names r2 = rc_names r /\ rc_views r2 = rc_views r /\ id2 = kInvalidId /\ is_Some (rc_names r !! nm) \/
      rc_names r !! nm = None /\ rc_names r2 = <[nm := rc_next_view r]> (rc_names r) /\ (exists ptr, rc_views r2 = <[rc_next_view r := View nm false ptr c0 ∅]> (rc_views r)) /\ id2 = rc_next_view r).
    { intros gr r2 id2. unfold rc_add_view_group. destruct (rc_names r !! nm) eqn:En; [intros [= <- <-]; left; eauto|].
      rewrite decide_False by done. intros (ptr & _ & K2)%bind_Ok. injection K2 as <- <-. right. cbn [rc_names rc_views].
      rewrite wrap32_pred by lia. unfold emplace. rewrite En, Hfresh. split; [done|]. split; [done|]. split; [by exists ptr|done]. }
    destruct (decide (g = kInvalidId)); [|by apply (Hgr g)]. unfold rc_add_view in Hadd. apply bind_Ok in Hadd as ([r2 id2] & Hadd & K2). injection K2 as <- <-. cbn [rc_names rc_views]. by apply (Hgr _ _ _ Hadd). }
  clear Hadd. destruct Ha as [(Hnm & Hvs & -> & Hs)|(Hno & Hnm & (ptr & Hvs) & ->)].
  - rewrite decide_True in K by done. injection K as <- <-. cbn [ReconstructionBuilder_Spec.note_call]. split.
    + split; [intros x; by rewrite Hnm|]. intros x u v. rewrite Hnm, Hvs. apply D2.
    + split; [done|]. intros K. destruct (proj2 (D1 nm) Hs). congruence.
  - assert (Hd : d nm = None). { apply eq_None_not_Some. intros K'. apply D1 in K'. rewrite Hno in K'. by destruct K'. }
    rewrite decide_False in K by (unfold kInvalidId; lia).
    assert (Hr' : rc_names r' = rc_names r1 /\ ok = true /\ exists ptr, rc_views r' = <[rc_next_view r := View nm false ptr (match p with Some p => with_prior p c0 | None => c0 end) ∅]> (rc_views r)).
    { destruct p as [p|]; [|injection K as <- <-; do 2 (split; [done|]); by exists ptr]. apply bind_Ok in K as (v & Hv & K). apply or_ub_Ok in Hv. rewrite Hvs, lookup_insert in Hv. injection Hv as <-. cbn [v_est v_data] in K. injection K as <- <-.
      do 2 (split; [done|]). exists ptr. unfold rc_set_view. cbn [rc_views set_views]. rewrite Hvs. apply map_eq. intros x. destruct (decide (x = rc_next_view r)) as [->|Hx]; [rewrite lookup_alter, !lookup_insert; done|].
      by rewrite lookup_alter_ne, !lookup_insert_ne. }
    clear K Hvs. destruct Hr' as (Hnm' & -> & ptr' & Hvs). split; [|by rewrite Hd]. cbn [ReconstructionBuilder_Spec.note_call]. fold nm. split.
    + intros x. rewrite Hnm', Hnm. destruct (decide (x = nm)) as [->|Hx]; [rewrite lookup_insert; split; eauto|]. rewrite lookup_insert_ne by done. apply D1.
    + intros x u v. rewrite Hnm', Hnm, Hvs. destruct (decide (x = nm)) as [->|Hx].
      * rewrite lookup_insert. intros [= <-]. rewrite lookup_insert. intros [= <-]. done.
      * rewrite lookup_insert_ne by done. intros Hu. rewrite lookup_insert_ne; [by apply D2|]. intros <-. destruct (reached_names c0 d0 n r x _ Hn Hr Hu) as ([w Hw] & _). congruence.
Qed.

Lemma described_priors ps : forall n d r r', (N.of_nat (n + length ps) < 2 ^ 31)%N -> reached n r -> described d r -> run_steps (set_prior_of with_prior) r ps = Ok r' ->
  described (foldl note_prior d ps) r'.
Proof.
  induction ps as [|[nm p] ps IH]; intros n d r r' Hn Hr Hd; cbn [run_steps foldl]; [by intros [= <-]|]. intros (r1 & H1 & K)%bind_Ok. cbn [length] in Hn.
  unfold set_prior_of in H1. cbn [fst snd] in H1. apply bind_Ok in H1 as (v & Hv & K1). apply or_ub_Ok in Hv.
  assert (Hr1 : reached (S n) r1) by (injection K1 as <-; by apply (reached_step c0 d0 n r (OSetView (idn r nm) (v_est v) (with_prior p (v_data v))) _ RVoid Hr)).
  apply (IH (S n) _ r1 r'); [lia|exact Hr1| |exact K]. injection K1 as <-.
  assert (Hu : rc_names r !! nm = Some (idn r nm)).
  { unfold idn in *. destruct (rc_names r !! nm) as [u|] eqn:En; [done|]. exfalso. cbn [default] in Hv. destruct Hr as (rops & rs & Hl & Hrun). destruct (reach_rel c0 d0 rops r rs) as (a & _ & R & W & Hvw & _); [unfold few; lia|done|].
    destruct (rel_view_Some r a kInvalidId v R Hv) as (av & Hav & _). pose proof (wf_view a W kInvalidId (mk_is_Some _ _ Hav)). unfold kInvalidId in *. lia. }
  destruct Hd as [D1 D2]. split.
  - intros x. unfold ReconstructionBuilder_Spec.note_prior. cbn [fst snd]. change (rc_names (rc_set_view r (idn r nm) (v_est v) (with_prior p (v_data v)))) with (rc_names r). rewrite <- D1. destruct (decide (x = nm)); [|done]. by rewrite fmap_is_Some.
  - intros x u w. change (rc_names (rc_set_view r (idn r nm) (v_est v) (with_prior p (v_data v)))) with (rc_names r). rewrite set_view_lookup. intros Hx. unfold ReconstructionBuilder_Spec.note_prior. cbn [fst snd]. destruct (decide (x = nm)) as [->|Hne].
    + assert (u = idn r nm) as -> by congruence. rewrite decide_True by done. rewrite Hv. cbn [fmap option_fmap option_map]. intros [= <-]. cbn [v_name v_data]. destruct (D2 nm _ v Hu Hv) as [? ->]. done.
    + rewrite decide_False; [by apply D2|]. intros ->. apply Hne. by apply (reached_names c0 d0 n r nm _ ltac:(lia) Hr Hu).
Qed.

Lemma add_match_recon b n1 n2 info cs b' ok : add_match focal_set swap b n1 n2 info cs = Ok (b', ok) -> b_recon b' = b_recon b.
Proof.
  unfold add_match. intros (_ & _ & K)%bind_Ok. apply bind_Ok in K as (_ & _ & K). apply bind_Ok in K as (skip & _ & K). destruct skip; [by injection K as <- _|].
  apply bind_Ok in K as (g & _ & K). apply bind_Ok in K as (t & _ & K). by injection K as <- _.
Qed.
Lemma add_matches_recon (xs : list pair_match) : forall b b',
  run_steps (fun b (m : pair_match) => '(b, _) ← add_match focal_set swap b m.1.1.1 m.1.1.2 m.1.2 m.2; Ok b) b xs = Ok b' -> b_recon b' = b_recon b.
Proof.
  induction xs as [|m xs IH]; intros b b'; cbn [run_steps]; [by intros [= <-]|]. intros (b1 & H1 & K)%bind_Ok. apply bind_Ok in H1 as ([b2 ok] & H1 & K1). injection K1 as <-. rewrite (IH _ _ K). by apply (add_match_recon _ _ _ _ _ _ _ H1).
Qed.

Lemma described_calls ops : forall n d b b' rs, (N.of_nat (n + 2 * length ops + priors_of ops) < 2 ^ 31)%N -> reached n (b_recon b) -> described d (b_recon b) -> run_obs step b ops = Ok (b', rs) ->
  described (foldl note_call d (zip ops rs)) (b_recon b') /\ reached (n + 2 * length ops + priors_of ops) (b_recon b').
Proof.
  induction ops as [|op ops IH]; intros n d b b' rs Hn Hr Hd; cbn [run_obs].
  { intros [= <- <-]. split; [done|]. apply (reached_le c0 d0 n); [lia|done]. }
  intros ([b1 x] & Hstep & K)%bind_Ok. apply bind_Ok in K as ([b2 rs2] & Hrun & K). injection K as <- <-. cbn [length zip zip_with foldl] in *.
  set (dn := match op with BExtract ps _ => length ps | _ => 0%nat end). assert (Hp : priors_of (op :: ops) = (dn + priors_of ops)%nat) by done.
  assert (H1 : described (note_call d (op, x)) (b_recon b1) /\ reached (2 + dn + n) (b_recon b1)).
  { destruct op as [o path p g|n1 n2 i cs|ps ms]; cbn [builder_step] in Hstep; unfold dn.
    - unfold add_image in Hstep. apply bind_Ok in Hstep as ([r1 ok1] & Hadd & K). assert (Hx : b_recon b1 = r1 /\ x = ok1) by (destruct ok1; cbn [negb] in K; [apply bind_Ok in K as (? & _ & K)|]; by injection K as <- <-).
      destruct Hx as [-> ->]. split; [by apply (described_add n o d (b_recon b) path p g r1 ok1 ltac:(lia) Hr Hd Hadd)|]. by apply (add_view_to_grows c0 d0 filename with_prior n o path p g (b_recon b) r1 ok1 ltac:(lia) Hr Hadd).
    - rewrite (add_match_recon _ _ _ _ _ _ _ Hstep). cbn [ReconstructionBuilder_Spec.note_call]. split; [done|]. apply (reached_le c0 d0 n); [lia|done].
    - unfold extract in Hstep. apply bind_Ok in Hstep as (_ & _ & K). apply bind_Ok in K as (_ & _ & K). apply bind_Ok in K as (r1 & Hr1 & K). apply bind_Ok in K as (b3 & Hb3 & K). injection K as <- _.
      rewrite (add_matches_recon _ _ _ Hb3). cbn [b_recon]. rewrite Hp in Hn. unfold dn in Hn. split.
      + by apply (described_priors ps n d (b_recon b) r1 ltac:(lia) Hr Hd).
      + apply (reached_le c0 d0 (length ps + n)); [lia|]. by apply (set_priors_reached c0 d0 with_prior n (b_recon b) r1 ps ltac:(lia) Hr Hr1). }
  destruct H1 as [Hd1 Hr1]. destruct (IH (2 + dn + n)%nat _ b1 b2 rs2 ltac:(lia) Hr1 Hd1 Hrun) as [H2 H3]. split; [exact H2|]. apply (reached_le c0 d0 (2 + dn + n + 2 * length ops + priors_of ops)); [lia|done].
Qed.
End images.
