(** C156-C157: PLY files. *)
From stdpp Require Import gmap strings pretty.
From Verif Require Import Base Reconstruction_Model Reconstruction_Proofs SfmQueries_Spec SfmQueries_Props PlyFile_Model PlyFile_Spec.

Section props.
Context {F C D A : Type}.
Notation recon := (recon F C D).
Context (point : D -> A) (color : D -> Z * Z * Z) (position : C -> A) (show_point : A -> string) (show_color : Z * Z * Z -> string).
Implicit Types r : recon.
Notation track_line := (fun d => show_point (point d) +:+ " " +:+ show_color (color d)).
Notation view_line := (fun c => show_point (position c) +:+ " " +:+ show_color (0, 255, 0)%Z).

Definition like (v v' : view F C) : Prop := v_est v' = v_est v /\ v_data v' = v_data v.
Lemma remove_track_consistent o r t T : consistent r -> rc_tracks r !! t = Some T ->
  exists r', rc_remove_track o r t = (r', true) /\ consistent r' /\ rc_tracks r' = delete t (rc_tracks r) /\ forall u, option_Forall2 like (rc_views r !! u) (rc_views r' !! u).
Proof.
  intros Hc HT. unfold rc_remove_track. rewrite HT.
  assert (Hin : forall u, u ∈ o (elements (t_views T)) <-> u ∈ t_views T) by (intros u; by rewrite (ord_perm o), elem_of_elements).
  assert (Hfe : forall u, u ∈ t_views T <-> exists v, rc_views r !! u = Some v /\ is_Some (v_feats v !! t)).
  { intros u. rewrite <- (Hc u t). split; [by exists T|]. intros (T' & HT' & K). congruence. }
  destruct (remove_track_loop_eq t (o (elements (t_views T))) r) as (m & -> & Hm).
  { rewrite (ord_perm o). apply NoDup_elements. }
  { intros u Hu. by apply Hfe, Hin. }
  eexists. split; [done|]. cbn [rc_tracks rc_views set_tracks set_views]. split; [|split; [done|]].
  - intros u x. cbn [rc_tracks rc_views set_tracks set_views]. rewrite Hm. destruct (decide (x = t)) as [->|Nx].
    + rewrite lookup_delete. split; [intros (? & K & _); discriminate K|]. intros (v & Hv & Hf). exfalso. destruct (decide _) as [Hu|Hu].
      * apply fmap_Some in Hv as (v0 & _ & ->). cbn in Hf. rewrite lookup_delete in Hf. by destruct Hf.
      * apply Hu, Hin, Hfe. by exists v.
    + rewrite lookup_delete_ne by done. rewrite (Hc u x). destruct (decide _) as [Hu|Hu]; [|done]. destruct (rc_views r !! u) as [v|]; cbn.
      * split; intros (v' & [= <-] & K); eexists; (split; [done|]); cbn in *; [by rewrite lookup_delete_ne|by rewrite lookup_delete_ne in K].
      * split; intros (v' & K & _); discriminate K.
  - intros u. rewrite Hm. destruct (decide _); destruct (rc_views r !! u); cbn; by constructor.
Qed.

(** The removal. *)
Definition kept (min : Z) (T : track D) : bool := t_est T && negb (bool_decide (as_int (size (t_views T)) < min)%Z).
Lemma remove_loop o min ids : forall r, consistent r -> NoDup ids -> (forall t, t ∈ ids -> is_Some (rc_tracks r !! t)) ->
  exists r', run_steps (ply_remove o min) r ids = Ok r' /\ (forall u, option_Forall2 like (rc_views r !! u) (rc_views r' !! u)) /\
    forall t, rc_tracks r' !! t = match rc_tracks r !! t with Some T => if decide (t ∈ ids) then if kept min T then Some T else None else Some T | None => None end.
Proof.
  induction ids as [|t ids IH]; intros r Hc Hd Hids.
  { exists r. split; [done|]. split; [intros u; destruct (rc_views r !! u); by constructor|]. intros t. destruct (rc_tracks r !! t); [|done]. rewrite decide_False; [done|]. apply not_elem_of_nil. }
  apply NoDup_cons in Hd as [Nt Hd]. destruct (Hids t ltac:(by left)) as [T HT]. cbn [run_steps].
  assert (Hs : ply_remove o min r t = if negb (t_est T) || bool_decide (as_int (size (t_views T)) < min)%Z then Ok (rc_remove_track o r t).1 else Ok r) by (unfold ply_remove; by rewrite HT). rewrite Hs. clear Hs.
  assert (K : exists r1, (if negb (t_est T) || bool_decide (as_int (size (t_views T)) < min)%Z then Ok (rc_remove_track o r t).1 else Ok r) = Ok r1 /\ consistent r1 /\
    (forall u, option_Forall2 like (rc_views r !! u) (rc_views r1 !! u)) /\ rc_tracks r1 !! t = (if kept min T then Some T else None) /\ forall x, x <> t -> rc_tracks r1 !! x = rc_tracks r !! x).
  { unfold kept. destruct (t_est T); cbn [negb orb andb]; [destruct (bool_decide _); cbn [negb]|].
    2:{ exists r. split; [done|]. split; [done|]. split; [intros u; destruct (rc_views r !! u); by constructor|]. done. }
    all: destruct (remove_track_consistent o r t T Hc HT) as (r1 & -> & C1 & E1 & V1); exists r1; split; [done|]; split; [done|]; split; [done|]; rewrite E1; split; [apply lookup_delete|]; intros x Nx; by apply lookup_delete_ne. }
  destruct K as (r1 & -> & C1 & V1 & T1 & T2). cbn [mbind outcome_bind]. destruct (IH r1 C1 Hd) as (r' & -> & V2 & T3).
  { intros x Hx. rewrite T2; [apply Hids; by right|]. intros ->. done. }
  exists r'. split; [done|]. split.
  - intros u. specialize (V1 u). specialize (V2 u). destruct V1 as [v v1 [A1 A2]|]; inversion V2 as [v2 v3 [B1 B2]|]; subst; constructor. split; congruence.
  - intros x. rewrite T3. destruct (decide (x = t)) as [->|Nx].
    + rewrite T1, HT. rewrite (decide_True (P:=t ∈ t :: ids)) by (by left). destruct (kept min T); [|done]. by rewrite decide_False.
    + rewrite T2 by done. destruct (rc_tracks r !! x) as [X|]; [|done]. destruct (decide (x ∈ ids)) as [K|K]; [rewrite decide_True by (by right); done|]. rewrite decide_False; [done|]. rewrite elem_of_cons. tauto.
Qed.

(** The points. *)
Lemma gather_tracks_ok r ids : forall l, (forall t, t ∈ ids -> is_Some (rc_tracks r !! t)) ->
  exists l', run_steps (gather_track point color r) l ids = Ok (l ++ l') /\
    Forall2 (fun t s => exists T, rc_tracks r !! t = Some T /\ s = track_line (t_data T)) ids (ply_line show_point show_color <$> l').
Proof.
  induction ids as [|t ids IH]; intros l Hids; [exists []; split; [cbn; by rewrite app_nil_r|constructor]|].
  destruct (Hids t ltac:(by left)) as [T HT]. cbn [run_steps].
  assert (Hs : gather_track point color r l t = Ok (l ++ [(point (t_data T), color (t_data T))])) by (unfold gather_track; by rewrite HT). rewrite Hs. clear Hs. cbn [mbind outcome_bind].
  destruct (IH (l ++ [(point (t_data T), color (t_data T))])) as (l' & -> & H); [intros x Hx; apply Hids; by right|].
  exists ((point (t_data T), color (t_data T)) :: l'). split; [by rewrite <- app_assoc|]. constructor; [by exists T|done].
Qed.
Lemma gather_cameras_ok r ids : forall l, NoDup ids -> (forall u, u ∈ ids -> is_Some (rc_views r !! u)) ->
  exists us l', run_steps (gather_camera position r) l ids = Ok (l ++ l') /\ NoDup us /\ (forall u, u ∈ us <-> u ∈ ids /\ est_view r u) /\
    Forall2 (fun u s => exists v, rc_views r !! u = Some v /\ s = view_line (v_data v)) us (ply_line show_point show_color <$> l').
Proof.
  induction ids as [|u ids IH]; intros l Hd Hids.
  { exists [], []. split; [cbn; by rewrite app_nil_r|]. split; [constructor|]. split; [|constructor]. intros u. rewrite elem_of_nil. tauto. }
  apply NoDup_cons in Hd as [Nu Hd]. destruct (Hids u ltac:(by left)) as [v Hv]. cbn [run_steps].
  assert (Hs : gather_camera position r l u = Ok (if negb (v_est v) then l else l ++ [(position (v_data v), (0, 255, 0)%Z)])) by (unfold gather_camera; by rewrite Hv). rewrite Hs. clear Hs. cbn [mbind outcome_bind]. destruct (v_est v) eqn:Ev; cbn [negb].
  - destruct (IH (l ++ [(position (v_data v), (0, 255, 0)%Z)]) Hd) as (us & l' & -> & D' & U' & H); [intros x Hx; apply Hids; by right|].
    exists (u :: us), ((position (v_data v), (0, 255, 0)%Z) :: l'). split; [by rewrite <- app_assoc|]. split; [apply NoDup_cons; split; [|done]; intros K; by apply U' in K as [K _]|]. split; [|constructor; [by exists v|done]].
    intros x. rewrite !elem_of_cons, U'. split; [intros [->|[K1 K2]]; [split; [by left|by exists v]|split; [by right|done]]|]. intros [[->|K1] K2]; [by left|by right].
  - destruct (IH l Hd) as (us & l' & -> & D' & U' & H); [intros x Hx; apply Hids; by right|]. exists us, l'. split; [done|]. split; [done|]. split; [|done].
    intros x. rewrite U', elem_of_cons. split; [intros [K1 K2]; split; [by right|done]|]. intros [[->|K1] K2]; [|done]. destruct K2 as (v' & K & K'). congruence.
Qed.

Lemma write_ply_lemma o name min room r : consistent r -> (Z.of_nat (size (rc_tracks r)) + Z.of_nat (size (rc_views r)) < 2 ^ 31)%Z -> name <> EmptyString ->
  exists ts us lines, write_ply point color position show_point show_color o name min true room r = Ok (true, Some (take room (ply_text lines))) /\
    NoDup ts /\ NoDup us /\ (forall t, t ∈ ts <-> well_observed r min t) /\ (forall u, u ∈ us <-> est_view r u) /\ shows r track_line view_line ts us lines.
Proof.
  intros Hc Hsize Hname. unfold write_ply. rewrite bool_decide_eq_true_2 by (destruct name; [done|cbn; lia]). cbn [check mbind outcome_bind negb].
  destruct (remove_loop o min (o (elements (dom (rc_tracks r)))) r Hc) as (r1 & -> & V1 & T1).
  { rewrite (ord_perm o). apply NoDup_elements. }
  { intros t Ht. rewrite (ord_perm o), elem_of_elements, elem_of_dom in Ht. done. }
  cbn [mbind outcome_bind]. set (ts := o (elements (dom (rc_tracks r1)))).
  assert (Hts : forall t, t ∈ ts <-> is_Some (rc_tracks r1 !! t)) by (intros t; unfold ts; by rewrite (ord_perm o), elem_of_elements, elem_of_dom).
  destruct (gather_tracks_ok r1 ts []) as (l1 & -> & H1); [intros t; apply Hts|]. cbn [mbind outcome_bind app].
  destruct (gather_cameras_ok r1 (o (elements (dom (rc_views r1)))) l1) as (us & l2 & -> & D2 & U2 & H2).
  { rewrite (ord_perm o). apply NoDup_elements. }
  { intros u Hu. rewrite (ord_perm o), elem_of_elements, elem_of_dom in Hu. done. }
  cbn [mbind outcome_bind].
  assert (Hkept : forall t, rc_tracks r1 !! t = match rc_tracks r !! t with Some T => if kept min T then Some T else None | None => None end).
  { intros t. rewrite T1. destruct (rc_tracks r !! t) as [T|] eqn:HT; [|done]. rewrite decide_True; [done|]. rewrite (ord_perm o), elem_of_elements, elem_of_dom. by exists T. }
  assert (Hest : forall u, est_view r1 u <-> est_view r u).
  { intros u. unfold est_view. specialize (V1 u). destruct V1 as [v v' [A1 A2]|]; [|done]. split; intros (x & [= <-] & K); eexists; (split; [done|]); congruence. }
  assert (Dts : NoDup ts) by (unfold ts; rewrite (ord_perm o); apply NoDup_elements).
  assert (Hus : forall u, u ∈ us <-> est_view r u).
  { intros u. rewrite U2, Hest, (ord_perm o), elem_of_elements, elem_of_dom. split; [by intros [_ ?]|]. intros K. split; [|done]. apply Hest in K as (v & K & _). by exists v. }
  assert (Hlen : (length (l1 ++ l2) <= size (rc_tracks r) + size (rc_views r))%nat).
  { rewrite app_length. apply Forall2_length in H1, H2. rewrite fmap_length in H1, H2. rewrite <- H1, <- H2. apply Nat.add_le_mono.
    - rewrite <- size_dom. rewrite <- (size_list_to_set (C:=gset N) ts Dts). apply subseteq_size. intros t Ht. apply elem_of_list_to_set, Hts in Ht as [T Ht]. rewrite Hkept in Ht. apply elem_of_dom. destruct (rc_tracks r !! t); [eauto|discriminate Ht].
    - rewrite <- size_dom. rewrite <- (size_list_to_set (C:=gset N) us D2). apply subseteq_size. intros u Hu. apply elem_of_list_to_set, Hus in Hu as (v & Hv & _). apply elem_of_dom. by exists v. }
  rewrite decide_True by lia. exists ts, us, (ply_line show_point show_color <$> (l1 ++ l2)). split; [|split; [done|split; [done|split; [|split; [done|]]]]].
  - unfold ply_text, ply_header. by rewrite fmap_length.
  - intros t. rewrite Hts, Hkept. unfold well_observed, est_track. destruct (rc_tracks r !! t) as [T|] eqn:HT.
    2:{ split; [intros [? K]; discriminate K|]. intros [(T & K & _) _]. discriminate K. }
    assert (HX : forall u, u ∈ t_views T <-> sees r u t). { intros u. unfold sees. rewrite <- (Hc u t). split; [by exists T|]. intros (T' & K & K'). congruence. }
    assert (Hsz : (Z.of_nat (size (t_views T)) < 2 ^ 31)%Z).
    { assert (size (t_views T) <= size (rc_views r))%nat; [|lia]. rewrite <- size_dom. apply subseteq_size. intros u Hu. apply HX in Hu as (v & Hv & _). apply elem_of_dom. by exists v. }
    assert (Hint : as_int (size (t_views T)) = Z.of_nat (size (t_views T))). { unfold as_int. rewrite Z.mod_small; lia. }
    unfold kept. rewrite Hint. destruct (t_est T) eqn:Et; cbn [andb].
    + destruct (bool_decide _) eqn:Eb; cbn [negb].
      * apply bool_decide_eq_true in Eb. split; [intros [? K]; discriminate K|]. intros [_ (X & K1 & K2)]. exfalso. assert (X = t_views T) as -> by (apply set_eq; intros u; by rewrite K2, HX). lia.
      * apply bool_decide_eq_false in Eb. split; [|by eexists]. intros _. split; [by exists T|]. exists (t_views T). split; [lia|done].
    + split; [intros [? K]; discriminate K|]. intros [(T' & [= <-] & K) _]. congruence.
  - rewrite fmap_app. eexists _, _. split; [done|]. split.
    + eapply Forall2_impl; [exact H1|]. intros t s (T & HT & ->). exists T. split; [|done]. rewrite Hkept in HT. destruct (rc_tracks r !! t) as [T'|]; [|done]. destruct (kept min T'); [done|discriminate HT].
    + eapply Forall2_impl; [exact H2|]. intros u s (v & Hv & ->). specialize (V1 u). rewrite Hv in V1. inversion V1 as [v0 ? [A1 A2] E1|]; subst. exists v0. split; [done|]. by rewrite A2.
Qed.

(** C156: a file that can be written holds each estimated track with enough observations once, then the camera of each
    estimated view once, all with the data of the given reconstruction, and the header counts them.  Nothing undefined
    happens and the program is not ended. *)
Theorem ply_contents : forall o name min room r,
  consistent r -> (Z.of_nat (size (rc_tracks r)) + Z.of_nat (size (rc_views r)) < 2 ^ 31)%Z -> name <> EmptyString ->
  (size (rc_tracks r) + size (rc_views r) + 10 <= room)%nat ->
  exists ts us lines, write_ply point color position show_point show_color o name min true room r = Ok (true, Some (ply_text lines)) /\
    NoDup ts /\ NoDup us /\ (forall t, t ∈ ts <-> well_observed r min t) /\ (forall u, u ∈ us <-> est_view r u) /\ shows r track_line view_line ts us lines.
Proof.
  intros o name min room r Hc Hsize Hname Hroom. destruct (write_ply_lemma o name min room r Hc Hsize Hname) as (ts & us & lines & E & D1 & D2 & H1 & H2 & H3). exists ts, us, lines. split; [|done]. rewrite E, take_ge; [done|].
  destruct H3 as (l1 & l2 & -> & F1 & F2). unfold ply_text. rewrite app_length, app_length. apply Forall2_length in F1, F2. rewrite <- F1, <- F2. cbn [length].
  assert (length ts <= size (rc_tracks r))%nat.
  { rewrite <- size_dom, <- (size_list_to_set (C:=gset N) ts D1). apply subseteq_size. intros t Ht. apply elem_of_list_to_set, H1 in Ht as [(T & HT & _) _]. apply elem_of_dom. by exists T. }
  assert (length us <= size (rc_views r))%nat.
  { rewrite <- size_dom, <- (size_list_to_set (C:=gset N) us D2). apply subseteq_size. intros u Hu. apply elem_of_list_to_set, H2 in Hu as (v & Hv & _). apply elem_of_dom. by exists v. }
  lia.
Qed.

(** C157, the part that holds: false is returned exactly if the file could not be opened, and then it is not touched; the
    contents are always a beginning of the complete text. *)
Theorem ply_result_partial : forall o name min opened room r,
  consistent r -> (Z.of_nat (size (rc_tracks r)) + Z.of_nat (size (rc_views r)) < 2 ^ 31)%Z -> name <> EmptyString ->
  exists file, write_ply point color position show_point show_color o name min opened room r = Ok (opened, file) /\
    if opened then exists ts us lines text, file = Some text /\ text `prefix_of` ply_text lines /\
      (forall t, t ∈ ts <-> well_observed r min t) /\ (forall u, u ∈ us <-> est_view r u) /\ shows r track_line view_line ts us lines
    else file = None.
Proof.
  intros o name min opened room r Hc Hsize Hname. destruct opened.
  - destruct (write_ply_lemma o name min room r Hc Hsize Hname) as (ts & us & lines & E & _ & _ & H1 & H2 & H3). eexists. split; [exact E|]. exists ts, us, lines. eexists. split; [done|]. split; [|done].
    exists (drop room (ply_text lines)). by rewrite take_drop.
  - exists None. unfold write_ply. rewrite bool_decide_eq_true_2 by (destruct name; [done|cbn; lia]). done.
Qed.
End props.
Print Assumptions ply_contents.
Print Assumptions ply_result_partial.

(** Concrete cases: track 0 is written; track 1 has two observations and track 2 is not estimated; view 1 is not estimated. *)
Definition ply_ops : list (rc_op N N N) :=
  [OAddView ord_id "a"; OAddView ord_id "b"; OAddView ord_id "c"; OAddTrack [(0, 7); (1, 7); (2, 7)]%N; OAddTrack [(0, 7); (1, 7)]%N; OAddTrack [(0, 7); (1, 7); (2, 7)]%N;
   OSetTrack 0 true 5; OSetTrack 1 true 6; OSetView 0 true 1; OSetView 2 true 2]%N.
Definition ply_sample : option (recon N N N) := match run_obs (rc_step 0%N 0%N) rc_empty ply_ops with Ok (r, _) => Some r | _ => None end.
Notation write_sample name opened room r := (write_ply (fun d => d) (fun d => (Z.of_N d, 0, 0)%Z) (fun c => c) (fun a : N => pretty a) (fun c => pretty c.1.2) ord_id name 3 opened room r).
Lemma ply_sample_ok : exists r, ply_sample = Some r /\ consistent r /\ (Z.of_nat (size (rc_tracks r)) + Z.of_nat (size (rc_views r)) < 2 ^ 31)%Z.
Proof.
  unfold ply_sample. assert (K : match run_obs (rc_step 0%N 0%N) rc_empty ply_ops with Ok (r, _) => (size (rc_tracks r) + size (rc_views r))%nat = 6%nat | _ => False end) by (vm_compute; reflexivity).
  destruct (run_obs _ _ _) as [[r rs]| | |] eqn:E; [|destruct K|destruct K|destruct K]. exists r. split; [reflexivity|]. split; [|lia]. refine (reachable_consistent N N N 0%N 0%N ply_ops r rs _ E). vm_compute. reflexivity.
Qed.
Example ply_contents_sample : match ply_sample with
  | Some r => write_sample "scene.ply" true 100 r = Ok (true, Some
      (["ply"; "format ascii 1.0"; "element vertex 3"; "property float x"; "property float y"; "property float z"; "property uchar red"; "property uchar green"; "property uchar blue"; "end_header";
        "5 0"; "1 255"; "2 255"])) /\ write_sample "scene.ply" false 100 r = Ok (false, None)
  | None => False end.
Proof. vm_compute. split; reflexivity. Qed.

(** C157, refuted: when a write fails, true is returned although the file is not complete. *)
Theorem ply_result_refuted : exists (r : recon N N N) room, consistent r /\ (Z.of_nat (size (rc_tracks r)) + Z.of_nat (size (rc_views r)) < 2 ^ 31)%Z /\
  exists text, write_sample "scene.ply" true room r = Ok (true, Some text) /\ forall lines, text <> ply_text lines.
Proof.
  destruct ply_sample_ok as (r & E & Hc & Hs). exists r, 11%nat. split; [exact Hc|]. split; [exact Hs|].
  assert (K : match ply_sample with Some r => match write_sample "scene.ply" true 11 r with
    Ok (true, Some text) => length text = 11%nat /\ text !! 2%nat = Some "element vertex 3" | _ => False end | None => False end) by (vm_compute; split; reflexivity).
  rewrite E in K. destruct (write_ply _ _ _ _ _ _ _ _ _ _ _) as [[b f]| | |]; [|destruct K|destruct K|destruct K]. destruct b; [|destruct K]. destruct f as [text|]; [|destruct K].
  exists text. split; [reflexivity|]. destruct K as [K1 K2]. intros lines ->. unfold ply_text in K1, K2. rewrite app_length in K1. cbn [length] in K1. cbn in K2.
  assert (L : length lines = 1%nat) by lia. rewrite L in K2. vm_compute in K2. discriminate K2.
Qed.
Print Assumptions ply_result_refuted.
