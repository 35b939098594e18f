(** C162, C163: image sizes and principal points from images. *)
From stdpp Require Import gmap strings.
From Verif Require Import Base Reconstruction_Model ImageSizes_Model ImageSizes_Spec.

Section props.
Context {F C D I : Type}.
Notation recon := (recon F C D).
Context (path : string -> string) (file_exists : string -> bool) (image_size : string -> Z * Z)
  (with_size : Z * Z -> C -> C) (with_center : Z * Z -> I -> I).
Implicit Types (r : recon) (h : gmap N I).
Notation size_of := (fun n => image_size (path n)).
Notation pop := (populate path file_exists image_size with_size with_center).

Lemma find_files r us : (forall u, u ∈ us -> is_Some (rc_views r !! u)) -> forall b, exists b', run_steps (find_file path file_exists r) b us = Ok b' /\
  (b' = true <-> b = true /\ forall u v, u ∈ us -> rc_views r !! u = Some v -> file_exists (path (v_name v)) = true).
Proof.
  induction us as [|u us IH]; intros Hus b. { exists b. split; [done|]. split; [|by intros [? _]]. intros ->. split; [done|]. intros u v K. by apply elem_of_nil in K. }
  destruct (Hus u ltac:(by left)) as [v Hv]. cbn [run_steps]. assert (Hs : find_file path file_exists r b u = Ok (b && file_exists (path (v_name v)))).
  { unfold find_file. destruct b; cbn [negb]; [|done]. by rewrite Hv. }
  rewrite Hs. cbn [mbind outcome_bind]. destruct (IH ltac:(intros x Hx; apply Hus; by right) (b && file_exists (path (v_name v)))) as (b' & -> & Hb). exists b'. split; [done|]. rewrite Hb, andb_true_iff. split.
  - intros [[K1 K2] K3]. split; [done|]. intros x y [->|Hx]%elem_of_cons Hy; [congruence|by eapply K3].
  - intros [K1 K2]. split; [split; [done|]|]; [apply (K2 u v); [by left|done]|]. intros x y Hx Hy. apply (K2 x y); [by right|done].
Qed.

Lemma set_sizes (Hw : forall s s' i, with_center s (with_center s' i) = with_center s i) us : forall r h, NoDup us ->
  (forall u, u ∈ us -> exists v, rc_views r !! u = Some v /\ is_Some (h !! v_intr v) /\ (0 < (size_of (v_name v)).1)%Z) ->
  exists r' h', run_steps (set_size path image_size with_size with_center) (r, h) us = Ok (r', h') /\ r' = set_views r (rc_views r') /\
    (forall u, u ∈ us -> rc_views r' !! u = (fun v => View (v_name v) (v_est v) (v_intr v) (with_size (size_of (v_name v)) (v_data v)) (v_feats v)) <$> rc_views r !! u) /\
    (forall u, u ∉ us -> rc_views r' !! u = rc_views r !! u) /\
    forall p, ((forall u v, u ∈ us -> rc_views r !! u = Some v -> v_intr v <> p) /\ h' !! p = h !! p) \/
      exists u v, u ∈ us /\ rc_views r !! u = Some v /\ v_intr v = p /\ h' !! p = with_center (size_of (v_name v)) <$> h !! p.
Proof.
  induction us as [|u us IH]; intros r h Hd Hus.
  { exists r, h. split; [done|]. split; [by destruct r|]. split; [intros u K; by apply elem_of_nil in K|]. split; [done|]. intros p. left. split; [|done]. intros u v K. by apply elem_of_nil in K. }
  apply NoDup_cons in Hd as [Nu Hd]. destruct (Hus u ltac:(by left)) as (v & Hv & [i Hi] & Hpos). cbn [run_steps].
  set (v1 := View (v_name v) (v_est v) (v_intr v) (with_size (size_of (v_name v)) (v_data v)) (v_feats v)).
  assert (Hs : set_size path image_size with_size with_center (r, h) u = Ok (set_views r (<[u := v1]> (rc_views r)), <[v_intr v := with_center (size_of (v_name v)) i]> h)).
  { unfold set_size. rewrite Hv. cbn [or_ub mbind outcome_bind]. rewrite bool_decide_true by done. cbn [check mbind outcome_bind]. rewrite Hi. cbn [or_ub mbind outcome_bind]. unfold rc_set_view. do 3 f_equal.
    apply map_eq. intros x. destruct (decide (x = u)) as [->|Hx]; [rewrite lookup_alter, lookup_insert, Hv; done|by rewrite lookup_alter_ne, lookup_insert_ne by done]. }
  rewrite Hs. cbn [mbind outcome_bind]. set (r1 := set_views r (<[u := v1]> (rc_views r))). set (h1 := <[v_intr v := with_center (size_of (v_name v)) i]> h).
  assert (Hv1 : rc_views r1 !! u = Some v1) by (unfold r1; cbn; by rewrite lookup_insert). assert (Hne : forall x, x <> u -> rc_views r1 !! x = rc_views r !! x) by (intros x Hx; unfold r1; cbn; by rewrite lookup_insert_ne).
  assert (Hin : forall x, x ∈ us -> rc_views r1 !! x = rc_views r !! x) by (intros x Hx; apply Hne; by intros ->).
  destruct (IH r1 h1 Hd) as (r' & h' & -> & E & V1 & V2 & P1).
  { intros x Hx. destruct (Hus x ltac:(by right)) as (y & Hy & [j Hj] & K). exists y. rewrite Hin by done. split; [done|]. split; [|done]. unfold h1. destruct (decide (v_intr y = v_intr v)) as [->|Hn]; [rewrite lookup_insert; eauto|rewrite lookup_insert_ne by done; eauto]. }
  exists r', h'. split; [done|]. split; [rewrite E; by unfold r1, set_views|]. split; [|split].
  - intros x [->|Hx]%elem_of_cons; [rewrite (V2 u Nu), Hv1, Hv; done|]. rewrite (V1 x Hx). by rewrite Hin.
  - intros x Hx. apply not_elem_of_cons in Hx as [Hx1 Hx2]. rewrite (V2 x Hx2). by apply Hne.
  - intros p. destruct (P1 p) as [[K1 K2]|(x & y & Hx & Hy & K1 & K2)].
    + destruct (decide (v_intr v = p)) as [Hp|Hp].
      * right. exists u, v. split; [by left|]. split; [done|]. split; [done|]. rewrite K2. unfold h1. rewrite <- Hp, lookup_insert, Hi. done.
      * left. split; [|rewrite K2; unfold h1; by rewrite lookup_insert_ne]. intros x y [->|Hx]%elem_of_cons Hy; [congruence|]. apply (K1 x y Hx). by rewrite Hin.
    + right. exists x, y. rewrite Hin in Hy by done. split; [by right|]. split; [done|]. split; [done|]. rewrite K2. unfold h1. destruct (decide (v_intr v = p)) as [Hp|Hp]; [|by rewrite lookup_insert_ne].
      rewrite <- Hp, lookup_insert, Hi. cbn. by rewrite Hw.
Qed.

(** C162: if the file of one view is missing, false is returned and nothing has been changed. *)
Theorem sizes_missing : forall (o : order N) r h u v, rc_views r !! u = Some v -> file_exists (path (v_name v)) = false -> pop o r h = Ok (false, r, h).
Proof.
  intros o r h u v Hv Hf. unfold populate. assert (Hin : forall x, x ∈ o (elements (dom (rc_views r))) <-> is_Some (rc_views r !! x)) by (intros x; by rewrite (ord_perm o), elem_of_elements, elem_of_dom).
  destruct (find_files r (o (elements (dom (rc_views r)))) ltac:(intros x; apply Hin) true) as (b & -> & Hb). cbn [mbind outcome_bind]. destruct b; [|done].
  destruct (proj1 Hb eq_refl) as [_ K]. rewrite (K u v) in Hf; [done|apply Hin; by exists v|done].
Qed.
(** Otherwise true is returned, every view has the size of its image, every intrinsics object in use has the center of an image
    that was taken with it, and nothing else has changed. *)
Theorem sizes_set : forall (o : order N) r h, (forall s s' i, with_center s (with_center s' i) = with_center s i) ->
  (forall u v, rc_views r !! u = Some v -> is_Some (h !! v_intr v) /\ file_exists (path (v_name v)) = true /\ (0 < (size_of (v_name v)).1)%Z) ->
  exists r' h', pop o r h = Ok (true, r', h') /\ sized size_of with_size r r' /\ centered_for_one size_of with_center r h h'.
Proof.
  intros o r h Hw Hall. unfold populate. assert (Hin : forall x, x ∈ o (elements (dom (rc_views r))) <-> is_Some (rc_views r !! x)) by (intros x; by rewrite (ord_perm o), elem_of_elements, elem_of_dom).
  destruct (find_files r (o (elements (dom (rc_views r)))) ltac:(intros x; apply Hin) true) as (b & -> & Hb). cbn [mbind outcome_bind].
  assert (b = true) as -> by (apply Hb; split; [done|]; intros u v _ Hv; by apply (Hall u v)). cbn [negb].
  destruct (set_sizes Hw (o (elements (dom (rc_views r)))) r h) as (r' & h' & -> & E & V1 & V2 & P1); [rewrite (ord_perm o); apply NoDup_elements|intros u [v Hv]%Hin; exists v; by destruct (Hall u v Hv) as (? & _ & ?)|].
  cbn [mbind outcome_bind]. exists r', h'. split; [done|]. split.
  - split; [done|]. intros u. destruct (decide (u ∈ o (elements (dom (rc_views r))))) as [Hu|Hu]; [by apply V1|]. rewrite (V2 u Hu). destruct (rc_views r !! u) as [v|] eqn:Ev; [|done]. exfalso. apply Hu, Hin. by exists v.
  - intros p. destruct (P1 p) as [[K1 K2]|(u & v & _ & Hv & K1 & K2)]; [left; split; [|done]; intros u v Hv; apply (K1 u v); [apply Hin; by exists v|done]|right; by exists u, v].
Qed.
(** C163: the principal point of every view is the center of its image.  Proved if images that were taken with the same camera
    have the same size; missing: all other reconstructions, for which [sizes_center_refuted] shows that it is false. *)
Theorem sizes_center_partial : forall (o : order N) r h, (forall s s' i, with_center s (with_center s' i) = with_center s i) ->
  (forall u v, rc_views r !! u = Some v -> is_Some (h !! v_intr v) /\ file_exists (path (v_name v)) = true /\ (0 < (size_of (v_name v)).1)%Z) ->
  (forall u v u' v', rc_views r !! u = Some v -> rc_views r !! u' = Some v' -> v_intr v = v_intr v' -> size_of (v_name v) = size_of (v_name v')) ->
  exists r' h', pop o r h = Ok (true, r', h') /\ centered_for_all size_of with_center r h h'.
Proof.
  intros o r h Hw Hall Hsame. destruct (sizes_set o r h Hw Hall) as (r' & h' & E & _ & Hc). exists r', h'. split; [done|]. intros u v Hv.
  destruct (Hc (v_intr v)) as [[K _]|(u' & v' & Hv' & K1 & ->)]; [by destruct (K u v Hv)|]. by rewrite (Hsame u' v' u v Hv' Hv K1).
Qed.
End props.
Print Assumptions sizes_missing.
Print Assumptions sizes_set.
Print Assumptions sizes_center_partial.

(** Two views that share their intrinsics, and a third.  The image of "b" is wider than that of "a". *)
Definition sizes_ops : list (rc_op N (Z * Z) N) := [OAddView ord_id "a"; OAddViewGroup ord_id "b" 0%N; OAddView ord_id "c"].
Definition sizes_image (n : string) : Z * Z := if decide (n = "b") then (20, 8)%Z else (10, 8)%Z.
Definition sizes_heap : gmap N (Z * Z) := {[ 0%N := (0, 0)%Z; 1%N := (0, 0)%Z; 2%N := (0, 0)%Z ]}.
Notation sizes_run r := (populate (fun n => n) (fun _ => true) sizes_image (fun s _ => s) (fun s _ => (s.1 `div` 2, s.2 `div` 2)%Z) ord_id r sizes_heap).
Example sizes_sample : match run_obs (rc_step (0, 0)%Z 0%N) rc_empty sizes_ops with
  | Ok (r, _) => match sizes_run r with Ok (true, r', h') =>
      (v_data <$> rc_views r' !! 0%N) = Some (10, 8)%Z /\ (v_data <$> rc_views r' !! 1%N) = Some (20, 8)%Z /\ (v_intr <$> rc_views r' !! 0%N) = Some 0%N /\ (v_intr <$> rc_views r' !! 1%N) = Some 0%N /\
      h' !! 0%N = Some (10, 4)%Z | _ => False end
  | _ => False end.
Proof. vm_compute. repeat split; reflexivity. Qed.

(** C163 is false: the intrinsics of "a" and "b" are one object, which cannot have both centers. *)
Theorem sizes_center_refuted : ~ forall (path : string -> string) (image_size : string -> Z * Z) (o : order N) (r : recon N (Z * Z) N) (h : gmap N (Z * Z)),
  (exists ops rs, run_obs (rc_step (0, 0)%Z 0%N) rc_empty ops = Ok (r, rs)) ->
  (forall u v, rc_views r !! u = Some v -> is_Some (h !! v_intr v) /\ (0 < (image_size (path (v_name v))).1)%Z) ->
  exists r' h', populate path (fun _ => true) image_size (fun s _ => s) (fun s _ => (s.1 `div` 2, s.2 `div` 2)%Z) o r h = Ok (true, r', h') /\
    centered_for_all (fun n => image_size (path n)) (fun s _ => (s.1 `div` 2, s.2 `div` 2)%Z) r h h'.
Proof.
  intros H. assert (G : match run_obs (rc_step (0, 0)%Z 0%N) rc_empty sizes_ops with Ok (r, _) =>
      map_Forall (fun _ v => is_Some (sizes_heap !! v_intr v) /\ (0 < (sizes_image (v_name v)).1)%Z) (rc_views r) /\
      ((fun v => (v_intr v, v_name v)) <$> rc_views r !! 0%N) = Some (0%N, "a") /\ ((fun v => (v_intr v, v_name v)) <$> rc_views r !! 1%N) = Some (0%N, "b") | _ => False end).
  { assert (K : match run_obs (rc_step (0, 0)%Z 0%N) rc_empty sizes_ops with Ok (r, _) =>
      forallb (fun kv : N * view N (Z * Z) => bool_decide (is_Some (sizes_heap !! v_intr kv.2)) && bool_decide (0 < (sizes_image (v_name kv.2)).1)%Z) (map_to_list (rc_views r)) = true /\
      ((fun v => (v_intr v, v_name v)) <$> rc_views r !! 0%N) = Some (0%N, "a") /\ ((fun v => (v_intr v, v_name v)) <$> rc_views r !! 1%N) = Some (0%N, "b") | _ => False end) by (vm_compute; repeat split; reflexivity).
    destruct (run_obs _ _ _) as [[r rs]| | |]; [|destruct K..]. destruct K as (K1 & K2). split; [|exact K2]. intros u v Hv. rewrite forallb_forall in K1. specialize (K1 (u, v)). cbn [snd] in K1.
    apply andb_true_iff in K1 as [K3 K4]; [|apply elem_of_list_In; by apply elem_of_map_to_list]. apply bool_decide_eq_true in K3. apply bool_decide_eq_true in K4. done. }
  destruct (run_obs (rc_step (0, 0)%Z 0%N) rc_empty sizes_ops) as [[r rs]| | |] eqn:E; [|destruct G..]. destruct G as (G1 & G2 & G3).
  destruct (H (fun n => n) sizes_image ord_id r sizes_heap) as (r' & h' & _ & K); [by exists sizes_ops, rs|intros u v Hv; exact (G1 u v Hv)|].
  destruct (rc_views r !! 0%N) as [a|] eqn:Ea; [|discriminate G2]. destruct (rc_views r !! 1%N) as [b|] eqn:Eb; [|discriminate G3]. cbn in G2, G3. injection G2 as A1 A2. injection G3 as B1 B2.
  pose proof (K 0%N a Ea) as Ka. pose proof (K 1%N b Eb) as Kb. rewrite A1, A2 in Ka. rewrite B1, B2 in Kb. rewrite Ka in Kb. vm_compute in Kb. discriminate Kb.
Qed.
Print Assumptions sizes_center_refuted.
