(** The colors that ColorizeReconstruction gives to tracks. *)
From stdpp Require Import gmap strings.
From Coq Require Import QArith Qcanon Qround Lqa.
From Verif Require Import Base Reconstruction_Model Reconstruction_Spec Reconstruction_Props Colorize_Model Colorize_Spec Colorize_Proofs.

(** C144.  With color images that contain the features, and tracks that are seen: whatever the schedule of the threads and the orders of
    the containers, every track gets the mean color of the pixels of its features, and nothing else changes. *)
Theorem colorize_mean : forall (C P : Type) (c0 : C) (d0 : P * bytes) (ops : list (rc_op feature C (P * bytes))) r rs files directory_exists ot (o ov : order N) sched dir num_threads,
  (N.of_nat (length ops) < 2 ^ 32)%N -> run_obs (rc_step c0 d0) rc_empty ops = Ok (r, rs) ->
  directory_exists dir = true -> (0 < num_threads)%Z -> colorable files dir r -> complete r ov sched ->
  exists m, colorize files directory_exists ot o ov sched dir num_threads r = Ok (set_tracks r m) /\
    forall t, m !! t = (fun T => Track (t_est T) ((t_data T).1, track_color files dir r t T) (t_views T)) <$> rc_tracks r !! t.
Proof.
  intros C P c0 d0 ops r rs files dex ot o ov sched dir nt Hlen Hrun Hdir Hnt [Hviews Htracks] Hcomp.
  pose proof (incidence_symmetric _ _ _ c0 d0 ops r rs Hlen Hrun) as Inc. clear Hrun Hlen.
  unfold colorize. rewrite Hdir. cbn [check mbind outcome_bind]. rewrite bool_decide_eq_true_2 by done. cbn [check mbind outcome_bind].
  set (ids := o (elements (dom (rc_tracks r)))). set (ts := dom (rc_tracks r)) in *. assert (Pids : ids ≡ₚ elements ts) by apply ord_perm.
  assert (Hids : forall t, t ∈ ids <-> t ∈ ts). { intros t. rewrite Pids. apply elem_of_elements. }
  set (us := ov (elements (dom (rc_views r)))) in *. assert (Pus : us ≡ₚ elements (dom (rc_views r))) by apply ord_perm.
  assert (Hus : forall u, u ∈ us <-> is_Some (rc_views r !! u)). { intros u. rewrite Pus, elem_of_elements. apply elem_of_dom. }
  destruct (new_tasks files r dir us []) as (ks & Ek & Fk).
  { intros u Hu. apply Hus in Hu as [v Ev]. destruct (Hviews u v Ev) as (im & Ef & _). by exists v, im. }
  cbn [app] in Ek. rewrite Ek. cbn [mbind outcome_bind]. destruct (colors_init ids) as [Di Zi]. set (c1 := foldl _ _ ids) in *.
  assert (Dts : dom c1 = ts). { rewrite Di. apply set_eq. intros t. rewrite elem_of_list_to_set. apply Hids. }
  destruct (pool_run_ok files ot ts (fun t => outstanding files t ks) sched c1 ks Dts) as (c2 & ks' & Er & Hfin & Dc2 & Hc2).
  { apply Forall_lookup. intros i k Eik. destruct (Forall2_lookup_r _ _ _ _ _ Fk Eik) as (u & Eu & v & Ev & ->). split; [exact (Hviews u v Ev)|].
    intros t Ht. apply elem_of_dom in Ht. destruct (proj2 (Inc u t)) as (T & ET & _); [by exists v|]. by eapply elem_of_dom_2. }
  { intros t c Hc. rewrite (Zi t c Hc). apply vadd_0_l. }
  { intros i k Eik. destruct (Forall2_lookup_r _ _ _ _ _ Fk Eik) as (u & Eu & v & Ev & ->). apply (Hcomp i u v Eu Ev). }
  rewrite Er. cbn [mbind outcome_bind]. rewrite Hfin.
  (* the sum of a track *)
  assert (Tot : forall t, outstanding files t ks = vsum (vscale (Q2Qc 255) <$> omap (pixel_of files dir r t) us)).
  { intros t. rewrite <- omap_scale, <- vsum_omap. unfold outstanding. f_equal. clear - Fk. induction Fk as [|u k us ks (v & Ev & ->) F IH]; [done|]. cbn [fmap list_fmap]. f_equal; [|exact IH].
    cbn [pend]. unfold pixel_of. rewrite Ev. cbn [mbind option_bind]. destruct (v_feats v !! t); destruct (files _); reflexivity. }
  assert (Perm : forall t T, rc_tracks r !! t = Some T -> omap (pixel_of files dir r t) us ≡ₚ omap (pixel_of files dir r t) (elements (t_views T))).
  { intros t T ET. apply omap_perm; [rewrite Pus; apply NoDup_elements|apply NoDup_elements|]. intros u Hu. rewrite elem_of_elements, Hus. split.
    - intros [v Ev]. destruct (proj2 (Inc u t)) as (T' & ET' & HT'); [|by rewrite ET in ET'; injection ET' as <-]. exists v. split; [done|]. unfold pixel_of in Hu. rewrite Ev in Hu. cbn [mbind option_bind] in Hu. destruct (v_feats v !! t); [by eexists|by destruct Hu].
    - intros HT. destruct (proj1 (Inc u t)) as (v & Ev & _); [by exists T|]. by eexists. }
  assert (Len : forall t T, rc_tracks r !! t = Some T -> length (omap (pixel_of files dir r t) (elements (t_views T))) = size (t_views T) /\
     Forall (fun c : vec => unit_range c.1.1 /\ unit_range c.1.2 /\ unit_range c.2) (omap (pixel_of files dir r t) (elements (t_views T)))).
  { intros t T ET. change (size (t_views T)) with (length (elements (t_views T))). assert (All : Forall (fun u => u ∈ t_views T) (elements (t_views T))) by (apply Forall_forall; intros u; apply elem_of_elements).
    revert All. generalize (elements (t_views T)) as l. induction l as [|u l IH]; intros All; [by split; [|constructor]|]. apply Forall_cons in All as [Hu All]. destruct (IH All) as [I1 I2].
    destruct (proj1 (Inc u t)) as (v & Ev & [f Ef]); [by exists T|]. destruct (Hviews u v Ev) as (im & Eim & G). assert (Ep : pixel_of files dir r t u = Some (im_pixel im (Qfloor (this f.1)) (Qfloor (this f.2)))). { unfold pixel_of. rewrite Ev. cbn [mbind option_bind]. rewrite Ef. cbn [mbind option_bind]. rewrite Eim. reflexivity. }
    assert (Eo : omap (pixel_of files dir r t) (u :: l) = im_pixel im (Qfloor (this f.1)) (Qfloor (this f.2)) :: omap (pixel_of files dir r t) l) by (cbn [omap list_omap]; rewrite Ep; reflexivity). rewrite Eo. cbn [length].
    split; [by rewrite I1|]. constructor; [apply G|exact I2]. }
  destruct (mean_steps c2 (fun t => match rc_tracks r !! t with Some T => track_color files dir r t T | None => (0, 0, 0)%Z end) ids r) as (m & Em & Hm).
  { rewrite Pids. apply NoDup_elements. }
  { intros t Ht. apply Hids, elem_of_dom in Ht. exact Ht. }
  { intros r' t T Ht E' ET. unfold mean_step. assert (exists c, c2 !! t = Some c) as [c Ec]. { apply elem_of_dom. rewrite Dc2. by apply Hids. }
    rewrite Ec. cbn [or_die mbind outcome_bind]. rewrite E'. cbn [or_ub mbind outcome_bind]. rewrite (Hc2 t c Ec), Tot. rewrite (vsum_perm _ _ (fmap_Permutation _ _ _ (Perm t T ET))), vsum_parts.
    destruct (Len t T ET) as [L R]. unfold track_color. set (l := omap (pixel_of files dir r t) (elements (t_views T))) in *.
    assert (Hsz : size (t_views T) <> 0%nat). { intros K. apply size_empty_inv in K. apply (Htracks t T ET). by apply leibniz_equiv. }
    rewrite decide_False by exact Hsz. cbn [vscale]. assert (Hl : l <> []). { intros K. rewrite K in L. cbn in L. congruence. }
    assert (M : forall g : vec -> Qc, Forall (fun c => unit_range (g c)) l -> to_byte (/ Q2Qc (inject_Z (Z.of_nat (size (t_views T)))) * (Q2Qc 255 * sum (g <$> l)))%Qc = Ok (mean_byte (g <$> l))).
    { intros g Hg. rewrite <- L, <- (fmap_length g l). apply mean_ok; [by destruct l|]. by apply Forall_fmap. }
    rewrite (M (fun c => c.1.1)) by (eapply Forall_impl; [exact R|]; intros ? K; apply K). cbn [mbind outcome_bind].
    rewrite (M (fun c => c.1.2)) by (eapply Forall_impl; [exact R|]; intros ? K; apply K). cbn [mbind outcome_bind].
    rewrite (M (fun c => c.2)) by (eapply Forall_impl; [exact R|]; intros ? K; apply K). cbn [mbind outcome_bind]. rewrite ET. reflexivity. }
  exists m. split; [exact Em|]. intros t. rewrite Hm. destruct (rc_tracks r !! t) as [T|] eqn:ET.
  - rewrite decide_True; [done|]. apply Hids. by eapply elem_of_dom_2.
  - destruct (decide (t ∈ ids)); done.
Qed.
Print Assumptions colorize_mean.

(** * Cases *)
Definition red_image : image := Image 3 4 4 (fun x y => (Q2Qc 1, Q2Qc 0, Q2Qc (1 # 2))).
Definition dark_image : image := Image 3 4 4 (fun x y => if decide (x = 1 /\ y = 2)%Z then (Q2Qc 0, Q2Qc 0, Q2Qc 1) else (Q2Qc 1, Q2Qc 1, Q2Qc 1)).
Definition two_files (s : string) : option image :=
  if decide (s = "images/a.jpg"%string) then Some red_image else if decide (s = "images/b.jpg"%string) then Some dark_image else None.
Definition a_reconstruction : list (rc_op feature unit (unit * bytes)) :=
  [OAddView ord_id "a.jpg"; OAddView ord_id "b.jpg"; OAddTrack [(0%N, (Q2Qc (5 # 2), Q2Qc 0)); (1%N, (Q2Qc (7 # 4), Q2Qc (5 # 2)))]].
Definition start : outcome (recon feature unit (unit * bytes) * list rc_res) := run_obs (rc_step tt (tt, (0, 0, 0)%Z)) rc_empty a_reconstruction.
Example colorize_case : match start with
  | Ok (r, _) => match colorize two_files (fun _ => true) (fun _ => ord_id) ord_id ord_rev [0; 1; 1; 0]%nat "images/" 2 r with
                 | Ok r' => (t_data <$> rc_tracks r' !! 0%N) = Some (tt, (127, 0, 191)%Z) /\ complete r ord_rev [0; 1; 1; 0]%nat /\ bool_decide (rc_tracks r !! 0%N = None) = false
                 | _ => False end
  | _ => False end.
Proof.
  assert (E : match start with
  | Ok (r, _) => match colorize two_files (fun _ => true) (fun _ => ord_id) ord_id ord_rev [0; 1; 1; 0]%nat "images/" 2 r with
                 | Ok r' => (t_data <$> rc_tracks r' !! 0%N) = Some (tt, (127, 0, 191)%Z) /\ forallb (fun u => match rc_views r !! u with Some v => bool_decide (S (size (v_feats v)) <= 2)%nat | None => true end) (elements (dom (rc_views r))) = true
                     /\ length (elements (dom (rc_views r))) = 2%nat /\ bool_decide (is_Some (rc_tracks r !! 0%N)) = true
                 | _ => False end
  | _ => False end) by (vm_compute; repeat split).
  destruct start as [[r rs]| | |]; [|destruct E..]. destruct (colorize _ _ _ _ _ _ _ _ r) as [r'| | |]; [|destruct E..]. destruct E as (E1 & E2 & E3 & E4). split; [exact E1|]. split.
  - intros i u v Eu Ev. assert (Hi : (i < 2)%nat). { rewrite <- E3. apply lookup_lt_Some in Eu. by rewrite (Permutation_length (ord_perm ord_rev _)) in Eu. }
    rewrite forallb_forall in E2. specialize (E2 u). rewrite Ev in E2. assert (S (size (v_feats v)) <= 2)%nat. { assert (K : u ∈ elements (dom (rc_views r))); [|apply elem_of_list_In in K; specialize (E2 K); by apply bool_decide_eq_true_1 in E2]. rewrite <- (ord_perm ord_rev). by eapply elem_of_list_lookup_2. }
    destruct i as [|[|i]]; [exact H|exact H|lia].
  - apply bool_decide_eq_true_1 in E4. apply bool_decide_eq_false_2. intros K. rewrite K in E4. by destruct E4.
Qed.
Lemma unit_ok q : Qle_bool 0 (this q) && Qle_bool (this q) 1 = true -> unit_range q.
Proof. intros H. apply andb_prop in H as [H1 H2]. apply Qle_bool_iff in H1, H2. split; [exact H1|exact H2]. Qed.
Example colorable_case : match start with Ok (r, _) => colorable two_files "images/" r | _ => False end.
Proof.
  assert (E : match start with
    | Ok (r, _) => map_to_list (rc_views r) = [(0%N, View "a.jpg" false 0 tt {[ 0%N := (Q2Qc (5 # 2), Q2Qc 0) ]}); (1%N, View "b.jpg" false 1 tt {[ 0%N := (Q2Qc (7 # 4), Q2Qc (5 # 2)) ]})] /\
        forallb (fun tT => bool_decide (t_views tT.2 <> ∅)) (map_to_list (rc_tracks r)) = true
    | _ => False end) by (vm_compute; split; reflexivity).
  destruct start as [[r rs]| | |]; [|destruct E..]. destruct E as [E1 E2]. split.
  - intros u v Ev. apply elem_of_map_to_list in Ev. rewrite E1 in Ev. apply elem_of_cons in Ev as [Ev|Ev]; [|apply elem_of_cons in Ev as [Ev|Ev]; [|by apply elem_of_nil in Ev]]; injection Ev as -> ->; cbn [v_name v_feats].
    + exists red_image. split; [reflexivity|]. split; [done|]. split; [done|]. split; [done|]. split; [intros x y; cbn; split; [by apply unit_ok|split; by apply unit_ok]|].
      intros t f K. apply lookup_singleton_Some in K as [_ <-]. cbn [fst snd im_width im_height red_image]. repeat split; (apply Qle_bool_iff; vm_compute; reflexivity) || (vm_compute; reflexivity).
    + exists dark_image. split; [reflexivity|]. split; [done|]. split; [done|]. split; [done|]. split; [intros x y; cbn [dark_image im_pixel]; destruct (decide _); (split; [by apply unit_ok|split; by apply unit_ok])|].
      intros t f K. apply lookup_singleton_Some in K as [_ <-]. cbn [fst snd im_width im_height dark_image]. repeat split; (apply Qle_bool_iff; vm_compute; reflexivity) || (vm_compute; reflexivity).
  - intros t T ET. apply elem_of_map_to_list, elem_of_list_In in ET. rewrite forallb_forall in E2. specialize (E2 (t, T) ET). by apply bool_decide_eq_true_1 in E2.
Qed.

(** C145, refuted.  Grayscale images, which the code means to support, lead to numbers that are not initialized; so does a track that no view
    sees to a division of zero by zero; and the name of the directory has to end with a slash, or the program ends. *)
Definition gray_files (s : string) : option image := match two_files s with Some im => Some (Image 1 (im_width im) (im_height im) (im_pixel im)) | None => None end.
Theorem colorize_gray_refuted : exists ops r rs, run_obs (rc_step tt (tt, (0, 0, 0)%Z)) rc_empty ops = Ok (r, rs) /\
  (forall u v, rc_views r !! u = Some v -> exists im, gray_files ("images/" ++ v_name v)%string = Some im /\ im_channels im = 1%Z) /\
  colorize gray_files (fun _ => true) (fun _ => ord_id) ord_id ord_id [0; 0; 1; 1]%nat "images/" 1 r = UB.
Proof.
  exists a_reconstruction. fold start. assert (E : match start with Ok (r, _) => match colorize gray_files (fun _ => true) (fun _ => ord_id) ord_id ord_id [0; 0; 1; 1]%nat "images/" 1 r with UB => forallb (fun uv => bool_decide (v_name uv.2 = "a.jpg"%string) || bool_decide (v_name uv.2 = "b.jpg"%string)) (map_to_list (rc_views r)) = true | _ => False end | _ => False end) by (vm_compute; reflexivity).
  destruct start as [[r rs]| | |]; [|destruct E..]. exists r, rs. split; [reflexivity|]. destruct (colorize _ _ _ _ _ _ _ _ r) as [r'| | |]; [destruct E|destruct E| |destruct E]. split; [|reflexivity].
  intros u v Ev. rewrite forallb_forall in E. specialize (E (u, v)). cbn [snd] in E. assert (K : bool_decide (v_name v = "a.jpg"%string) || bool_decide (v_name v = "b.jpg"%string) = true). { apply E, elem_of_list_In. by apply elem_of_map_to_list. }
  apply orb_prop in K as [K|K]; apply bool_decide_eq_true_1 in K; rewrite K; eexists; (split; [vm_compute; reflexivity|reflexivity]).
Qed.
Print Assumptions colorize_gray_refuted.
Theorem colorize_empty_track_refuted : exists ops r rs, run_obs (rc_step tt (tt, (0, 0, 0)%Z)) rc_empty ops = Ok (r, rs) /\
  colorize two_files (fun _ => true) (fun _ => ord_id) ord_id ord_id [0; 0; 1; 1]%nat "images/" 1 r = UB /\ ops = a_reconstruction ++ [OAddEmptyTrack].
Proof.
  exists (a_reconstruction ++ [OAddEmptyTrack]). set (s := run_obs _ _ _). assert (E : match s with Ok (r, _) => match colorize two_files (fun _ => true) (fun _ => ord_id) ord_id ord_id [0; 0; 1; 1]%nat "images/" 1 r with UB => True | _ => False end | _ => False end) by (vm_compute; exact I).
  destruct s as [[r rs]| | |]; [|destruct E..]. exists r, rs. split; [reflexivity|]. split; [|reflexivity]. destruct (colorize _ _ _ _ _ _ _ _ r) as [r'| | |]; [destruct E|destruct E|reflexivity|destruct E].
Qed.
Print Assumptions colorize_empty_track_refuted.
Theorem colorize_directory_refuted : exists ops r rs, run_obs (rc_step tt (tt, (0, 0, 0)%Z)) rc_empty ops = Ok (r, rs) /\
  (forall u v, rc_views r !! u = Some v -> is_Some (two_files ("images" ++ "/" ++ v_name v)%string)) /\
  colorize two_files (fun _ => true) (fun _ => ord_id) ord_id ord_id [0; 0; 1; 1]%nat "images" 1 r = CheckFail.
Proof.
  exists a_reconstruction. fold start. assert (E : match start with Ok (r, _) => match colorize two_files (fun _ => true) (fun _ => ord_id) ord_id ord_id [0; 0; 1; 1]%nat "images" 1 r with CheckFail => forallb (fun uv => bool_decide (v_name uv.2 = "a.jpg"%string) || bool_decide (v_name uv.2 = "b.jpg"%string)) (map_to_list (rc_views r)) = true | _ => False end | _ => False end) by (vm_compute; reflexivity).
  destruct start as [[r rs]| | |]; [|destruct E..]. exists r, rs. split; [reflexivity|]. destruct (colorize _ _ _ _ _ _ _ _ r) as [r'| | |]; [destruct E| |destruct E|destruct E]. split; [|reflexivity].
  intros u v Ev. rewrite forallb_forall in E. specialize (E (u, v)). cbn [snd] in E. assert (K : bool_decide (v_name v = "a.jpg"%string) || bool_decide (v_name v = "b.jpg"%string) = true). { apply E, elem_of_list_In. by apply elem_of_map_to_list. }
  apply orb_prop in K as [K|K]; apply bool_decide_eq_true_1 in K; rewrite K; eexists; vm_compute; reflexivity.
Qed.
Print Assumptions colorize_directory_refuted.
(** What holds of it: a directory that does not exist, no threads, or a view without its file end the program. *)
Theorem colorize_checks_partial : forall (C P : Type) files directory_exists ot (o ov : order N) sched dir num_threads (r : recon feature C (P * bytes)),
  directory_exists dir = false \/ (num_threads <= 0)%Z \/ (exists u v, rc_views r !! u = Some v /\ files (dir ++ v_name v)%string = None) ->
  colorize files directory_exists ot o ov sched dir num_threads r = CheckFail.
Proof.
  intros C P files dex ot o ov sched dir nt r H. unfold colorize. destruct (dex dir) eqn:Ed; [|reflexivity]. cbn [check mbind outcome_bind]. destruct (bool_decide_reflect (0 < nt)%Z) as [Hn|Hn]; [|reflexivity]. cbn [check mbind outcome_bind].
  destruct H as [H|[H|(u & v & Ev & Ef)]]; [discriminate|lia|].
  assert (G : forall us ks, (forall u, u ∈ us -> is_Some (rc_views r !! u)) -> u ∈ us -> run_steps (new_task files r dir) ks us = CheckFail).
  { induction us as [|u' us IH]; intros ks Hus Hu; [by apply elem_of_nil in Hu|]. cbn [run_steps]. unfold new_task at 2. destruct (Hus u' ltac:(by left)) as [v' Ev']. rewrite Ev'. cbn [or_ub mbind outcome_bind].
    apply elem_of_cons in Hu as [<-|Hu].
    - rewrite Ev in Ev'. injection Ev' as <-. rewrite bool_decide_eq_false_2; [reflexivity|]. rewrite Ef. by intros [? ?].
    - destruct (bool_decide _); [|reflexivity]. cbn [check mbind outcome_bind]. apply IH; [|exact Hu]. intros w Hw. apply Hus. by right. }
  rewrite G; [reflexivity| |].
  - intros w Hw. rewrite (ord_perm ov) in Hw. by apply elem_of_elements, elem_of_dom in Hw.
  - rewrite (ord_perm ov). apply elem_of_elements. by eapply elem_of_dom_2.
Qed.
Print Assumptions colorize_checks_partial.
Example no_file_case : two_files "imagesa.jpg" = None.
Proof. reflexivity. Qed.
