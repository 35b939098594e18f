(** C159, C160: COLMAP files. *)
From stdpp Require Import gmap strings.
From Verif Require Import Base Reconstruction_Model Reconstruction_Spec Reconstruction_Proofs Reconstruction_Lemmas SfmQueries_Spec
  ReconstructionBuilder_Model ReconstructionBuilder_Spec ReconstructionBuilder_Proofs ColmapFile_Model ColmapFile_Spec ColmapFile_Proofs.

Section props.
Context {F C D W P T S A K : Type} (dims : C -> W) (pose : C -> P) (point : D -> T)
  (intr : N -> S) (pinhole : S -> bool) (linear : S -> A) (k1 k2 : S -> K).
Notation recon := (recon F C D).
Notation write := (write_colmap dims pose point intr pinhole linear k1).

(** Reached from an empty reconstruction, by fewer than 2^32 calls. *)
Definition reached (c0 : C) (d0 : D) (r : recon) : Prop :=
  exists ops rs, (N.of_nat (length ops) < 2 ^ 32)%N /\ run_obs (rc_step c0 d0) rc_empty ops = Ok (r, rs).
Lemma reached_ok c0 d0 r : reached c0 d0 r -> ok r.
Proof. intros (ops & rs & Hl & Hr). destruct (reach_rel c0 d0 ops r rs Hl Hr) as (a & _ & R & W0 & _). by exists a. Qed.

(** C159: if all estimated views have pinhole cameras, three files are written that show the estimated part of the
    reconstruction and refer to each other correctly.  The second distortion parameter is the subject of C160; what the file
    has in its place is the first. *)
Theorem colmap_contents : forall c0 d0 (o : order N) (og ov ot : N -> order N) r, reached c0 d0 r ->
  (forall u v, rc_views r !! u = Some v -> v_est v = true -> pinhole (intr (v_intr v)) = true) ->
  exists cameras images points, write o og ov ot true true true r = Ok (true, Some cameras, Some images, Some points) /\
    cameras_shown dims intr linear k1 k1 r cameras /\ images_shown pose r images /\ points_shown point r images points.
Proof.
  intros c0 d0 o og ov ot r Hr Hp. destruct (create_estimated_part o r (reached_ok c0 d0 r Hr)) as (e & E & He & Hpart). unfold write_colmap. rewrite E. cbn [mbind outcome_bind negb].
  destruct (cameras_ok dims intr pinhole linear k1 o og e He) as (cs & Ec & Hcs).
  { intros u v' Hv'. destruct (part_view r e u v' Hpart Hv') as (v & Hv & Ev & _ & -> & _). by apply (Hp u). }
  rewrite Ec. cbn [mbind outcome_bind negb]. destruct (images_ok pose o ov e He) as (is & Ei & His). rewrite Ei. cbn [mbind outcome_bind negb].
  destruct (points_ok point o ov ot e He) as (ps & Ep & Hps). rewrite Ep. cbn [mbind outcome_bind]. exists cs, is, ps. split; [done|].
  split; [by eapply cameras_shown_ok|]. split; [by eapply images_shown_ok|by eapply points_shown_ok].
Qed.
(** With an estimated view of another camera model the function returns false and writes neither images nor points. *)
Theorem colmap_other_model : forall c0 d0 (o : order N) (og ov ot : N -> order N) open2 open3 r u v, reached c0 d0 r ->
  rc_views r !! u = Some v -> v_est v = true -> pinhole (intr (v_intr v)) = false ->
  exists cameras, write o og ov ot true open2 open3 r = Ok (false, Some cameras, None, None).
Proof.
  intros c0 d0 o og ov ot open2 open3 r u v Hr Hv Ev Hp. destruct (create_estimated_part o r (reached_ok c0 d0 r Hr)) as (e & E & He & Hpart). unfold write_colmap. rewrite E. cbn [mbind outcome_bind negb].
  destruct (part_view' r e u v Hpart Hv Ev) as (v' & Hv' & Ei). destruct (cameras_not dims intr pinhole linear k1 o og e u v' He Hv') as (cs & Ec); [by rewrite Ei|]. rewrite Ec. by exists cs.
Qed.
(** A file that cannot be opened makes the function return false; it does not end the program. *)
Theorem colmap_unopened : forall c0 d0 (o : order N) (og ov ot : N -> order N) open1 open2 open3 r, reached c0 d0 r -> open1 && open2 && open3 = false ->
  exists files1 files2, write o og ov ot open1 open2 open3 r = Ok (false, files1, files2, None).
Proof.
  intros c0 d0 o og ov ot open1 open2 open3 r Hr Ho. destruct (create_estimated_part o r (reached_ok c0 d0 r Hr)) as (e & E & He & Hpart). unfold write_colmap. rewrite E. cbn [mbind outcome_bind].
  destruct open1; cbn [negb]; [|by eexists _, _].
  assert (Hc : exists cs go, cameras_file dims intr pinhole linear k1 o og e = Ok (cs, go)).
  { destruct (decide (map_Forall (fun _ v => pinhole (intr (v_intr v)) = true) (rc_views e))) as [Ha|Ha].
    - destruct (cameras_ok dims intr pinhole linear k1 o og e He Ha) as (cs & -> & _). by eexists _, _.
    - apply map_not_Forall in Ha as (u & v & Hv & Hn); [|apply _]. destruct (cameras_not dims intr pinhole linear k1 o og e u v He Hv) as (cs & ->); [by destruct (pinhole _)|]. by eexists _, _. }
  destruct Hc as (cs & go & ->). cbn [mbind outcome_bind]. destruct go; cbn [negb]; [|by eexists _, _]. destruct open2; cbn [negb]; [|by eexists _, _].
  destruct (images_ok pose o ov e He) as (is & Ei & His). rewrite Ei. cbn [mbind outcome_bind]. destruct open3; [done|]. by eexists _, _.
Qed.

(** C160: the cameras have both distortion parameters.  Proved if the two are equal in every camera; missing: all other
    cameras, for which [colmap_distortion_refuted] shows that it is false. *)
Theorem colmap_distortion_partial : forall c0 d0 (o : order N) (og ov ot : N -> order N) r, reached c0 d0 r ->
  (forall u v, rc_views r !! u = Some v -> v_est v = true -> pinhole (intr (v_intr v)) = true /\ k1 (intr (v_intr v)) = k2 (intr (v_intr v))) ->
  exists cameras images points, write o og ov ot true true true r = Ok (true, Some cameras, Some images, Some points) /\ cameras_shown dims intr linear k1 k2 r cameras.
Proof.
  intros c0 d0 o og ov ot r Hr Hp. destruct (colmap_contents c0 d0 o og ov ot r Hr) as (cs & is & ps & E & (C1 & C2 & C3) & _); [intros u v Hv Ev; by apply (Hp u v)|].
  exists cs, is, ps. split; [done|]. split; [done|]. split; [done|]. intros g w a x y Hc. destruct (C3 g w a x y Hc) as [K1 K2]. split; [done|].
  intros u v Hv Ev Hg. destruct (K2 u v Hv Ev Hg) as (E1 & E2 & E3). split; [done|]. split; [done|]. rewrite E3. by apply (Hp u v).
Qed.
End props.
Print Assumptions colmap_contents.
Print Assumptions colmap_other_model.
Print Assumptions colmap_unopened.
Print Assumptions colmap_distortion_partial.

(** Three views; two share a camera and are estimated, as is one of the two tracks.  The intrinsics of pointer [p] are the
    distortion parameters [p + 5] and [p + 6]. *)
Definition colmap_ops : list (rc_op N N N) :=
  [OAddView ord_id "a"; OAddViewGroup ord_id "b" 0; OAddView ord_id "c"; OAddTrack [(0, 7); (1, 8)]; OAddTrack [(0, 9); (1, 10); (2, 11)];
   OSetTrack 0 false 5; OSetTrack 1 true 6; OSetView 0 true 3; OSetView 1 true 4]%N.
Definition colmap_intr (p : N) : N * N := (p + 5, p + 6)%N.
Notation sample_write := (write_colmap (fun c => c) (fun c => c) (fun d => d) colmap_intr (fun s => bool_decide (s.1 < 6)%N) (fun _ => tt) fst ord_id (fun _ => ord_id) (fun _ => ord_id) (fun _ => ord_id)).
Example colmap_sample : match run_obs (rc_step 0%N 0%N) rc_empty colmap_ops with
  | Ok (r, _) => sample_write true true true r =
      Ok (true, Some [(0, 3, tt, 5, 5)]%N, Some [(0, 3, 0, "a", [(9, 1)]); (1, 4, 0, "b", [(10, 1)])]%N, Some [(1%N, 6%N, [(0%N, 0%nat); (1%N, 0%nat)])])
  | _ => False end.
Proof. vm_compute. reflexivity. Qed.

(** C160 is false: a reconstruction with a pinhole camera whose second distortion parameter differs from the first. *)
Theorem colmap_distortion_refuted : ~ forall (intr : N -> N * N) (o : order N) (og ov ot : N -> order N) (r : recon N N N), reached 0%N 0%N r ->
  exists cameras images points, write_colmap (fun c => c) (fun c => c) (fun d => d) intr (fun _ => true) (fun _ => tt) fst o og ov ot true true true r = Ok (true, Some cameras, Some images, Some points) /\
    cameras_shown (fun c => c) intr (fun _ => tt) fst snd r cameras.
Proof.
  intros H. assert (G : match run_obs (rc_step 0%N 0%N) rc_empty colmap_ops with Ok _ => True | _ => False end) by (vm_compute; exact I).
  destruct (run_obs (rc_step 0%N 0%N) rc_empty colmap_ops) as [[r rs]| | |] eqn:E; [clear G|destruct G..].
  destruct (H colmap_intr ord_id (fun _ => ord_id) (fun _ => ord_id) (fun _ => ord_id) r) as (cs & is & ps & Hw & (_ & _ & H3)).
  { exists colmap_ops, rs. split; [done|exact E]. }
  assert (G : match run_obs (rc_step 0%N 0%N) rc_empty colmap_ops with Ok (r, _) =>
      match write_colmap (fun c => c) (fun c => c) (fun d => d) colmap_intr (fun _ => true) (fun _ => tt) fst ord_id (fun _ => ord_id) (fun _ => ord_id) (fun _ => ord_id) true true true r with
      | Ok (true, Some cs, _, _) => head cs = Some (0, 3, tt, 5, 5)%N | _ => False end /\ rc_view_group r !! 0%N = Some 0%N /\
      match rc_views r !! 0%N with Some v => v_est v = true /\ snd (colmap_intr (v_intr v)) = 6%N | None => False end | _ => False end) by (vm_compute; repeat split; reflexivity).
  rewrite E in G. rewrite Hw in G. destruct G as (G1 & G2 & G3). destruct (rc_views r !! 0%N) as [v|] eqn:Ev; [|destruct G3]. destruct G3 as [G3 G4].
  destruct cs as [|c cs]; [discriminate G1|]. injection G1 as G1. destruct (H3 0%N 3%N tt 5%N 5%N) as [_ K]; [rewrite G1; left|]. destruct (K 0%N v Ev G3 G2) as (_ & _ & K'). rewrite G4 in K'. discriminate K'.
Qed.
Print Assumptions colmap_distortion_refuted.
