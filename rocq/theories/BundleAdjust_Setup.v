(** Proofs about bundle adjustment: the flags at the time of the call of the solver, and the result. *)
From stdpp Require Import gmap.
From Coq Require Import Reals.
From Verif Require Import Base Reconstruction_Model SfmQueries_Spec BundleAdjust_Model BundleAdjust_Spec BundleAdjust_Proofs.

Section setup.
Context {F : Type}.
Notation recon := (recon F (list R) (list R)).
Notation residual := (residual (F:=F)).
Notation adjuster := (adjuster (F:=F)).
Implicit Types (a : adjuster) (rs : residual).
Context (os : nat -> N -> order N) (r : recon) (h : gmap N intrinsics) (opts : ba_options).
Hypothesis (Hcons : consistent r) (Halloc : allocated r h) (Hgrp : grouped r).

Notation mask := (intrinsics_to_optimize opts).
Notation cpos := (constant_position opts).
Notation cori := (constant_orientation opts).

Lemma group_intrinsics_ok (u g : N) v : rc_views r !! u = Some v -> rc_view_group r !! u = Some g ->
  group_intrinsics os r g = Ok (v_intr v).
Proof.
  intros Hv Hg. destruct Hgrp as (G1 & G2 & G3 & G4).
  assert (HX : exists X, rc_groups r !! g = Some X /\ u ∈ X) by by apply G2.
  destruct HX as (X & HX & HuX). unfold group_intrinsics. rewrite lookup_total_alt, HX. cbn [default Datatypes.id].
  destruct (os 2 g (elements X)) as [|w l] eqn:E.
  { exfalso. assert (Hu : u ∈ os 2 g (elements X)) by by rewrite ord_perm, elem_of_elements. rewrite E in Hu.
    by apply elem_of_nil in Hu. }
  assert (Hw : w ∈ X) by (apply elem_of_elements; rewrite <- (ord_perm (os 2 g)), E; by left).
  assert (Hwg : rc_view_group r !! w = Some g) by (apply G2; eauto).
  assert (Hws : is_Some (rc_views r !! w)) by (apply G1; eauto).
  destruct Hws as [v' Hv']. rewrite Hv'. cbn. f_equal. apply (G4 w u); [done..|congruence].
Qed.

Definition ptr (g : N) : N := match group_intrinsics os r g with Ok p => p | _ => 0%N end.

Lemma view_group_some (u : N) v : rc_views r !! u = Some v ->
  exists g, rc_view_group r !! u = Some g /\ default kInvalidId (rc_view_group r !! u) = g /\
    group_intrinsics os r g = Ok (v_intr v) /\ ptr g = v_intr v.
Proof.
  intros Hv. destruct Hgrp as (G1 & _). destruct (G1 u) as [H _]. destruct H as [g Hg]; [eauto|].
  exists g. split; [done|]. split; [by rewrite Hg|]. unfold ptr. rewrite (group_intrinsics_ok u g v Hv Hg). done.
Qed.

(** Two groups with views have the same pointer only if they are equal. *)
Lemma same_ptr (u u' : N) v v' g g' : rc_views r !! u = Some v -> rc_views r !! u' = Some v' ->
  rc_view_group r !! u = Some g -> rc_view_group r !! u' = Some g' -> v_intr v = v_intr v' -> g = g'.
Proof.
  intros Hv Hv' Hg Hg' E. destruct Hgrp as (_ & _ & _ & G4). apply (G4 u u' v v' Hv Hv') in E. congruence.
Qed.

Definition l_of (i : intrinsics) : list nat := constant_intrinsics (i_type i) mask.

Lemma num_parameters_pos ty : num_parameters ty <> 0.
Proof. by destruct ty. Qed.

(** The flags handed to the solver. *)
Record ready (V : gset N) a a' : Prop := {
  y_res : ba_residuals a' = ba_residuals a;
  y_dom : forall b, is_Some (ba_blocks a' !! b) <-> is_Some (ba_blocks a !! b);
  y_ext_out : forall u k, u ∉ V -> ba_blocks a' !! BExtrinsics u = Some k -> f_constant k = true;
  y_ext_all : forall u k, cori = true -> cpos = true -> ba_blocks a' !! BExtrinsics u = Some k -> f_constant k = true;
  y_ext_ori : forall u k, u ∈ V -> cori = true -> cpos = false -> ba_blocks a' !! BExtrinsics u = Some k -> f_subset k = Some [3; 4; 5];
  y_ext_pos : forall u k, u ∈ V -> cori = false -> cpos = true -> ba_blocks a' !! BExtrinsics u = Some k -> f_subset k = Some [0; 1; 2];
  y_pt : forall t k, t ∉ ba_tracks a -> ba_blocks a' !! BPoint t = Some k -> f_constant k = true;
  y_int_out : forall p k, (forall u, u ∈ V -> ~ uses r u p) -> ba_blocks a' !! BIntrinsics p = Some k -> f_constant k = true;
  y_int_in : forall u p i k, u ∈ V -> uses r u p -> h !! p = Some i -> ba_blocks a' !! BIntrinsics p = Some k ->
    (length (l_of i) = num_parameters (i_type i) -> f_constant k = true) /\
    (length (l_of i) <> num_parameters (i_type i) -> l_of i <> [] -> f_subset k = Some (l_of i));
  (* nothing else is held constant *)
  z_ext_const : forall u k, ba_blocks a' !! BExtrinsics u = Some k -> f_constant k = true -> u ∉ V \/ cori = true /\ cpos = true;
  z_ext_sub : forall u k c, ba_blocks a' !! BExtrinsics u = Some k -> f_subset k = Some c ->
    (cori = true /\ c = [3; 4; 5]) \/ (cpos = true /\ c = [0; 1; 2]);
  z_pt_const : forall t k, ba_blocks a' !! BPoint t = Some k -> f_constant k = true -> t ∉ ba_tracks a;
  z_pt_sub : forall t k, ba_blocks a' !! BPoint t = Some k -> f_subset k = None;
  z_int_const : forall p k, ba_blocks a' !! BIntrinsics p = Some k -> f_constant k = true ->
    (forall u, u ∈ V -> ~ uses r u p) \/ exists i, h !! p = Some i /\ length (l_of i) = num_parameters (i_type i);
  z_int_sub : forall p k c, ba_blocks a' !! BIntrinsics p = Some k -> f_subset k = Some c -> exists i, h !! p = Some i /\ c = l_of i }.

Definition ext_present (V : gset N) a : Prop :=
  cpos = true \/ cori = true -> forall u, u ∈ V -> is_Some (ba_blocks a !! BExtrinsics u).
Definition int_present (V : gset N) a : Prop :=
  forall u p i, u ∈ V -> uses r u p -> h !! p = Some i -> l_of i <> [] -> is_Some (ba_blocks a !! BIntrinsics p).

Lemma ext_pass (V : gset N) a : ba_views a = V -> (forall b k, ba_blocks a !! b = Some k -> f_subset k = None) ->
  (ext_present V a ->
    exists a1, run_steps (extrinsics_parameterization opts) a (os 3 0%N (elements (ba_views a))) = Ok a1 /\
      ba_residuals a1 = ba_residuals a /\ ba_groups a1 = ba_groups a /\ ba_tracks a1 = ba_tracks a /\
      ba_pot_groups a1 = ba_pot_groups a /\
      (forall u, ba_blocks a1 !! BExtrinsics u =
         (fun k => if decide (u ∈ V) then
                    if cori && cpos then Flags true (f_subset k)
                    else if cori then Flags (f_constant k) (Some [3; 4; 5])
                    else if cpos then Flags (f_constant k) (Some [0; 1; 2]) else k
                  else k) <$> ba_blocks a !! BExtrinsics u) /\
      (forall b, (forall u, b <> BExtrinsics u) -> ba_blocks a1 !! b = ba_blocks a !! b)) /\
  (~ ext_present V a -> run_steps (extrinsics_parameterization opts) a (os 3 0%N (elements (ba_views a))) = CheckFail).
Proof.
  intros HV Hsub.
  set (phi := fun (u : N) (k : flags) =>
    if cori && cpos then Flags true (f_subset k) else if cori then Flags (f_constant k) (Some [3; 4; 5])
    else if cpos then Flags (f_constant k) (Some [0; 1; 2]) else k).
  assert (Hin : forall u, u ∈ os 3 0%N (elements (ba_views a)) <-> u ∈ V)
    by (intros u; rewrite ord_perm, elem_of_elements; by rewrite HV).
  destruct (flag_pass (extrinsics_parameterization opts) (ba_groups a) (fun _ => cori || cpos = true) BExtrinsics phi
    (fun _ k => f_subset k = None) (os 3 0%N (elements (ba_views a))) a) as [A B].
  - intros _. apply _.
  - intros a0 x _ _ Hn Hb. unfold extrinsics_parameterization, set_constant, set_subset.
    destruct cori, cpos; cbn [andb orb] in *; try discriminate Hn; by rewrite Hb.
  - intros a0 x k _ _ Hn Hb Hp. unfold extrinsics_parameterization, set_constant, set_subset, phi.
    destruct cori, cpos; cbn [andb orb] in *; try discriminate Hn; rewrite Hb; cbn [or_die mbind outcome_bind]; try done;
      rewrite Hp; rewrite ?bool_decide_eq_true_2; try done; try (repeat constructor; set_solver);
      vm_compute; reflexivity.
  - intros a0 x _ _ Hn. unfold extrinsics_parameterization. destruct cori, cpos; cbn [andb orb] in *; try done; by destruct Hn.
  - rewrite ord_perm. apply NoDup_elements.
  - intros x y _ _ [= ->]. done.
  - done.
  - intros x k _ Hk. by eapply Hsub.
  - assert (Hiff : (forall x, x ∈ os 3 0%N (elements (ba_views a)) -> cori || cpos = true ->
        is_Some (ba_blocks a !! BExtrinsics x)) <-> ext_present V a).
    { unfold ext_present. split.
      - intros H Ho u Hu. apply H; [by apply Hin|]. destruct Ho as [->| ->]; [apply orb_true_r|done].
      - intros H x Hx Ho. apply H; [|by apply Hin]. apply orb_true_iff in Ho. tauto. }
    rewrite Hiff in A, B. split; [|exact B]. intros H. destruct (A H) as (a1 & E & H1 & H2 & H3 & H4 & H5 & H6 & H7).
    exists a1. split; [done|]. repeat (split; [done|]). split.
    + intros u. destruct (decide (u ∈ V)) as [Hu|Hu].
      * destruct (decide (cori || cpos = true)) as [Ho|Ho].
        -- rewrite (H6 u) by (try apply Hin; done). done.
        -- rewrite H7 by (intros x _ Hx; done). destruct cori, cpos; cbn in *; try done; destruct (ba_blocks a !! _); done.
      * rewrite H7; [by destruct (ba_blocks a !! _)|]. intros x Hx _ [= ->]. by apply Hu, Hin.
    + intros b Hb. apply H7. intros x _ _ Hx. by apply (Hb x).
Qed.

Lemma constants_nonempty i : length (l_of i) = num_parameters (i_type i) -> l_of i <> [].
Proof. intros H E. rewrite E in H. by apply (num_parameters_pos (i_type i)). Qed.

Lemma setup_spec (V ts : gset N) a : (forall u, u ∈ V -> is_Some (rc_views r !! u)) -> tracks_state r h V ts a ->
  (ext_present V a /\ int_present V a -> exists a', setup os r h opts a = Ok a' /\ ready V a a') /\
  (~ (ext_present V a /\ int_present V a) -> setup os r h opts a = CheckFail).
Proof.
  intros HVv (HV & Hts & Han & I). destruct I as [H1 H2 H3 H4 H5 H6 H7 H8 H9].
  unfold setup. destruct (ext_pass V a HV H4) as [A B].
  destruct (Classical_Prop.classic (ext_present V a)) as [Hext|Hext].
  2:{ split; [tauto|]. intros _. by rewrite (B Hext). }
  destruct (A Hext) as (a1 & E1 & R1 & G1 & T1 & P1 & X1 & Y1). rewrite E1. cbn [mbind outcome_bind]. clear A B E1.
  (* groups that have an optimized view *)
  assert (Hgv : forall g, g ∈ ba_groups a1 -> exists u v, u ∈ V /\ rc_views r !! u = Some v /\ rc_view_group r !! u = Some g /\
      group_intrinsics os r g = Ok (v_intr v) /\ ptr g = v_intr v).
  { intros g Hg. rewrite G1, H8 in Hg. destruct Hg as (u & Hu & Hug). rewrite HV in Hu. destruct (HVv u Hu) as [v Hv].
    destruct (view_group_some u v Hv) as (g' & Hg' & Hd & Hgi & Hp). exists u, v.
    assert (g' = g) as -> by congruence. done. }
  assert (Hvg : forall u v, u ∈ V -> rc_views r !! u = Some v -> exists g, g ∈ ba_groups a1 /\ ptr g = v_intr v /\
      rc_view_group r !! u = Some g).
  { intros u v Hu Hv. destruct (view_group_some u v Hv) as (g & Hg & Hd & Hgi & Hp). exists g. split; [|done].
    rewrite G1, H8. exists u. by rewrite HV. }
  set (need := fun g => match h !! ptr g with Some i => l_of i <> [] | None => False end).
  set (phi := fun g k => match h !! ptr g with
     | Some i => if decide (length (l_of i) = num_parameters (i_type i)) then Flags true (f_subset k) else Flags (f_constant k) (Some (l_of i))
     | None => k end).
  assert (Hdec : forall g, Decision (need g)).
  { intros g. unfold need. destruct (h !! ptr g); apply _. }
  assert (Hin2 : forall g, g ∈ os 4 0%N (elements (ba_groups a1)) <-> g ∈ ba_groups a1)
    by (intros g; by rewrite ord_perm, elem_of_elements).
  assert (Hi : forall g, g ∈ ba_groups a1 -> exists i, h !! ptr g = Some i /\ group_intrinsics os r g = Ok (ptr g)).
  { intros g Hg. destruct (Hgv g Hg) as (u & v & _ & Hv & _ & Hgi & Hp). destruct (Halloc u v Hv) as [i Hi].
    exists i. split; congruence. }
  destruct (flag_pass (intrinsics_parameterization os r h opts) (ba_groups a1) need (fun g => BIntrinsics (ptr g)) phi
    (fun _ k => f_subset k = None) (os 4 0%N (elements (ba_groups a1))) a1 Hdec) as [A B].
  - intros a0 g Hg _ Hn Hb. apply Hin2 in Hg. destruct (Hi g Hg) as (i & Hi1 & Hi2).
    unfold intrinsics_parameterization. rewrite Hi2. cbn [mbind outcome_bind]. unfold deref. rewrite Hi1. cbn [or_ub mbind outcome_bind].
    unfold need in Hn. rewrite Hi1 in Hn. fold (l_of i). destruct (decide (length (l_of i) = _)).
    + unfold set_constant. by rewrite Hb.
    + rewrite (decide_False (P := l_of i = [])) by done. unfold set_subset. rewrite Hb.
      rewrite (bool_decide_eq_true_2 (NoDup (l_of i))) by apply constant_intrinsics_NoDup.
      rewrite (bool_decide_eq_true_2 (Forall _ (l_of i))) by apply constant_intrinsics_lt. done.
  - intros a0 g k Hg _ Hn Hb Hp. apply Hin2 in Hg. destruct (Hi g Hg) as (i & Hi1 & Hi2).
    unfold intrinsics_parameterization. rewrite Hi2. cbn [mbind outcome_bind]. unfold deref. rewrite Hi1. cbn [or_ub mbind outcome_bind].
    unfold need in Hn. rewrite Hi1 in Hn. unfold phi. rewrite Hi1. fold (l_of i). destruct (decide (length (l_of i) = _)).
    + unfold set_constant. by rewrite Hb.
    + rewrite (decide_False (P := l_of i = [])) by done. unfold set_subset. rewrite Hb.
      rewrite (bool_decide_eq_true_2 (NoDup (l_of i))) by apply constant_intrinsics_NoDup.
      rewrite (bool_decide_eq_true_2 (Forall _ (l_of i))) by apply constant_intrinsics_lt.
      cbn [andb check mbind outcome_bind or_die]. by rewrite Hp.
  - intros a0 g Hg _ Hn. apply Hin2 in Hg. destruct (Hi g Hg) as (i & Hi1 & Hi2).
    unfold intrinsics_parameterization. rewrite Hi2. cbn [mbind outcome_bind]. unfold deref. rewrite Hi1. cbn [or_ub mbind outcome_bind].
    unfold need in Hn. rewrite Hi1 in Hn. fold (l_of i). destruct (decide (length (l_of i) = _)) as [Hl|Hl].
    + by apply constants_nonempty in Hl.
    + destruct (decide (l_of i = [])) as [|Hne]; [done|]. by destruct Hn.
  - rewrite ord_perm. apply NoDup_elements.
  - intros g g' Hg Hg' [= Heq]. apply Hin2 in Hg, Hg'.
    destruct (Hgv g Hg) as (u & v & _ & Hv & Hvgr & _ & Hp). destruct (Hgv g' Hg') as (u' & v' & _ & Hv' & Hvgr' & _ & Hp').
    eapply (same_ptr u u'); [done..|congruence].
  - done.
  - intros g k _ Hk. rewrite Y1 in Hk by done. by eapply H4.
  - assert (Hiff : (forall x, x ∈ os 4 0%N (elements (ba_groups a1)) -> need x -> is_Some (ba_blocks a1 !! BIntrinsics (ptr x)))
      <-> int_present V a).
    { unfold int_present. split.
      - intros H u p i Hu (v & Hv & Hvp) Hhi Hl. destruct (Hvg u v Hu Hv) as (g & Hg & Hpg & _).
        assert (Hb : is_Some (ba_blocks a1 !! BIntrinsics (ptr g))).
        { apply H; [by apply Hin2|]. unfold need. rewrite Hpg, Hvp, Hhi. done. }
        rewrite Y1, Hpg, Hvp in Hb by done. done.
      - intros H g Hg Hn. apply Hin2 in Hg. rewrite Y1 by done. destruct (Hgv g Hg) as (u & v & Hu & Hv & _ & _ & Hp).
        destruct (Hi g Hg) as (i & Hi1 & _). unfold need in Hn. rewrite Hi1 in Hn.
        apply (H u (ptr g) i); [done|exists v; done|done|done]. }
    rewrite Hiff in A, B.
    destruct (Classical_Prop.classic (int_present V a)) as [Hint|Hint].
    2:{ split; [tauto|]. intros _. by rewrite (B Hint). }
    destruct (A Hint) as (a2 & E2 & R2 & G2 & V2 & T2 & P2 & X2 & Y2). rewrite E2. cbn [mbind outcome_bind]. clear A B E2 Hiff.
    split; [|tauto]. intros _.
    assert (Hin3 : forall g, g ∈ os 5 0%N (elements (ba_pot_groups a2)) <-> g ∈ ba_pot_groups a)
      by (intros g; rewrite ord_perm, elem_of_elements; by rewrite P2, P1).
    (* potentially constant groups *)
    assert (Hpv : forall g, g ∈ ba_pot_groups a -> exists rs v, rs ∈ ba_residuals a /\ rc_views r !! rs_view rs = Some v /\
       rs_intr rs = v_intr v /\ rc_view_group r !! rs_view rs = Some g /\ group_intrinsics os r g = Ok (ptr g) /\ ptr g = v_intr v).
    { intros g Hg. apply H9 in Hg. destruct Hg as (rs & Hrs & Hn & Hg). pose proof Hrs as Hrs'. apply H2 in Hrs'.
      destruct Hrs' as [(v & T & i & Hv & _ & _ & _ & _ & Hri & _) _].
      destruct (view_group_some _ v Hv) as (g' & Hg' & Hd & Hgi & Hp). exists rs, v.
      assert (g' = g) as -> by congruence. rewrite Hp. done. }
    destruct (flag_pass (constant_group os r) (ba_groups a2) (fun g => g ∉ ba_groups a2) (fun g => BIntrinsics (ptr g))
      (fun _ k => Flags true (f_subset k)) (fun _ _ => True) (os 5 0%N (elements (ba_pot_groups a2))) a2) as [A _].
    + intros g. apply _.
    + intros a0 g Hg HG Hn Hb. apply Hin3 in Hg. destruct (Hpv g Hg) as (rs & v & _ & _ & _ & _ & Hgi & _).
      unfold constant_group. rewrite HG, decide_False by done. rewrite Hgi. cbn [mbind outcome_bind]. unfold set_constant. by rewrite Hb.
    + intros a0 g k Hg HG Hn Hb _. apply Hin3 in Hg. destruct (Hpv g Hg) as (rs & v & _ & _ & _ & _ & Hgi & _).
      unfold constant_group. rewrite HG, decide_False by done. rewrite Hgi. cbn [mbind outcome_bind]. unfold set_constant. by rewrite Hb.
    + intros a0 g Hg HG Hn. unfold constant_group. rewrite HG. rewrite decide_True; [done|].
      destruct (decide (g ∈ ba_groups a2)); [done|by destruct Hn].
    + rewrite ord_perm. apply NoDup_elements.
    + intros g g' Hg Hg' [= Heq]. apply Hin3 in Hg, Hg'.
      destruct (Hpv g Hg) as (rs & v & _ & Hv & _ & Hvgr & _ & Hp).
      destruct (Hpv g' Hg') as (rs' & v' & _ & Hv' & _ & Hvgr' & _ & Hp').
      eapply (same_ptr (rs_view rs) (rs_view rs')); [done..|congruence].
    + done.
    + done.
    + (* dom of a2 *)
      assert (D1 : forall b, is_Some (ba_blocks a1 !! b) <-> is_Some (ba_blocks a !! b)).
      { intros [u|p|t]; [rewrite X1; apply fmap_is_Some|by rewrite Y1|by rewrite Y1]. }
      assert (D2 : forall b, is_Some (ba_blocks a2 !! b) <-> is_Some (ba_blocks a1 !! b)).
      { intros b. destruct (Classical_Prop.classic (exists x, x ∈ os 4 0%N (elements (ba_groups a1)) /\ need x /\ BIntrinsics (ptr x) = b))
          as [(x & Hx & Hnx & <-)|Hno].
        - rewrite X2 by done. apply fmap_is_Some.
        - rewrite Y2; [done|]. intros x Hx Hnx Hb. apply Hno. eauto. }
      destruct A as (a' & E3 & R3 & G3 & V3 & T3 & P3 & X3 & Y3).
      { intros g Hg Hn. apply Hin3 in Hg. destruct (Hpv g Hg) as (rs & v & Hrs & _ & Hri & _ & _ & Hp).
        apply D2, D1, H1. exists rs. split; [done|]. apply elem_of_blocks_of. rewrite Hp, Hri. tauto. }
      assert (D3 : forall b, is_Some (ba_blocks a' !! b) <-> is_Some (ba_blocks a2 !! b)).
      { intros b. destruct (Classical_Prop.classic (exists x, x ∈ os 5 0%N (elements (ba_pot_groups a2)) /\ x ∉ ba_groups a2 /\ BIntrinsics (ptr x) = b))
          as [(x & Hx & Hnx & <-)|Hno].
        - rewrite X3 by done. apply fmap_is_Some.
        - rewrite Y3; [done|]. intros x Hx Hnx Hb. apply Hno. eauto. }
      assert (Ext : forall u, ba_blocks a' !! BExtrinsics u = ba_blocks a1 !! BExtrinsics u).
      { intros u. rewrite Y3, Y2 by done. done. }
      assert (Pt : forall t, ba_blocks a' !! BPoint t = ba_blocks a !! BPoint t).
      { intros t. rewrite Y3, Y2, Y1 by done. done. }
      exists a'. split; [exact E3|]. split.
      * congruence.
      * intros b. rewrite D3, D2. apply D1.
      * intros u k Hu. rewrite Ext, X1. rewrite fmap_Some. intros (k0 & Hk0 & ->). rewrite decide_False by done.
        rewrite (H5 u k0 Hk0), HV. by apply bool_decide_eq_true.
      * intros u k Ho Hp. rewrite Ext, X1. rewrite fmap_Some. intros (k0 & Hk0 & ->). rewrite Ho, Hp. cbn [andb].
        destruct (decide (u ∈ V)) as [Hu|Hu]; [done|]. rewrite (H5 u k0 Hk0), HV. by apply bool_decide_eq_true.
      * intros u k Hu Ho Hp. rewrite Ext, X1. rewrite fmap_Some. intros (k0 & Hk0 & ->). rewrite Ho, Hp, decide_True by done. done.
      * intros u k Hu Ho Hp. rewrite Ext, X1. rewrite fmap_Some. intros (k0 & Hk0 & ->). rewrite Ho, Hp, decide_True by done. done.
      * intros t k Ht. rewrite Pt. intros Hk. rewrite (H7 t k Hk) by tauto. by apply bool_decide_eq_true.
      * intros p k Hno Hk.
        assert (Hb : is_Some (ba_blocks a !! BIntrinsics p)) by (apply D1, D2, D3; eauto).
        apply H1 in Hb. destruct Hb as (rs & Hrs & Hb). apply elem_of_blocks_of in Hb. destruct Hb as [[=]|[[= ->]|[=]]].
        pose proof Hrs as Hrs'. apply H2 in Hrs'. destruct Hrs' as [(v & T & i & Hv & _ & _ & _ & _ & Hri & _) _].
        assert (HnV : rs_view rs ∉ V). { intros HV'. apply (Hno _ HV'). by exists v. }
        destruct (view_group_some _ v Hv) as (g & Hg & Hd & Hgi & Hp).
        assert (Hpot : g ∈ ba_pot_groups a). { apply H9. exists rs. rewrite HV. done. }
        assert (HnG : g ∉ ba_groups a2).
        { rewrite G2. intros HG. destruct (Hgv g HG) as (u & v' & Hu & Hv' & _ & _ & Hp').
          apply (Hno u Hu). exists v'. split; [done|]. congruence. }
        rewrite Hri, <- Hp in Hk. rewrite X3 in Hk by (try apply Hin3; done). rewrite fmap_Some in Hk.
        destruct Hk as (k0 & _ & ->). done.
      * intros u p i k Hu (v & Hv & Hvp) Hhi Hk. subst p. destruct (Hvg u v Hu Hv) as (g & Hg & Hpg & Hug).
        assert (Hsame : ba_blocks a' !! BIntrinsics (v_intr v) = ba_blocks a2 !! BIntrinsics (v_intr v)).
        { apply Y3. intros x Hx Hnx [= Hxp]. apply Hin3 in Hx. destruct (Hpv x Hx) as (rs & v' & _ & Hv' & _ & Hg' & _ & Hp').
          apply Hnx. rewrite G2. assert (x = g) as ->; [|done]. eapply (same_ptr (rs_view rs) u); [done..|congruence]. }
        rewrite Hsame in Hk.
        assert (Hx2 : l_of i <> [] -> ba_blocks a2 !! BIntrinsics (v_intr v) = phi g <$> ba_blocks a1 !! BIntrinsics (v_intr v)).
        { intros Hl. rewrite <- Hpg. apply X2; [by apply Hin2|]. unfold need. by rewrite Hpg, Hhi. }
        split.
        -- intros Hl. rewrite Hx2 in Hk by by apply constants_nonempty. rewrite fmap_Some in Hk. destruct Hk as (k0 & _ & ->).
           unfold phi. rewrite Hpg, Hhi. by rewrite decide_True.
        -- intros Hl Hl'. rewrite Hx2 in Hk by done. rewrite fmap_Some in Hk. destruct Hk as (k0 & _ & ->).
           unfold phi. rewrite Hpg, Hhi. by rewrite decide_False.
      * intros u k. rewrite Ext, X1. rewrite fmap_Some. intros (k0 & Hk0 & ->).
        destruct (decide (u ∈ V)) as [Hu|Hu]; [|tauto].
        assert (Hc0 : f_constant k0 = false). { rewrite (H5 u k0 Hk0), HV. apply bool_decide_eq_false. tauto. }
        destruct cori, cpos; cbn; rewrite ?Hc0; try done. tauto.
      * intros u k c. rewrite Ext, X1. rewrite fmap_Some. intros (k0 & Hk0 & ->).
        pose proof (H4 _ k0 Hk0) as Hs0.
        destruct (decide (u ∈ V)) as [Hu|Hu]; [|congruence].
        destruct cori, cpos; cbn; rewrite ?Hs0; try done; intros [= <-]; tauto.
      * intros t k. rewrite Pt. intros Hk. rewrite (H7 t k Hk) by tauto. by rewrite bool_decide_eq_true.
      * intros t k. rewrite Pt. apply H4.
      * intros p k Hk Hc.
        destruct (Classical_Prop.classic (exists x, x ∈ os 5 0%N (elements (ba_pot_groups a2)) /\ x ∉ ba_groups a2 /\ ptr x = p))
          as [(x & Hx & Hnx & <-)|Hno].
        { left. intros u Hu (v & Hv & Hvp). apply Hin3 in Hx. destruct (Hpv x Hx) as (rs & v' & _ & Hv' & _ & Hg' & _ & Hp').
          destruct (Hvg u v Hu Hv) as (g & Hg & Hpg & Hug). apply Hnx. rewrite G2.
          assert (x = g) as ->; [|done]. eapply (same_ptr (rs_view rs) u); [done..|congruence]. }
        rewrite Y3 in Hk by (intros x Hx Hnx [= Hb]; apply Hno; eauto).
        destruct (Classical_Prop.classic (exists x, x ∈ os 4 0%N (elements (ba_groups a1)) /\ need x /\ ptr x = p))
          as [(x & Hx & Hnx & <-)|Hno2].
        { rewrite X2 in Hk by done. rewrite fmap_Some in Hk. destruct Hk as (k0 & Hk0 & ->). right.
          apply Hin2 in Hx. destruct (Hi x Hx) as (i & Hi1 & _). exists i. split; [done|].
          unfold phi in Hc. rewrite Hi1 in Hc. destruct (decide _) as [Hl|Hl]; [done|]. cbn in Hc.
          rewrite Y1 in Hk0 by done. rewrite (H6 _ _ Hk0) in Hc. discriminate Hc. }
        rewrite Y2, Y1 in Hk by (done || (intros x Hx Hnx [= Hb]; apply Hno2; eauto)).
        rewrite (H6 _ _ Hk) in Hc. discriminate Hc.
      * intros p k c Hk Hc.
        assert (Hk2 : exists k2, ba_blocks a2 !! BIntrinsics p = Some k2 /\ f_subset k2 = Some c).
        { destruct (Classical_Prop.classic (exists x, x ∈ os 5 0%N (elements (ba_pot_groups a2)) /\ x ∉ ba_groups a2 /\ ptr x = p))
            as [(x & Hx & Hnx & <-)|Hno].
          - rewrite X3 in Hk by done. rewrite fmap_Some in Hk. destruct Hk as (k0 & Hk0 & ->). cbn in Hc. eauto.
          - rewrite Y3 in Hk by (intros x Hx Hnx [= Hb]; apply Hno; eauto). eauto. }
        destruct Hk2 as (k2 & Hk2 & Hc2).
        destruct (Classical_Prop.classic (exists x, x ∈ os 4 0%N (elements (ba_groups a1)) /\ need x /\ ptr x = p))
          as [(x & Hx & Hnx & <-)|Hno2].
        { rewrite X2 in Hk2 by done. rewrite fmap_Some in Hk2. destruct Hk2 as (k0 & Hk0 & ->).
          apply Hin2 in Hx. destruct (Hi x Hx) as (i & Hi1 & _). exists i. split; [done|].
          unfold phi in Hc2. rewrite Hi1 in Hc2. rewrite Y1 in Hk0 by done. pose proof (H4 _ _ Hk0) as Hs0.
          destruct (decide _) as [Hl|Hl]; cbn in Hc2; congruence. }
        rewrite Y2, Y1 in Hk2 by (done || (intros x Hx Hnx [= Hb]; apply Hno2; eauto)).
        rewrite (H4 _ _ Hk2) in Hc2. discriminate Hc2.
Qed.
End setup.
