(** Properties C72-C74: alignment of point clouds and of reconstructions.  Numbers are reals. *)
From stdpp Require Import gmap strings.
From Coq Require Import Reals Lra.
From Verif Require Import Base Reconstruction_Model Reconstruction_Props SfmQueries_Model SfmQueries_Props Camera_Model Camera_Proofs
  Alignment_Model Alignment_Spec Alignment_Proofs Alignment_Svd Alignment_Recon.
Local Open Scope R_scope.

(** Every matrix has a singular value decomposition, so the contract below can be met. *)
Theorem svd_contract_met : exists svd, svd_contract svd.
Proof. exists exact_svd. exact exact_svd_contract. Qed.
Print Assumptions svd_contract_met.

(** C72.  The alignment is a similarity with the smallest weighted sum of squared distances among all similarities. *)
Theorem alignment_optimal : forall svd left right weights, svd_contract svd ->
  alignable left right weights -> ~ coincident left weights ->
  exists a, align_weighted svd left right weights = Ok (Some a) /\ rotation (s_rotation a) /\ 0 <= s_scale a /\
    forall s Rot t, 0 <= s -> rotation Rot ->
      misfit (zip (zip left right) weights) (s_scale a) (s_rotation a) (s_translation a)
        <= misfit (zip (zip left right) weights) s Rot t.
Proof.
  intros svd left right weights Hs Ha Hc. destruct (align_cases svd left right weights Ha Hs) as [[? _]|[_ H]]; done.
Qed.
Print Assumptions alignment_optimal.

(** C72.  The unweighted version minimizes the plain sum of squared distances. *)
Theorem alignment_unweighted_optimal : forall svd left right, svd_contract svd -> length left = length right ->
  (exists i j a b, left !! i = Some a /\ left !! j = Some b /\ a <> b) ->
  exists a, align_point_clouds svd left right = Ok (Some a) /\ rotation (s_rotation a) /\ 0 <= s_scale a /\
    forall s Rot t, 0 <= s -> rotation Rot ->
      Rsum (fun p => sqdist p.2 (move (s_scale a) (s_rotation a) (s_translation a) p.1)) (zip left right)
        <= Rsum (fun p => sqdist p.2 (move s Rot t p.1)) (zip left right).
Proof.
  intros svd left right Hs Hl (i & j & a & b & Hi & Hj & Hab).
  assert (Hrep : forall k x, left !! k = Some x -> replicate (length left) 1 !! k = Some 1).
  { intros k x Hk. apply lookup_replicate_2. by eapply lookup_lt_Some. }
  destruct (alignment_optimal svd left right (replicate (length left) 1) Hs) as (r & E & HR & Hsc & Hb).
  - split; [done|]. split; [by rewrite replicate_length|]. split; [by intros ->|]. split.
    + apply list.Forall_forall. intros w [-> _]%elem_of_replicate. lra.
    + apply list.Exists_exists. exists 1. split; [|lra]. apply elem_of_list_lookup. exists i. by apply (Hrep i a).
  - intros (c & Hc). apply Hab.
    rewrite (Hc i a 1 Hi (Hrep i a Hi)) by lra. rewrite (Hc j b 1 Hj (Hrep j b Hj)) by lra. done.
  - exists r. split; [done|]. split; [done|]. split; [done|]. intros s Rot t Hs0 HRot. specialize (Hb s Rot t Hs0 HRot).
    assert (Eq : forall s Rot t, misfit (zip (zip left right) (replicate (length left) 1)) s Rot t =
       Rsum (fun p => sqdist p.2 (move s Rot t p.1)) (zip left right)).
    { clear -Hl. revert right Hl. induction left as [|l left IH]; intros [|r right] Hl s Rot t; try done.
      cbn [length replicate zip_with]. unfold misfit, Rsum in *. cbn [foldr fst snd]. rewrite IH by (cbn in Hl; lia). ring. }
    rewrite !Eq in Hb. done.
Qed.
Print Assumptions alignment_unweighted_optimal.

(** C72.  If the right points are the left points moved by a similarity and three of them are not on a line, exactly
    that similarity is returned. *)
Theorem alignment_recovers : forall svd left weights s Rot t, svd_contract svd -> 0 < s -> rotation Rot ->
  length left = length weights -> Forall (fun w => 0 <= w) weights ->
  (exists i j k a b c wi wj wk, left !! i = Some a /\ left !! j = Some b /\ left !! k = Some c /\
     weights !! i = Some wi /\ weights !! j = Some wj /\ weights !! k = Some wk /\ 0 < wi /\ 0 < wj /\ 0 < wk /\ not_collinear a b c) ->
  align_weighted svd left (move s Rot t <$> left) weights = Ok (Some (Similarity Rot t s)).
Proof. intros svd left weights s Rot t Hs. by apply align_recovers. Qed.
Print Assumptions alignment_recovers.

(** C73.  When the alignment is a number, not a number, aborts, or is undefined.  In full the property asks for a
    result for all clouds of the same size. *)
Theorem alignment_defined_partial : forall svd left right weights, svd_contract svd ->
  (alignable left right weights -> ~ coincident left weights -> exists a, align_weighted svd left right weights = Ok (Some a)) /\
  (alignable left right weights -> coincident left weights -> align_weighted svd left right weights = Ok None) /\
  (length left = length right -> length left = length weights -> left = [] -> align_weighted svd left right weights = UB) /\
  (~ alignable left right weights -> (length left = length right -> length left = length weights -> left <> []) ->
     align_weighted svd left right weights = CheckFail).
Proof.
  intros svd left right weights Hs. split; [|split; [|split]].
  - intros Ha Hc. destruct (alignment_optimal svd left right weights Hs Ha Hc) as (a & E & _). eauto.
  - intros Ha Hc. destruct (align_cases svd left right weights Ha Hs) as [[_ E]|[? _]]; done.
  - intros E1 E2 EL. rewrite align_abort; [by rewrite decide_True|]. intros (_ & _ & H & _). done.
  - intros Ha Hne. rewrite align_abort by done. rewrite decide_False; [done|]. intros (E1 & E2 & E3). by apply Hne.
Qed.
Print Assumptions alignment_defined_partial.

(** C73.  Clouds of the same size for which there is no alignment: empty ones, and a single pair of points. *)
Theorem alignment_undefined_refuted : forall svd, svd_contract svd ->
  align_point_clouds svd [] [] = UB /\ forall p q, align_point_clouds svd [p] [q] = Ok None.
Proof.
  intros svd Hs. split.
  - by apply alignment_defined_partial.
  - intros p q. apply alignment_defined_partial; [done| |].
    + split; [done|]. split; [done|]. split; [done|]. split; [by constructor; [lra|]|]. constructor. lra.
    + exists p. intros i l w Hi _ _. destruct i as [|i]; [cbn in Hi; congruence|]. exfalso. by apply lookup_lt_Some in Hi; cbn in Hi; lia.
Qed.
Print Assumptions alignment_undefined_refuted.

(** ** C74: reconstructions *)

(** The name [n] is used in both reconstructions. *)
Definition common {F} (r1 r2 : recon F pose vec4) (n : string) : Prop :=
  (exists u v, rc_views r1 !! u = Some v /\ v_name v = n) /\ (exists u v, rc_views r2 !! u = Some v /\ v_name v = n).

Lemma align_reconstructions_lemma : forall (F : Type) c0 d0 (ops1 ops2 : list (rc_op F pose vec4)) (o ov ot : order N) svd to_aa
    (r1 r2 : recon F pose vec4) rs1 rs2,
  (N.of_nat (length ops1) < 2 ^ 32)%N -> (N.of_nat (length ops2) < 2 ^ 32)%N ->
  run_obs (rc_step c0 d0) rc_empty ops1 = Ok (r1, rs1) -> run_obs (rc_step c0 d0) rc_empty ops2 = Ok (r2, rs2) ->
  svd_contract svd ->
  (exists n n' p q, common r1 r2 n /\ common r1 r2 n' /\ position r2 n p /\ position r2 n' q /\ p <> q) ->
  exists s Rot t, 0 <= s /\ rotation Rot /\
    align_reconstructions svd to_aa o ov ot r1 r2 = Ok (Some (transform_reconstruction ov ot to_aa Rot t s r2)) /\
    forall l p1 p2, NoDup l -> (forall n, n ∈ l <-> common r1 r2 n) ->
      (forall n, n ∈ l -> position r1 n (p1 n) /\ position r2 n (p2 n)) ->
      forall s' Rot' t', 0 <= s' -> rotation Rot' ->
        Rsum (fun n => sqdist (p1 n) (move s Rot t (p2 n))) l <= Rsum (fun n => sqdist (p1 n) (move s' Rot' t' (p2 n))) l.
Proof.
  intros F c0 d0 ops1 ops2 o ov ot svd to_aa r1 r2 rs1 rs2 L1 L2 R1 R2 Hs (n & n' & p & q & Hn & Hn' & Hp & Hq & Hpq).
  destruct (names_bijective _ _ _ _ _ _ _ _ L1 R1) as (A1 & _ & _). destruct (names_bijective _ _ _ _ _ _ _ _ L2 R2) as (A2 & _ & _).
  destruct (common_views_exact _ _ _ _ _ _ _ o _ _ _ _ L1 L2 R1 R2) as (names & En & Hnd & Hnames).
  destruct (positions_of_ok r1 names A1) as (l1 & E1 & P1); [intros m Hm; apply Hnames in Hm; tauto|].
  destruct (positions_of_ok r2 names A2) as (l2 & E2 & P2); [intros m Hm; apply Hnames in Hm; tauto|].
  assert (Hlen : length l2 = length l1). { apply Forall2_length in P1, P2. congruence. }
  assert (Hlook : forall m x, common r1 r2 m -> position r2 m x -> exists i, l2 !! i = Some x).
  { intros m x Hm Hx. apply Hnames in Hm. apply elem_of_list_lookup in Hm as [i Hi]. exists i.
    destruct (Forall2_lookup_l _ _ _ _ _ P2 Hi) as (y & Hy & Py). rewrite Hy. f_equal. by apply (position_unique r2 m). }
  destruct (Hlook n p Hn Hp) as [i Hi]. destruct (Hlook n' q Hn' Hq) as [j Hj].
  destruct (alignment_unweighted_optimal svd l2 l1 Hs Hlen) as (a & Ea & HR & Hsc & Hb); [by exists i, j, p, q|].
  exists (s_scale a), (s_rotation a), (s_translation a). split; [done|]. split; [done|]. split.
  { unfold align_reconstructions. rewrite En. cbn [mbind outcome_bind]. rewrite E1. cbn [mbind outcome_bind]. rewrite E2.
    cbn [mbind outcome_bind]. rewrite Ea. done. }
  intros l p1 p2 Hndl Hl Hpos s' Rot' t' Hs' HR'.
  assert (Hperm : l ≡ₚ names). { apply NoDup_Permutation; [done|done|]. intros m. rewrite Hl, Hnames. done. }
  rewrite !(Rsum_perm _ _ _ Hperm).
  assert (F1 : l1 = p1 <$> names).
  { apply (Forall2_position r1); [done|done|]. intros m Hm. apply Hpos. by rewrite Hperm. }
  assert (F2 : l2 = p2 <$> names).
  { apply (Forall2_position r2); [done|done|]. intros m Hm. apply Hpos. by rewrite Hperm. }
  specialize (Hb s' Rot' t' Hs' HR').
  assert (Eq : forall s Rot t, Rsum (fun p => sqdist p.2 (move s Rot t p.1)) (zip l2 l1) =
     Rsum (fun m => sqdist (p1 m) (move s Rot t (p2 m))) names).
  { rewrite F1, F2. clear. intros s Rot t. induction names as [|m names IH]; [done|].
    cbn [fmap list_fmap zip_with]. unfold Rsum in *. cbn [foldr fst snd]. by rewrite IH. }
  rewrite !Eq in Hb. done.
Qed.

(** C74.  If all common views of the second reconstruction are estimated, and two of them have different positions,
    the second reconstruction is moved by one similarity, and no similarity brings the common views closer. *)
Theorem align_reconstructions_optimal_partial : forall (F : Type) c0 d0 (ops1 ops2 : list (rc_op F pose vec4)) (o ov ot : order N)
    svd to_aa (r1 r2 : recon F pose vec4) rs1 rs2,
  (N.of_nat (length ops1) < 2 ^ 32)%N -> (N.of_nat (length ops2) < 2 ^ 32)%N ->
  run_obs (rc_step c0 d0) rc_empty ops1 = Ok (r1, rs1) -> run_obs (rc_step c0 d0) rc_empty ops2 = Ok (r2, rs2) ->
  svd_contract svd ->
  (forall u v, rc_views r2 !! u = Some v -> common r1 r2 (v_name v) -> v_est v = true) ->
  (exists n n' p q, common r1 r2 n /\ common r1 r2 n' /\ position r2 n p /\ position r2 n' q /\ p <> q) ->
  exists s Rot t r2', align_reconstructions svd to_aa o ov ot r1 r2 = Ok (Some r2') /\ 0 <= s /\ rotation Rot /\
    r2' = transform_reconstruction ov ot to_aa Rot t s r2 /\
    forall l p1 p2 p2', NoDup l -> (forall n, n ∈ l <-> common r1 r2 n) ->
      (forall n, n ∈ l -> position r1 n (p1 n) /\ position r2 n (p2 n) /\ position r2' n (p2' n)) ->
      forall s' Rot' t', 0 <= s' -> rotation Rot' ->
        Rsum (fun n => sqdist (p1 n) (p2' n)) l <= Rsum (fun n => sqdist (p1 n) (move s' Rot' t' (p2 n))) l.
Proof.
  intros F c0 d0 ops1 ops2 o ov ot svd to_aa r1 r2 rs1 rs2 L1 L2 R1 R2 Hs Hest Hdif.
  destruct (align_reconstructions_lemma F c0 d0 ops1 ops2 o ov ot svd to_aa r1 r2 rs1 rs2 L1 L2 R1 R2 Hs Hdif)
    as (s & Rot & t & Hsn & HR & E & Hb).
  exists s, Rot, t. eexists. split; [exact E|]. split; [done|]. split; [done|]. split; [done|].
  intros l p1 p2 p2' Hnd Hl Hpos s' Rot' t' Hs' HR'.
  destruct (names_bijective _ _ _ _ _ _ _ _ L2 R2) as (A2 & _ & _).
  rewrite (Rsum_ext (fun n => sqdist (p1 n) (p2' n)) (fun n => sqdist (p1 n) (move s Rot t (p2 n)))).
  - apply Hb; [done|done| |done|done]. intros n Hn. destruct (Hpos n Hn) as (H1 & H2 & _). done.
  - intros n Hn. f_equal. destruct (Hpos n Hn) as (_ & (u & v & Hu & Nv & ->) & (u' & v' & Hu' & Nv' & ->)).
    rewrite transform_views in Hu'. destruct (rc_views r2 !! u') as [w|] eqn:Hw; [|done]. cbn in Hu'. injection Hu' as <-.
    assert (Nw : v_name w = n) by (revert Nv'; unfold transform_view; by destruct (v_est w)).
    pose proof (A2 n u v Hu Nv) as B1. pose proof (A2 n u' w Hw Nw) as B2. assert (u' = u) as -> by congruence.
    assert (w = v) as -> by congruence. unfold transform_view. rewrite (Hest u v Hu); [|rewrite Nv; by apply Hl].
    cbn [v_data transform_camera p_pos]. unfold transform_point, move. by rewrite mapply_mscale.
Qed.
Print Assumptions align_reconstructions_optimal_partial.

(** C74.  If the common cameras differ only by a similarity, they coincide afterwards. *)
Theorem align_reconstructions_exact_partial : forall (F : Type) c0 d0 (ops1 ops2 : list (rc_op F pose vec4)) (o ov ot : order N)
    svd to_aa (r1 r2 : recon F pose vec4) rs1 rs2 s Rot t,
  (N.of_nat (length ops1) < 2 ^ 32)%N -> (N.of_nat (length ops2) < 2 ^ 32)%N ->
  run_obs (rc_step c0 d0) rc_empty ops1 = Ok (r1, rs1) -> run_obs (rc_step c0 d0) rc_empty ops2 = Ok (r2, rs2) ->
  svd_contract svd ->
  (forall u v, rc_views r2 !! u = Some v -> common r1 r2 (v_name v) -> v_est v = true) ->
  (exists n n' p q, common r1 r2 n /\ common r1 r2 n' /\ position r2 n p /\ position r2 n' q /\ p <> q) ->
  0 <= s -> rotation Rot -> (forall n p q, position r1 n p -> position r2 n q -> p = move s Rot t q) ->
  exists r2', align_reconstructions svd to_aa o ov ot r1 r2 = Ok (Some r2') /\
    forall n p q, position r1 n p -> position r2' n q -> p = q.
Proof.
  intros F c0 d0 ops1 ops2 o ov ot svd to_aa r1 r2 rs1 rs2 s Rot t L1 L2 R1 R2 Hs Hest Hdif Hs0 HR Hsim.
  destruct (align_reconstructions_optimal_partial F c0 d0 ops1 ops2 o ov ot svd to_aa r1 r2 rs1 rs2 L1 L2 R1 R2 Hs Hest Hdif)
    as (s1 & Rot1 & t1 & r2' & E & _ & _ & Er & Hb).
  exists r2'. split; [done|]. intros n p q Hp Hq.
  destruct (names_bijective _ _ _ _ _ _ _ _ L1 R1) as (A1 & _ & _). destruct (names_bijective _ _ _ _ _ _ _ _ L2 R2) as (A2 & _ & _).
  destruct (common_views_exact _ _ _ _ _ _ _ o _ _ _ _ L1 L2 R1 R2) as (l & _ & Hnd & Hl).
  assert (Hback : forall m x', position r2' m x' -> exists u v, rc_views r2 !! u = Some v /\ v_name v = m /\
     rc_views r2' !! u = Some (transform_view to_aa Rot1 t1 s1 v) /\ x' = p_pos (v_data (transform_view to_aa Rot1 t1 s1 v))).
  { intros m x' (u & v & Hu & Nv & ->). rewrite Er, transform_views in Hu. destruct (rc_views r2 !! u) as [w|] eqn:Hw; [|done].
    cbn in Hu. injection Hu as <-. exists u, w. split; [done|]. split; [revert Nv; unfold transform_view; by destruct (v_est w)|].
    split; [by rewrite Er, transform_views, Hw|done]. }
  pose (pos := fun (r : recon F pose vec4) (m : string) => match rc_views r !! rc_view_id_from_name r m with Some v => p_pos (v_data v) | None => V3 0 0 0 end).
  assert (Hpos : forall r m, named r -> (exists u v, rc_views r !! u = Some v /\ v_name v = m) -> position r m (pos r m)).
  { intros r m Hn (u & v & Hu & Nv). exists u, v. split; [done|]. split; [done|]. unfold pos. by rewrite (Hn m u v Hu Nv), Hu. }
  assert (N2' : named r2').
  { intros m u v Hu Nv. rewrite Er, transform_views in Hu. destruct (rc_views r2 !! u) as [w|] eqn:Hw; [|done]. cbn in Hu. injection Hu as <-.
    rewrite Er. change (rc_view_id_from_name (transform_reconstruction ov ot to_aa Rot1 t1 s1 r2) m) with (rc_view_id_from_name r2 m).
    apply (A2 m u w Hw). revert Nv. unfold transform_view. by destruct (v_est w). }
  assert (Hc : n ∈ l).
  { apply Hl. split; [destruct Hp as (u & v & ? & ? & _); eauto|]. destruct (Hback n q Hq) as (u & v & ? & ? & _). eauto. }
  assert (HP : forall m, m ∈ l -> position r1 m (pos r1 m) /\ position r2 m (pos r2 m) /\ position r2' m (pos r2' m)).
  { intros m Hm. apply Hl in Hm as [H1 H2]. split; [by apply Hpos|]. split; [by apply Hpos|]. apply Hpos; [done|].
    destruct H2 as (u & v & Hu & Nv). exists u, (transform_view to_aa Rot1 t1 s1 v). rewrite Er, transform_views, Hu. split; [done|].
    unfold transform_view. by destruct (v_est v). }
  specialize (Hb l (pos r1) (pos r2) (pos r2') Hnd Hl HP s Rot t Hs0 HR).
  assert (Z : Rsum (fun n => sqdist (pos r1 n) (move s Rot t (pos r2 n))) l = 0).
  { transitivity (Rsum (fun _ : string => 0 * 0) l); [|rewrite Rsum_scale; ring]. apply Rsum_ext. intros m Hm.
    destruct (HP m Hm) as (H1 & H2 & _). rewrite (Hsim m _ _ H1 H2). unfold sqdist, dot, vsub. cbn. ring. }
  assert (Hnn : forall m, m ∈ l -> 0 <= sqdist (pos r1 m) (pos r2' m)) by (intros; apply dot_nonneg).
  pose proof (Rsum_nonneg _ l Hnn) as H0.
  assert (Z' : Rsum (fun n => sqdist (pos r1 n) (pos r2' n)) l = 0) by lra.
  pose proof (Rsum_zero _ l Hnn Z' n Hc) as Hz. apply sqdist_zero in Hz.
  destruct (HP n Hc) as (H1 & _ & H3). rewrite (position_unique r1 n p (pos r1 n)), (position_unique r2' n q (pos r2' n)); done.
Qed.
Print Assumptions align_reconstructions_exact_partial.

(** ** Samples *)
Definition al_ops (pa pb pe : pose) (ee : bool) : list (rc_op unit pose vec4) :=
  [OAddView ord_id "a"; OAddView ord_id "b"; OAddView ord_id "e"; OSetView 0 true pa; OSetView 1 true pb; OSetView 2 ee pe].
Definition al_sample (c0 : pose) (d0 : vec4) (pa pb pe : pose) (ee : bool) : option (recon unit pose vec4) :=
  match run_obs (rc_step c0 d0) rc_empty (al_ops pa pb pe ee) with Ok (r, _) => Some r | _ => None end.
Definition at_pos (x : R) : pose := Pose (V3 0 0 0) (V3 x 0 0).

Lemma al_sample_facts c0 d0 pa pb pe ee : exists r rs, run_obs (rc_step c0 d0) rc_empty (al_ops pa pb pe ee) = Ok (r, rs) /\
  (exists v, rc_views r !! 0%N = Some v /\ v_name v = "a" /\ v_est v = true /\ v_data v = pa) /\
  (exists v, rc_views r !! 1%N = Some v /\ v_name v = "b" /\ v_est v = true /\ v_data v = pb) /\
  (exists v, rc_views r !! 2%N = Some v /\ v_name v = "e" /\ v_est v = ee /\ v_data v = pe) /\
  (forall u v, rc_views r !! u = Some v -> u = 0%N \/ u = 1%N \/ u = 2%N).
Proof.
  assert (T : match run_obs (rc_step c0 d0) rc_empty (al_ops pa pb pe ee) with
    | Ok (r, _) => (fun v => (v_name v, v_est v, v_data v)) <$> rc_views r !! 0%N = Some ("a", true, pa) /\
        (fun v => (v_name v, v_est v, v_data v)) <$> rc_views r !! 1%N = Some ("b", true, pb) /\
        (fun v => (v_name v, v_est v, v_data v)) <$> rc_views r !! 2%N = Some ("e", ee, pe) /\
        (map_to_list (rc_views r)).*1 = [0; 1; 2]%N
    | _ => False end).
  { destruct pa as [pa1 pa2], pb as [pb1 pb2], pe as [pe1 pe2]. vm_compute. repeat split. }
  destruct (run_obs (rc_step c0 d0) rc_empty (al_ops pa pb pe ee)) as [[r rs]| | |] eqn:E; [|destruct T..].
  exists r, rs. split; [reflexivity|]. clear E. destruct T as (T0 & T1 & T2 & TD). apply fmap_Some in T0, T1, T2.
  destruct T0 as (v0 & H0 & E0), T1 as (v1 & H1 & E1), T2 as (v2 & H2 & E2).
  split; [exists v0; split; [done|]; injection E0; auto|]. split; [exists v1; split; [done|]; injection E1; auto|].
  split; [exists v2; split; [done|]; injection E2; auto|].
  intros u v Hv. assert (Hu : u ∈ (map_to_list (rc_views r)).*1).
  { apply elem_of_list_fmap. exists (u, v). split; [done|]. by apply elem_of_map_to_list. }
  rewrite TD, !elem_of_cons, elem_of_nil in Hu. tauto.
Qed.

(** C74.  Views that are not estimated count as well: two reconstructions agree on all cameras that are estimated in
    both, and aligning them pulls these cameras apart. *)
Theorem align_reconstructions_refuted : forall c0 d0 svd to_aa (o ov ot : order N), svd_contract svd ->
  exists r1 rs1 r2 rs2 r2', run_obs (rc_step c0 d0) rc_empty (al_ops (at_pos 1) (at_pos (-1)) (at_pos 3) true) = Ok (r1, rs1) /\
    run_obs (rc_step c0 d0) rc_empty (al_ops (at_pos 1) (at_pos (-1)) (at_pos 0) false) = Ok (r2, rs2) /\
    (forall u v u' v', rc_views r1 !! u = Some v -> rc_views r2 !! u' = Some v' -> v_name v = v_name v' ->
       v_est v = true -> v_est v' = true -> v_data v = v_data v') /\
    align_reconstructions svd to_aa o ov ot r1 r2 = Ok (Some r2') /\
    exists u v u' v', rc_views r1 !! u = Some v /\ rc_views r2' !! u' = Some v' /\ v_name v = v_name v' /\
      v_est v = true /\ v_est v' = true /\ p_pos (v_data v) <> p_pos (v_data v').
Proof.
  intros c0 d0 svd to_aa o ov ot Hs.
  destruct (al_sample_facts c0 d0 (at_pos 1) (at_pos (-1)) (at_pos 3) true) as (r1 & rs1 & R1 & (a1 & Ha1 & Na1 & Ea1 & Da1) & (b1 & Hb1 & Nb1 & Eb1 & Db1) & (e1 & He1 & Ne1 & Ee1 & De1) & C1).
  destruct (al_sample_facts c0 d0 (at_pos 1) (at_pos (-1)) (at_pos 0) false) as (r2 & rs2 & R2 & (a2 & Ha2 & Na2 & Ea2 & Da2) & (b2 & Hb2 & Nb2 & Eb2 & Db2) & (e2 & He2 & Ne2 & Ee2 & De2) & C2).
  assert (Ca : common r1 r2 "a") by (split; eauto). assert (Cb : common r1 r2 "b") by (split; eauto). assert (Ce : common r1 r2 "e") by (split; eauto).
  destruct (align_reconstructions_lemma unit c0 d0 (al_ops (at_pos 1) (at_pos (-1)) (at_pos 3) true) (al_ops (at_pos 1) (at_pos (-1)) (at_pos 0) false) o ov ot svd to_aa r1 r2 rs1 rs2 eq_refl eq_refl R1 R2 Hs) as (s & Rot & t & Hsn & HR & E & Hb).
  { clear R1 R2. exists "a", "b", (V3 1 0 0), (V3 (-1) 0 0). split; [done|]. split; [done|]. split; [exists 0%N, a2; by rewrite Da2|].
    split; [exists 1%N, b2; by rewrite Db2|]. intros H. injection H. lra. }
  exists r1, rs1, r2, rs2. eexists. split; [exact R1|]. split; [exact R2|]. clear R1 R2. split; [|split; [exact E|]].
  { intros u v u' v' Hu Hu' Hn Ev Ev'.
    destruct (C1 u v Hu) as [->|[->| ->]], (C2 u' v' Hu') as [->|[->| ->]]; rewrite ?Ha1, ?Hb1, ?He1, ?Ha2, ?Hb2, ?He2 in *; congruence. }
  apply Classical_Prop.NNPP. intros Hno.
  assert (Ta : move s Rot t (V3 1 0 0) = V3 1 0 0).
  { apply Classical_Prop.NNPP. intros Hne. apply Hno. exists 0%N, a1, 0%N, (transform_view to_aa Rot t s a2).
    rewrite transform_views, Ha2. split; [done|]. split; [done|]. unfold transform_view. rewrite Ea2. cbn [v_name v_est v_data transform_camera p_pos].
    rewrite Na1, Na2, Ea1, Da1, Da2. repeat split. intros H. apply Hne. cbn [at_pos p_pos] in H. unfold transform_point in H. rewrite mapply_mscale in H. by symmetry. }
  assert (Tb : move s Rot t (V3 (-1) 0 0) = V3 (-1) 0 0).
  { apply Classical_Prop.NNPP. intros Hne. apply Hno. exists 1%N, b1, 1%N, (transform_view to_aa Rot t s b2).
    rewrite transform_views, Hb2. split; [done|]. split; [done|]. unfold transform_view. rewrite Eb2. cbn [v_name v_est v_data transform_camera p_pos].
    rewrite Nb1, Nb2, Eb1, Db1, Db2. repeat split. intros H. apply Hne. cbn [at_pos p_pos] in H. unfold transform_point in H. rewrite mapply_mscale in H. by symmetry. }
  clear Hno.
  specialize (Hb ["a"; "b"; "e"] (fun n => if decide (n = "a") then V3 1 0 0 else if decide (n = "b") then V3 (-1) 0 0 else V3 3 0 0)
     (fun n => if decide (n = "a") then V3 1 0 0 else if decide (n = "b") then V3 (-1) 0 0 else V3 0 0 0)).
  assert (K : Rsum (fun n => sqdist (if decide (n = "a") then V3 1 0 0 else if decide (n = "b") then V3 (-1) 0 0 else V3 3 0 0)
     (move s Rot t (if decide (n = "a") then V3 1 0 0 else if decide (n = "b") then V3 (-1) 0 0 else V3 0 0 0))) ["a"; "b"; "e"] <=
    Rsum (fun n => sqdist (if decide (n = "a") then V3 1 0 0 else if decide (n = "b") then V3 (-1) 0 0 else V3 3 0 0)
     (move 1 mid (V3 1 0 0) (if decide (n = "a") then V3 1 0 0 else if decide (n = "b") then V3 (-1) 0 0 else V3 0 0 0))) ["a"; "b"; "e"]).
  { apply Hb; [| | |lra|apply rotation_mid].
    - repeat constructor; rewrite ?elem_of_cons, ?elem_of_nil; naive_solver.
    - intros n. split; [rewrite !elem_of_cons, elem_of_nil; intros [->|[->|[->|[]]]]; done|].
      intros [(u & v & Hu & <-) _]. destruct (C1 u v Hu) as [->|[->| ->]]; rewrite ?Ha1, ?Hb1, ?He1 in Hu; injection Hu as <-;
        rewrite ?Na1, ?Nb1, ?Ne1, !elem_of_cons; tauto.
    - intros n. rewrite !elem_of_cons, elem_of_nil. intros [->|[->|[->|[]]]]; cbn [decide]; split.
      + exists 0%N, a1. by rewrite Da1.
      + exists 0%N, a2. by rewrite Da2.
      + exists 1%N, b1. by rewrite Db1.
      + exists 1%N, b2. by rewrite Db2.
      + exists 2%N, e1. by rewrite De1.
      + exists 2%N, e2. by rewrite De2. }
  clear Hb. cbn [Rsum foldr] in K. unfold Rsum in K. cbn [foldr] in K.
  rewrite !(decide_True (P := "a" = "a")), !(decide_True (P := "b" = "b")), !(decide_False (P := "b" = "a")), !(decide_False (P := "e" = "a")), !(decide_False (P := "e" = "b")) in K by done.
  rewrite Ta, Tb in K.
  assert (T0 : move s Rot t (V3 0 0 0) = V3 0 0 0).
  { unfold move, mapply, vadd, vscale, dot in *. cbn [x3 y3 z3] in *. injection Ta as X1 X2 X3. injection Tb as Y1 Y2 Y3. f_equal; lra. }
  rewrite T0 in K. unfold move, mapply, mid, sqdist, dot, vadd, vsub, vscale in K. cbn [x3 y3 z3 row0 row1 row2] in K. lra.
Qed.
Print Assumptions align_reconstructions_refuted.

(** The hypotheses of the theorems are met: a cloud and its mirror image (no rotation maps one to the other), and a
    cloud that spans space. *)
Example alignment_sample : let left := [V3 3 0 0; V3 0 2 0; V3 0 0 1; V3 (-1) (-1) (-1)] in
  alignable left ((fun p => vscale (-1) p) <$> left) [1; 1; 0; 2] /\ ~ coincident left [1; 1; 0; 2] /\
  not_collinear (V3 3 0 0) (V3 0 2 0) (V3 (-1) (-1) (-1)).
Proof.
  split; [|split].
  - split; [done|]. split; [done|]. split; [done|]. split; [repeat constructor; lra|]. constructor. lra.
  - intros (c & Hc). assert (E1 := Hc 0%nat (V3 3 0 0) 1 eq_refl eq_refl ltac:(lra)).
    assert (E2 := Hc 1%nat (V3 0 2 0) 1 eq_refl eq_refl ltac:(lra)). rewrite <- E2 in E1. injection E1. lra.
  - unfold not_collinear, cross, vsub. cbn. intros H. injection H. lra.
Qed.
Example align_reconstructions_sample : forall c0 d0, exists r rs, run_obs (rc_step c0 d0) rc_empty (al_ops (at_pos 1) (at_pos (-1)) (at_pos 3) true) = Ok (r, rs) /\
  (forall u v, rc_views r !! u = Some v -> common r r (v_name v) -> v_est v = true) /\
  (exists n n' p q, common r r n /\ common r r n' /\ position r n p /\ position r n' q /\ p <> q).
Proof.
  intros c0 d0.
  destruct (al_sample_facts c0 d0 (at_pos 1) (at_pos (-1)) (at_pos 3) true) as (r1 & rs1 & R1 & (a1 & Ha1 & Na1 & Ea1 & Da1) & (b1 & Hb1 & Nb1 & Eb1 & Db1) & (e1 & He1 & Ne1 & Ee1 & De1) & C1).
  exists r1, rs1. split; [exact R1|]. clear R1. split.
  - intros u v Hu _. destruct (C1 u v Hu) as [->|[->| ->]]; congruence.
  - exists "a", "b", (V3 1 0 0), (V3 (-1) 0 0). split; [split; eauto|]. split; [split; eauto|]. split; [exists 0%N, a1; by rewrite Da1|].
    split; [exists 1%N, b1; by rewrite Db1|]. intros H. injection H. lra.
Qed.
