From stdpp Require Import gmap strings.
From Coq Require Import Reals Lra.
From Verif Require Import Base Reconstruction_Model BundleAdjust_Model SfmQueries_Spec BundleAdjust_Spec BundleAdjust_Proofs Priors_Model Priors_Spec.

Ltac explicit ps H := repeat (destruct ps as [|? ps]; [discriminate H|]); destruct ps; [clear H|discriminate H].

Definition focal_choice (ty : model_type) (p : prior) : option R :=
  match p_focal p with Some f => Some f | None => guessed ty p FocalLength end.

Lemma has_size_guess {A} (p : prior) (x y : A) :
  (if has_size p then x else y) = (if decide (p_width p <> 0 /\ p_height p <> 0)%Z then x else y).
Proof. unfold has_size. repeat case_bool_decide; destruct (decide _); naive_solver. Qed.

Lemma focal_scale_guess ty : focal_scale ty = (if decide (ty = Fisheye) then 4 / 10 else 12 / 10)%R.
Proof. destruct (decide _) as [->|]; [unfold focal_scale; lra|]. destruct ty; unfold focal_scale; try done; lra. Qed.

Lemma set_focal_ok ty p ps : positive_focal p ->
  set_focal_prior ty p ps = Ok (match focal_choice ty p with Some f => <[0%nat := f]> ps | None => ps end).
Proof.
  intros H. unfold set_focal_prior, focal_choice, set_focal_length, positive_focal in *. destruct (p_focal p) as [f|]; [by destruct (Rlt_dec 0 f)|].
  rewrite has_size_guess, focal_scale_guess. unfold guessed.
  destruct (decide (p_width p <> 0 /\ p_height p <> 0)%Z) as [[Hw Hh]|]; [|done].
  assert (0 < IZR (Z.max (p_width p) (p_height p)))%R by (apply IZR_lt; lia).
  destruct (Rlt_dec _ _) as [|n]; [done|]. exfalso. apply n. destruct (decide _); lra.
Qed.

Lemma set_focal_fail ty p ps : ~ positive_focal p -> set_focal_prior ty p ps = CheckFail.
Proof.
  intros H. unfold set_focal_prior, set_focal_length, positive_focal in *. destruct (p_focal p) as [f|]; [by destruct (Rlt_dec 0 f)|].
  rewrite has_size_guess, focal_scale_guess.
  destruct (decide (p_width p <> 0 /\ p_height p <> 0)%Z) as [[Hw Hh]|]; [|exfalso; lia].
  assert (IZR (Z.max (p_width p) (p_height p)) <= 0)%R by (apply IZR_le; lia).
  destruct (Rlt_dec _ _) as [l|]; [|done]. exfalso. revert l. destruct (decide _); intros; lra.
Qed.

(** The parameters that result, one by one. *)
Definition chosen (ty : model_type) (p : prior) (a : parameter) (x : R) : R :=
  match given p a with Some y => y | None => match guessed ty p a with Some y => y | None => x end end.

Lemma set_other_ok ty p ps : length ps = num_parameters ty ->
  set_other_priors ty p ps = match ty, ps with
    | Pinhole, [x0; x1; x2; x3; x4; x5; x6] =>
        [x0; chosen ty p AspectRatio x1; chosen ty p Skew x2; chosen ty p PrincipalPointX x3; chosen ty p PrincipalPointY x4;
         chosen ty p Radial1 x5; chosen ty p Radial2 x6]
    | PinholeRadialTangential, [x0; x1; x2; x3; x4; x5; x6; x7; x8; x9] =>
        [x0; chosen ty p AspectRatio x1; chosen ty p Skew x2; chosen ty p PrincipalPointX x3; chosen ty p PrincipalPointY x4;
         chosen ty p Radial1 x5; chosen ty p Radial2 x6; chosen ty p Radial3 x7; chosen ty p Tangential1 x8; chosen ty p Tangential2 x9]
    | Fisheye, [x0; x1; x2; x3; x4; x5; x6; x7; x8] =>
        [x0; chosen ty p AspectRatio x1; chosen ty p Skew x2; chosen ty p PrincipalPointX x3; chosen ty p PrincipalPointY x4;
         chosen ty p Radial1 x5; chosen ty p Radial2 x6; chosen ty p Radial3 x7; chosen ty p Radial4 x8]
    | (FOV | DivisionUndistortion), [x0; x1; x2; x3; x4] =>
        [x0; chosen ty p AspectRatio x1; chosen ty p PrincipalPointX x2; chosen ty p PrincipalPointY x3; chosen ty p Radial1 x4]
    | _, _ => []
    end.
Proof.
  intros Hl. assert (E75 : kDefaultOmega = (75 / 100)%R) by (unfold kDefaultOmega; lra).
  destruct p as [w h m f pt a s ra ta].
  destruct ty; explicit ps Hl; unfold set_other_priors;
      unfold has_size, chosen, given, guessed; cbn [p_width p_height p_point p_aspect p_skew p_radial p_tangential];
      (destruct (decide (w <> 0 /\ h <> 0)%Z) as [[Hw Hh]|Hn];
        [rewrite (bool_decide_false (w = 0)%Z) by done; rewrite (bool_decide_false (h = 0)%Z) by done
        |replace (negb (bool_decide (w = 0)%Z) && negb (bool_decide (h = 0)%Z)) with false by (repeat case_bool_decide; cbn; tauto)]);
      cbn [negb andb];
      destruct pt as [[? ?]|], a as [?|], s as [?|], ra as [[[[? ?] ?] ?]|], ta as [[? ?]|]; cbn; rewrite <-?E75; reflexivity.
Qed.

Lemma set_from_prior_ok ty p ps : length ps = num_parameters ty -> positive_focal p ->
  exists ps', set_from_prior ty p ps = Ok ps' /\ agrees ty p ps ps'.
Proof.
  intros Hl Hp. unfold set_from_prior. rewrite set_focal_ok by done. cbn [mbind outcome_bind]. eexists; split; [done|].
  rewrite set_other_ok by (destruct (focal_choice ty p); rewrite ?insert_length; done).
  unfold focal_choice. remember (guessed ty p FocalLength) as G eqn:EG.
  destruct ty; explicit ps Hl; (split; [by destruct (p_focal p), G|]);
    intros [] j Hj; cbn in Hj; try discriminate Hj; injection Hj as <-;
    unfold chosen; cbn [given]; rewrite <-?EG; clear EG; destruct (p_focal p) as [f|], G as [g|]; cbn -[guessed];
    try done; repeat case_match; done.
Qed.

Lemma set_from_prior_fail ty p ps : ~ positive_focal p -> set_from_prior ty p ps = CheckFail.
Proof. intros H. unfold set_from_prior. by rewrite set_focal_fail. Qed.

Lemma agrees_unique ty p ps a b : agrees ty p ps a -> agrees ty p ps b -> a = b.
Proof.
  intros [La Ha] [Lb Hb]. apply list_eq. intros j.
  destruct (decide (j < num_parameters ty)%nat) as [Hj|Hj].
  - assert (exists n, position_of ty n = Some j) as [n En].
    { destruct ty; cbn in Hj; do 10 (destruct j as [|j]; [first [by exists FocalLength|by exists AspectRatio|by exists Skew|by exists PrincipalPointX
        |by exists PrincipalPointY|by exists Radial1|by exists Radial2|by exists Radial3|by exists Radial4|by exists Tangential1|by exists Tangential2|lia]|]); lia. }
    by rewrite (Ha n j En), (Hb n j En).
  - rewrite !lookup_ge_None_2 by lia. done.
Qed.

Lemma type_of_string_ok s ty : type_of_string s = Ok ty <-> s = string_of_type ty.
Proof.
  unfold type_of_string. split.
  - repeat (destruct (decide _) as [->|]; [intros [= <-]; done|]). done.
  - intros ->. by destruct ty.
Qed.

Lemma names_model_string p ty : names_model p ty <-> p_model p = string_of_type ty.
Proof. by destruct ty. Qed.

Lemma type_of_string_fail p : (forall ty, ~ names_model p ty) -> type_of_string (p_model p) = CheckFail.
Proof.
  intros H. destruct (type_of_string (p_model p)) as [ty| | |] eqn:E; try done.
  - apply type_of_string_ok in E. destruct (H ty). by apply names_model_string.
  - exfalso. revert E. unfold type_of_string. repeat (destruct (decide _); [done|]). done.
  - exfalso. revert E. unfold type_of_string. repeat (destruct (decide _); [done|]). done.
Qed.

Lemma prior_of_given i : length (i_params i) = num_parameters (i_type i) ->
  forall a j, position_of (i_type i) a = Some j -> given (prior_of_intrinsics i) a = i_params i !! j.
Proof.
  destruct i as [ty ps]; cbn [i_type i_params]. intros Hl a j Hj.
  destruct ty; explicit ps Hl; destruct a; cbn in Hj; try discriminate Hj; injection Hj as <-; done.
Qed.

Lemma prior_of_model i : names_model (prior_of_intrinsics i) (i_type i).
Proof. by destruct i as [[] ps]. Qed.

Lemma agrees_prior_of i w hh ps : length (i_params i) = num_parameters (i_type i) ->
  let q := prior_of_intrinsics i in
  agrees (i_type i) (Prior w hh (p_model q) (p_focal q) (p_point q) (p_aspect q) (p_skew q) (p_radial q) (p_tangential q)) ps (i_params i).
Proof.
  intros Hl q. split; [done|]. intros a j Hj. pose proof (prior_of_given i Hl a j Hj) as E.
  assert (is_Some (i_params i !! j)) as [x Ex].
  { apply lookup_lt_is_Some. rewrite Hl. destruct (i_type i), a; cbn in Hj; try discriminate Hj; injection Hj as <-; cbn; lia. }
  replace (given _ a) with (given q a) by (by destruct a). unfold q. by rewrite E, Ex.
Qed.

Lemma create_sized ty : length (i_params (create ty)) = num_parameters ty.
Proof. by destruct ty. Qed.

Lemma starts_from_create i ty : i_type i <> ty -> starts_from i ty = i_params (create ty).
Proof. intros H. unfold starts_from. rewrite decide_False by done. destruct ty; try done. cbn. unfold kDefaultOmega. do 4 f_equal. f_equal. lra. Qed.

Lemma set_camera_ok p h next c i ty : names_model p ty -> positive_focal p -> h !! c_intr c = Some i ->
  length (i_params i) = num_parameters (i_type i) ->
  let ptr := if decide (i_type i = ty) then c_intr c else next in
  exists ps', agrees ty p (starts_from i ty) ps' /\
    set_camera_from_prior p h next c = Ok (<[ptr := Intrinsics ty ps']> h, if decide (i_type i = ty) then next else (next + 1)%N,
      Camera (c_extrinsics c) ptr (p_width p, p_height p)).
Proof.
  intros Hm Hp Hi Hl ptr. unfold set_camera_from_prior.
  rewrite (proj2 (type_of_string_ok _ _) (proj1 (names_model_string _ _) Hm)). cbn [mbind outcome_bind]. rewrite Hi. cbn [or_ub mbind outcome_bind].
  unfold ptr. destruct (decide (i_type i = ty)) as [<-|Hn].
  - destruct (set_from_prior_ok (i_type i) p (i_params i) Hl Hp) as (ps' & E & Ha). exists ps'. rewrite E. cbn.
    split; [|done]. unfold starts_from. by rewrite decide_True.
  - destruct (set_from_prior_ok ty p (i_params (create ty)) (create_sized ty) Hp) as (ps' & E & Ha). exists ps'.
    rewrite starts_from_create by done. split; [done|]. cbn [create i_type]. replace (i_type (create ty)) with ty by done. rewrite E. done.
Qed.

Section group.
Context {F : Type}.
Notation recon := (recon F (list R) (list R)).
Implicit Types (r : recon) (h : gmap N intrinsics) (s : gmap N (Z * Z)).

Definition with_ptr (ptr : N) (v : view F (list R)) : view F (list R) := View (v_name v) (v_est v) ptr (v_data v) (v_feats v).

Lemma set_view_intr_lookup r u ptr w : rc_views (set_view_intr r u ptr) !! w = if decide (w = u) then with_ptr ptr <$> rc_views r !! w else rc_views r !! w.
Proof. unfold set_view_intr, set_views; cbn. destruct (decide (w = u)) as [->|]; [apply lookup_alter|by apply lookup_alter_ne]. Qed.

Lemma representative_ok r l : forall rep, (forall u, u ∈ l -> is_Some (rc_views r !! u)) ->
  (l = [] /\ representative r rep l = rep) \/ (representative r rep l ∈ l /\ ((exists u, u ∈ l /\ est_view r u) -> est_view r (representative r rep l))).
Proof.
  induction l as [|u l IH]; intros rep H; [by left|]. right. cbn. destruct (H u) as [v Ev]; [left|]. rewrite Ev.
  destruct (v_est v) eqn:Ee; [split; [left|intros _; by exists v]|].
  destruct (IH u) as [[-> E]|[Hin He]]; [intros; apply H; by right| |].
  - cbn. split; [left|]. intros (w & [->|Hw]%elem_of_cons & Hv); [done|]. by apply elem_of_nil in Hw.
  - split; [by right|]. intros (w & [->|Hw]%elem_of_cons & Hv); [destruct Hv as (v' & E' & ?); congruence|]. apply He. by exists w.
Qed.

Lemma share_ok rep ptr size l : forall r s, let '(r', s') := foldl (share_step rep ptr size) (r, s) l in
  r' = set_views r (rc_views r') /\
  (forall u, rc_views r' !! u = if decide (u ∈ l /\ u <> rep) then with_ptr ptr <$> rc_views r !! u else rc_views r !! u) /\
  (forall u, s' !! u = if decide (u ∈ l /\ u <> rep /\ is_Some (rc_views r !! u)) then Some size else s !! u).
Proof.
  induction l as [|w l IH]; intros r s; cbn [foldl].
  - split; [by destruct r|]. split; intros u; rewrite decide_False; try done; intros [H _]; by apply elem_of_nil in H.
  - unfold share_step at 2. cbn [fst snd]. destruct (rc_views r !! w) as [v|] eqn:Ew.
    + destruct (decide (rep = w)) as [->|Hne].
      * specialize (IH r s). destruct (foldl _ _ l) as [r' s']. destruct IH as (E1 & E2 & E3). split; [done|]. split; intros u.
        -- rewrite E2. repeat destruct (decide _) as [?|?]; try done; set_solver.
        -- rewrite E3. repeat destruct (decide _) as [?|?]; try done; set_solver.
      * specialize (IH (set_view_intr r w ptr) (<[w := size]> s)). destruct (foldl _ _ l) as [r' s']. destruct IH as (E1 & E2 & E3).
        split; [by rewrite E1|]. split; intros u.
        -- rewrite E2, set_view_intr_lookup. destruct (decide (u = w)) as [->|].
           ++ rewrite (decide_True (P := w ∈ w :: l /\ w <> rep)) by (split; [left|done]). rewrite Ew. cbn. by destruct (decide _).
           ++ destruct (decide (u ∈ l /\ u <> rep)) as [[H1 H2]|H1]; [rewrite decide_True by (split; [by right|done]); done|].
              rewrite decide_False; [done|]. intros [[->|Hu]%elem_of_cons ?]; tauto.
        -- rewrite E3, set_view_intr_lookup. destruct (decide (u = w)) as [->|].
           ++ rewrite (decide_True (P := w ∈ w :: l /\ w <> rep /\ _)) by (split; [left|by rewrite Ew]).
              destruct (decide _); [done|]. by rewrite lookup_insert.
           ++ rewrite lookup_insert_ne by done.
              destruct (decide (u ∈ l /\ u <> rep /\ is_Some (rc_views r !! u))) as [[H1 H2]|H1]; [rewrite decide_True by (split; [by right|done]); done|].
              rewrite decide_False; [done|]. intros [[->|Hu]%elem_of_cons ?]; tauto.
    + specialize (IH r s). destruct (foldl _ _ l) as [r' s']. destruct IH as (E1 & E2 & E3). split; [done|]. split; intros u.
      * rewrite E2. destruct (decide (u = w)) as [->|]; [rewrite Ew; cbn; by repeat destruct (decide _)|].
        repeat destruct (decide _) as [?|?]; try done; set_solver.
      * rewrite E3. destruct (decide (u = w)) as [->|]; [rewrite !decide_False; [done|..]; rewrite Ew; intros (_ & _ & [? [=]])|].
        repeat destruct (decide _) as [?|?]; try done; set_solver.
Qed.

Lemma group_step_ok ov priors r h s g X : grouped r -> allocated r h -> sized h -> rc_groups r !! g = Some X ->
  (forall u, u ∈ X -> usable (priors u)) ->
  exists rep i ty ps' ptr next r' s', rep ∈ X /\ ((exists u, u ∈ X /\ est_view r u) -> est_view r rep) /\
    intrinsics_of r h rep i /\ names_model (priors rep) ty /\ agrees ty (priors rep) (starts_from i ty) ps' /\
    (i_type i = ty /\ uses r rep ptr /\ next = rc_next_ptr r \/ i_type i <> ty /\ ptr = rc_next_ptr r /\ next = (rc_next_ptr r + 1)%N) /\
    group_step ov priors (r, h, s) g = Ok (r', <[ptr := Intrinsics ty ps']> h, s') /\
    r' = set_next_ptr (set_views r (rc_views r')) next /\
    (forall u, rc_views r' !! u = if decide (u ∈ X) then with_ptr ptr <$> rc_views r !! u else rc_views r !! u) /\
    (forall u, s' !! u = if decide (u ∈ X) then Some (p_width (priors rep), p_height (priors rep)) else s !! u).
Proof.
  intros Hg Ha Hs HX Hu. destruct Hg as (G1 & G2 & G3 & G4).
  set (l := ov g (elements X)).
  assert (Hin : forall u, u ∈ l <-> u ∈ X). { intros u. unfold l. rewrite ord_perm. apply elem_of_elements. }
  assert (Hex : forall u, u ∈ X -> is_Some (rc_views r !! u)). { intros u H. apply G1. exists g. apply G2. by exists X. }
  assert (Hne : l <> []).
  { intros E. apply (G3 g X HX). apply leibniz_equiv. intros u. rewrite <-Hin, E. split; [by intros ?%elem_of_nil|set_solver]. }
  destruct (representative_ok r l kInvalidId) as [[? _]|[Hr He]]; [intros u H; by apply Hex, Hin|done|].
  set (rep := representative r kInvalidId l) in *. apply Hin in Hr.
  destruct (Hex rep Hr) as [v Ev]. destruct (Ha rep v Ev) as [i Ei]. destruct (Hu rep Hr) as [Hp [ty Hty]].
  pose proof (Hs _ _ Ei) as Hl.
  destruct (set_camera_ok (priors rep) h (rc_next_ptr r) (view_camera s rep v) i ty Hty Hp Ei Hl) as (ps' & Hag & E).
  set (ptr := if decide (i_type i = ty) then c_intr (view_camera s rep v) else rc_next_ptr r) in *.
  set (next := if decide (i_type i = ty) then rc_next_ptr r else (rc_next_ptr r + 1)%N) in *.
  pose proof (share_ok rep ptr (p_width (priors rep), p_height (priors rep)) l (set_next_ptr (set_view_intr r rep ptr) next)
    (<[rep := (p_width (priors rep), p_height (priors rep))]> s)) as HS.
  destruct (foldl _ _ l) as [r' s'] eqn:Ef. destruct HS as (S1 & S2 & S3).
  exists rep, i, ty, ps', ptr, next, r', s'. split; [done|]. split; [intros (u & H1 & H2); apply He; exists u; by rewrite Hin|].
  split; [by exists v|]. split; [done|]. split; [done|]. split.
  { unfold ptr, next. destruct (decide _) as [->|]; [left|right; done]. split; [done|]. split; [|done]. by exists v. }
  split.
  { unfold group_step. rewrite (lookup_total_correct _ _ _ HX). fold l. fold rep. rewrite Ev. cbn [or_ub mbind outcome_bind]. rewrite E.
    cbn [mbind outcome_bind c_intr c_size]. rewrite Ef. done. }
  split; [by rewrite S1|]. split.
  - intros u. rewrite S2. cbn [rc_views set_next_ptr]. rewrite set_view_intr_lookup.
    destruct (decide (u = rep)) as [->|].
    + rewrite decide_False by tauto. by rewrite decide_True.
    + destruct (decide (u ∈ X)) as [K|K]; [rewrite decide_True by (split; [by apply Hin|done]); done|].
      rewrite decide_False by (intros [?%Hin _]; done). done.
  - intros u. rewrite S3. cbn [rc_views set_next_ptr].
    destruct (decide (u = rep)) as [->|].
    + rewrite decide_False by tauto. rewrite decide_True by done. by rewrite lookup_insert.
    + rewrite lookup_insert_ne by done. destruct (decide (u ∈ X)) as [K|K].
      * rewrite decide_True; [done|]. split; [by apply Hin|]. split; [done|]. rewrite set_view_intr_lookup, decide_False by done. by apply Hex.
      * rewrite decide_False by (intros [?%Hin _]; done). done.
Qed.

(** The invariant of the loop over the groups, after the groups [D]. *)
Definition invariant priors r0 h0 s0 (D : list N) (st : state) : Prop :=
  let '(r, h, s) := st in
  same_but_intrinsics r0 r /\ grouped r /\ allocated r h /\ sized h /\ created r h /\
  (forall g, g ∈ D -> exists rep, set_from_view priors r0 h0 r h s g rep) /\
  (forall u v, rc_views r0 !! u = Some v -> (forall g, rc_view_group r0 !! u = Some g -> g ∉ D) ->
     rc_views r !! u = Some v /\ h !! v_intr v = h0 !! v_intr v /\ s !! u = s0 !! u) /\
  (forall p, is_Some (h0 !! p) -> (forall u, ~ uses r0 u p) -> h !! p = h0 !! p /\ forall u, ~ uses r u p).

Lemma same_refl r : same_but_intrinsics r r.
Proof. repeat split; try done. intros u. destruct (rc_views r !! u); constructor. done. Qed.

Lemma group_nodup r g u X : grouped r -> rc_groups r !! g = Some X -> u ∈ X <-> rc_view_group r !! u = Some g.
Proof. intros (_ & G2 & _) HX. rewrite <-G2. split; [intros; by exists X|]. intros (Y & EY & ?). naive_solver. Qed.

Lemma invariant_step ov priors r0 h0 s0 D st g : grouped r0 -> invariant priors r0 h0 s0 D st -> g ∉ D -> is_Some (rc_groups r0 !! g) ->
  (forall u, is_Some (rc_views r0 !! u) -> usable (priors u)) ->
  exists st', group_step ov priors st g = Ok st' /\ invariant priors r0 h0 s0 (g :: D) st'.
Proof.
  intros G0 I Hg [X HX] Hu. destruct st as [[r h] s]. destruct I as (Hsame & Hgr & Hal & Hsz & Hcr & HD & HU & HP).
  destruct Hsame as (M1 & M2 & M3 & M4 & M5 & M6 & M7 & M8).
  assert (Hx : forall u, u ∈ X <-> rc_view_group r0 !! u = Some g) by (intros u; by apply group_nodup).
  assert (Hxr : forall u, u ∈ X <-> rc_view_group r !! u = Some g) by (intros u; rewrite M6; by apply Hx).
  assert (HXv : forall u, u ∈ X -> is_Some (rc_views r0 !! u)). { intros u ?%Hx. apply G0. by exists g. }
  assert (HXr : rc_groups r !! g = Some X) by (by rewrite M7).
  destruct (group_step_ok ov priors r h s g X Hgr Hal Hsz HXr) as
    (rep & i & ty & ps' & ptr & next & r' & s' & Hrep & Hest & (v & Ev & Ei) & Hty & Hag & Hptr & E & Er & Ev' & Es').
  { intros u ?. by apply Hu, HXv. }
  assert (Hunp : forall u w, u ∈ X -> rc_views r0 !! u = Some w -> rc_views r !! u = Some w /\ h !! v_intr w = h0 !! v_intr w /\ s !! u = s0 !! u).
  { intros u w ?%Hx Ew. apply HU; [done|]. intros g' ?. by simplify_eq. }
  (* the pointer of the group differs from those of the other views *)
  assert (Hfresh : forall u w, u ∉ X -> rc_views r !! u = Some w -> v_intr w <> ptr).
  { intros u w Hn Ew Hwp. destruct Hptr as [(_ & (v2 & E2 & Hp) & _)|(_ & Hp & _)].
    - destruct Hgr as (_ & _ & _ & G4). apply Hn, Hxr. rewrite (proj2 (G4 u rep w v2 Ew E2)); [by apply Hxr|congruence].
    - assert (ptr < rc_next_ptr r)%N; [|subst ptr; lia]. apply Hcr. rewrite <-Hwp. by eapply Hal. }
  exists (r', <[ptr := Intrinsics ty ps']> h, s'). split; [done|]. clear E.
  assert (N1 : rc_view_group r' = rc_view_group r /\ rc_groups r' = rc_groups r /\ rc_tracks r' = rc_tracks r /\ rc_names r' = rc_names r /\
    rc_next_track r' = rc_next_track r /\ rc_next_view r' = rc_next_view r /\ rc_next_group r' = rc_next_group r /\ rc_next_ptr r' = next)
    by (rewrite Er; done).
  destruct N1 as (N1 & N2 & N3 & N4 & N5 & N6 & N7 & N8).
  assert (Hnext : (rc_next_ptr r <= next)%N) by (destruct Hptr as [(_ & _ & ->)|(_ & _ & ->)]; lia).
  assert (Hptrb : (ptr < next)%N).
  { destruct Hptr as [(_ & (v2 & E2 & <-) & ->)|(_ & -> & ->)]; [apply Hcr; by eapply Hal|lia]. }
  split; [|split; [|split; [|split; [|split; [|split; [|split]]]]]].
  - repeat (split; [congruence|]). intros u. specialize (M8 u). rewrite Ev'.
    destruct M8 as [w w' (? & ? & ? & ?)|]; destruct (decide (u ∈ X)); cbn; constructor; done.
  - destruct Hgr as (G1 & G2 & G3 & G4). split; [|split; [|split]].
    + intros u. rewrite N1, <-G1, Ev'. destruct (decide (u ∈ X)); [|done]. by rewrite fmap_is_Some.
    + intros g' u. rewrite N1, N2. apply G2.
    + intros g' Y. rewrite N2. apply G3.
    + intros u u' w w' Ew Ew'. rewrite N1. rewrite Ev' in Ew, Ew'.
      destruct (decide (u ∈ X)) as [A|A], (decide (u' ∈ X)) as [A'|A'].
      * apply fmap_Some in Ew as (y & Ey & ->), Ew' as (y' & Ey' & ->). cbn. apply Hxr in A, A'. rewrite A, A'. done.
      * apply fmap_Some in Ew as (y & Ey & ->). cbn. split.
        -- intros Eg. exfalso. apply A', Hxr. rewrite <-Eg. by apply Hxr.
        -- intros ->. exfalso. by apply (Hfresh u' w' A' Ew').
      * apply fmap_Some in Ew' as (y & Ey & ->). cbn. split.
        -- intros Eg. exfalso. apply A, Hxr. rewrite Eg. by apply Hxr.
        -- intros Ep. exfalso. by apply (Hfresh u w A Ew).
      * by apply G4.
  - intros u w Ew. rewrite Ev' in Ew. destruct (decide (u ∈ X)).
    + apply fmap_Some in Ew as (y & Ey & ->). cbn. rewrite lookup_insert. by eexists.
    + rewrite lookup_insert_ne by (by apply not_eq_sym, (Hfresh u)). by apply (Hal u).
  - intros q j Ej. destruct (decide (q = ptr)) as [->|].
    + rewrite lookup_insert in Ej. injection Ej as <-. cbn. apply Hag.
    + rewrite lookup_insert_ne in Ej by done. by apply (Hsz q).
  - intros q Hq. rewrite N8. destruct (decide (q = ptr)) as [->|]; [done|].
    rewrite lookup_insert_ne in Hq by done. apply Hcr in Hq. lia.
  - intros g' [->|Hg']%elem_of_cons.
    + exists rep. split; [by apply Hx|]. split.
      { intros (u & Hug & (w & Ew & Hw)). apply Hx in Hug. destruct (Hunp u w Hug Ew) as (? & _).
        destruct Hest as (w2 & Ew2 & ?); [exists u; split; [done|by exists w]|]. destruct (HXv rep Hrep) as [w0 Ew0].
        destruct (Hunp rep w0 Hrep Ew0) as (? & _). exists w0. split; [done|]. congruence. }
      intros u Hug. apply Hx in Hug. split; [by rewrite Es', decide_True|].
      destruct (HXv u Hug) as [w Ew]. destruct (Hunp u w Hug Ew) as (Ewr & Eh & _).
      exists i, ty, ps'. split; [|split; [done|split; [|done]]].
      * exists w. split; [done|]. rewrite <-Eh. rewrite <-Ei. f_equal. destruct Hgr as (_ & _ & _ & G4).
        apply (G4 u rep w v Ewr Ev). apply Hxr in Hug, Hrep. by rewrite Hug, Hrep.
      * exists (with_ptr ptr w). rewrite Ev', decide_True by done. rewrite Ewr. split; [done|]. cbn. by rewrite lookup_insert.
    + destruct (HD g' Hg') as (rep' & R1 & R2 & R3). exists rep'. split; [done|]. split; [done|].
      intros u Hug. destruct (R3 u Hug) as (S1 & j & ty' & ps2 & J1 & J2 & (w & J3 & J4) & J5).
      assert (Hnu : u ∉ X). { intros ?%Hx. by simplify_eq. }
      split; [by rewrite Es', decide_False|]. exists j, ty', ps2. split; [done|]. split; [done|]. split; [|done].
      exists w. rewrite Ev', decide_False by done. split; [done|]. rewrite lookup_insert_ne; [done|]. by apply not_eq_sym, (Hfresh u).
  - intros u w Ew Hn. assert (Hnu : u ∉ X). { intros Hg'%Hx. apply (Hn g Hg'). left. }
    destruct (HU u w Ew) as (U1 & U2 & U3); [intros g' Hg' ?; apply (Hn g' Hg'); by right|].
    rewrite Ev', Es', !decide_False by done. split; [done|]. split; [|done].
    rewrite lookup_insert_ne; [done|]. by apply not_eq_sym, (Hfresh u).
  - intros q Hq Hun. destruct (HP q Hq Hun) as [P1 P2].
    assert (Hqp : q <> ptr).
    { intros ->. destruct Hptr as [(_ & ? & _)|(_ & -> & _)]; [by apply (P2 rep)|]. rewrite <-P1 in Hq. apply Hcr in Hq. lia. }
    split; [by rewrite lookup_insert_ne by done|]. intros u (w & Ew & Hw). rewrite Ev' in Ew. destruct (decide (u ∈ X)).
    + apply fmap_Some in Ew as (y & Ey & ->). by apply Hqp.
    + apply (P2 u). by exists w.
Qed.

Lemma set_intrinsics_invariant og ov priors r h s : grouped r -> allocated r h -> sized h -> created r h ->
  (forall u, is_Some (rc_views r !! u) -> usable (priors u)) ->
  exists st', set_intrinsics_from_priors og ov priors (r, h, s) = Ok st' /\ invariant priors r h s (elements (dom (rc_groups r))) st'.
Proof.
  intros Hg Ha Hs Hc Hu. unfold set_intrinsics_from_priors. cbn [fst].
  set (l := og (elements (dom (rc_groups r)))).
  assert (Hl : forall g, g ∈ l <-> g ∈ elements (dom (rc_groups r))) by (intros g; unfold l; by rewrite ord_perm).
  assert (Hnd : NoDup l) by (unfold l; rewrite ord_perm; apply NoDup_elements).
  assert (Hgen : forall l' D st, NoDup l' -> (forall g, g ∈ l' -> g ∈ l) -> (forall g, g ∈ l' -> g ∉ D) -> invariant priors r h s D st ->
    exists st', run_steps (group_step ov priors) st l' = Ok st' /\ invariant priors r h s (reverse l' ++ D) st').
  { induction l' as [|g l' IH]; intros D st Hn Hi Hd I; [by exists st|].
    apply NoDup_cons in Hn as [Hn1 Hn2].
    destruct (invariant_step ov priors r h s D st g Hg I) as (st1 & E1 & I1); [apply Hd; left| |done|].
    { assert (Hgl : g ∈ l) by (apply Hi; left). by apply Hl, elem_of_elements, elem_of_dom in Hgl. }
    destruct (IH (g :: D) st1) as (st2 & E2 & I2); [done|intros; apply Hi; by right| |done|].
    { intros g' Hg' [->|?]%elem_of_cons; [done|]. by apply (Hd g'); [right|]. }
    exists st2. cbn [run_steps]. rewrite E1. cbn [mbind outcome_bind]. split; [done|]. rewrite reverse_cons, <-app_assoc. done. }
  destruct (Hgen l [] (r, h, s)) as (st' & E & I); [done|done|intros ? _ ?; by apply (not_elem_of_nil g)| |].
  { split; [apply same_refl|]. repeat (split; [done|]). split; [intros g ?%elem_of_nil; done|]. split; [done|]. intros p _ Hn. done. }
  exists st'. split; [done|]. rewrite app_nil_r in I. destruct st' as [[r' h'] s'].
  destruct I as (I1 & I2 & I3 & I4 & I5 & I6 & I7 & I8). repeat (split; [done|]).
  split; [intros g Hg'; apply I6; rewrite elem_of_reverse; by apply Hl|]. split; [|done].
  intros u v Ev Hn. apply I7; [done|]. intros g Hg' K. apply (Hn g Hg'). apply Hl. by rewrite elem_of_reverse in K.
Qed.

(** Image sizes are only written for views. *)
Lemma share_sizes rep ptr size l u : forall r s, rc_views r !! u = None ->
  (foldl (share_step rep ptr size) (r, s) l).2 !! u = s !! u.
Proof.
  intros r s Hn. pose proof (share_ok rep ptr size l r s) as H. destruct (foldl _ _ l) as [r' s']. destruct H as (_ & _ & H). cbn.
  rewrite H, decide_False; [done|]. rewrite Hn. by intros (_ & _ & [? [=]]).
Qed.

Lemma group_step_sizes ov priors r h s g r' h' s' u : rc_views r !! u = None ->
  group_step ov priors (r, h, s) g = Ok (r', h', s') -> s' !! u = s !! u /\ rc_views r' !! u = None.
Proof.
  intros Hn. unfold group_step. set (l := ov g _). set (rep := representative r kInvalidId l).
  destruct (rc_views r !! rep) as [v|] eqn:Ev; [|done]. cbn [or_ub mbind outcome_bind].
  destruct (set_camera_from_prior _ _ _ _) as [[[h1 next] c]| | |]; try done. cbn [mbind outcome_bind].
  set (r1 := set_next_ptr _ next).
  pose proof (share_ok rep (c_intr c) (c_size c) l r1 (<[rep := c_size c]> s)) as H.
  destruct (foldl _ _ l) as [r2 s2]. intros [= <- <- <-]. destruct H as (_ & H1 & H2).
  assert (Hne : u <> rep) by (intros ->; congruence).
  assert (Hn1 : rc_views r1 !! u = None) by (unfold r1; cbn [rc_views set_next_ptr]; rewrite set_view_intr_lookup, decide_False; done).
  rewrite H1, H2, Hn1. split; [|by destruct (decide _)]. rewrite decide_False by (intros (_ & _ & [? [=]])). by rewrite lookup_insert_ne.
Qed.

Lemma set_intrinsics_sizes og ov priors r h s r' h' s' u : rc_views r !! u = None ->
  set_intrinsics_from_priors og ov priors (r, h, s) = Ok (r', h', s') -> s' !! u = s !! u.
Proof.
  unfold set_intrinsics_from_priors. generalize (og (elements (dom (rc_groups (r, h, s).1.1)))) as l. intros l. revert r h s.
  induction l as [|g l IH]; intros r h s Hn; cbn [run_steps]; [congruence|].
  destruct (group_step ov priors (r, h, s) g) as [[[r1 h1] s1]| | |] eqn:E; try done. cbn [mbind outcome_bind].
  destruct (group_step_sizes _ _ _ _ _ _ _ _ _ u Hn E) as [E1 Hn1]. intros K. rewrite (IH _ _ _ Hn1 K). done.
Qed.
End group.
