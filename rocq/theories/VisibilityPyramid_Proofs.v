(** Proofs about the visibility pyramid. *)
From stdpp Require Import gmap fin_map_dom numbers.
From Coq Require Import QArith_base Qround.
From Verif Require Import Base VisibilityPyramid_Model VisibilityPyramid_Spec.
Open Scope Z_scope.

(** The quotient as a fraction. *)
Lemma quotient_num M x (w : positive) :
  (inject_Z M * x / inject_Z (Zpos w))%Q = Qmake (M * Qnum x * 1) (1 * Qden x * w).
Proof. done. Qed.
Lemma level_cell_Z i (w : positive) x : level_cell i (Zpos w) x =
  if decide (Qnum x < 0) then 0
  else if decide (Zpos w * Zpos (Qden x) <= Qnum x) then 2 ^ Z.of_nat i - 1
  else (2 ^ Z.of_nat i * Qnum x) / (Zpos (Qden x) * Zpos w).
Proof.
  unfold level_cell.
  destruct (Qle_bool 0 x) eqn:E1; cbn [negb].
  - apply Qle_bool_iff in E1. unfold Qle in E1. simpl in E1. rewrite Z.mul_1_r in E1.
    rewrite decide_False by lia.
    destruct (Qle_bool (inject_Z (Zpos w)) x) eqn:E2.
    + apply Qle_bool_iff in E2. unfold Qle in E2. cbn [inject_Z Qnum Qden] in E2. rewrite decide_True by lia. done.
    + assert (~ (inject_Z (Zpos w) <= x)%Q) as E3 by (rewrite <- Qle_bool_iff; congruence).
      unfold Qle in E3. cbn [inject_Z Qnum Qden] in E3. rewrite decide_False by lia.
      rewrite quotient_num. unfold Qfloor. f_equal; lia.
  - assert (~ (0 <= x)%Q) as E3 by (rewrite <- Qle_bool_iff; congruence).
    unfold Qle in E3. simpl in E3. rewrite decide_True by lia. done.
Qed.

Lemma pow2_pos i : 0 < 2 ^ Z.of_nat i.
Proof. apply Z.pow_pos_nonneg; lia. Qed.

Lemma level_cell_range i w x : 0 < w -> 0 <= level_cell i w x < 2 ^ Z.of_nat i.
Proof.
  intros Hw. destruct w as [|w|w]; try lia. rewrite level_cell_Z.
  pose proof (pow2_pos i). destruct (decide (Qnum x < 0)); [lia|].
  destruct (decide (Z.pos w * Zpos (Qden x) <= Qnum x)); [lia|].
  split.
  - apply Z.div_pos; [apply Z.mul_nonneg_nonneg; lia|lia].
  - apply Z.div_lt_upper_bound; [lia|]. nia.
Qed.

Lemma level_cell_coarser i w x : 0 < w -> level_cell i w x = Z.shiftr (level_cell (S i) w x) 1.
Proof.
  intros Hw. destruct w as [|w|w]; try lia. rewrite !level_cell_Z.
  rewrite Z.shiftr_div_pow2 by lia. change (2 ^ 1) with 2.
  pose proof (pow2_pos i). replace (2 ^ Z.of_nat (S i)) with (2 * 2 ^ Z.of_nat i)
    by (rewrite Nat2Z.inj_succ, Z.pow_succ_r by lia; done).
  destruct (decide (Qnum x < 0)); [done|].
  destruct (decide (Z.pos w * Zpos (Qden x) <= Qnum x)).
  - replace (2 * 2 ^ Z.of_nat i - 1) with (1 + (2 ^ Z.of_nat i - 1) * 2) by lia.
    rewrite Z.div_add by lia. change (1 / 2) with 0. lia.
  - rewrite Z.div_div by lia.
    replace (2 * 2 ^ Z.of_nat i * Qnum x) with (2 ^ Z.of_nat i * Qnum x * 2) by lia.
    by rewrite Z.div_mul_cancel_r by lia.
Qed.

Lemma finest_ok L w x : 0 < w -> representable L w x ->
  finest_cell (2 ^ Z.of_nat L) w x = Ok (level_cell L w x).
Proof.
  intros Hw Hr. destruct w as [|w|w]; try lia.
  pose proof (level_cell_range L (Zpos w) x Hw) as Hrange. rewrite level_cell_Z in Hrange. rewrite level_cell_Z.
  unfold finest_cell, to_int, trunc. unfold representable in Hr.
  rewrite quotient_num in *. cbn [Qnum Qden] in *. unfold Qle, Qlt in Hr. cbn [Qnum Qden inject_Z Qopp] in Hr.
  destruct Hr as [H1 H2].
  pose proof (pow2_pos L) as HP.
  replace (2 ^ Z.of_nat L * Qnum x * 1) with (2 ^ Z.of_nat L * Qnum x) in * by lia.
  replace (Z.pos (1 * Qden x * w)) with (Z.pos (Qden x) * Z.pos w) in * by lia.
  set (a := 2 ^ Z.of_nat L * Qnum x) in *. set (b := Z.pos (Qden x) * Z.pos w) in *.
  assert (Hb : 0 < b) by (unfold b; lia).
  assert (Hq : - 2 ^ 31 <= Z.quot a b < 2 ^ 31).
  { change (2 ^ 31) with 2147483648 in *. destruct (decide (0 <= a)) as [Ha|Ha].
    - rewrite Z.quot_div_nonneg by lia. pose proof (Z.div_pos a b Ha Hb).
      split; [lia|]. apply Z.div_lt_upper_bound; lia.
    - replace a with (- (- a)) by lia. rewrite Z.quot_opp_l by lia. rewrite Z.quot_div_nonneg by lia.
      assert (0 <= (- a) / b) by (apply Z.div_pos; lia).
      assert ((- a) / b < 2147483649) by (apply Z.div_lt_upper_bound; lia). lia. }
  rewrite decide_True by done. cbn [mbind outcome_bind]. f_equal. unfold clamp.
  destruct (decide (Qnum x < 0)) as [Hn|Hn].
  - assert (a <= 0) by (unfold a; nia).
    assert (Z.quot a b <= 0).
    { replace a with (- (- a)) by lia. rewrite Z.quot_opp_l by lia. rewrite Z.quot_div_nonneg by lia.
      assert (0 <= (- a) / b) by (apply Z.div_pos; lia). lia. }
    lia.
  - assert (0 <= a) by (unfold a; nia). rewrite Z.quot_div_nonneg by lia.
    destruct (decide (Z.pos w * Z.pos (Qden x) <= Qnum x)).
    + assert (2 ^ Z.of_nat L <= a / b).
      { apply Z.div_le_lower_bound; [lia|]. unfold a, b. nia. }
      lia.
    + lia.
Qed.

(** One level. *)
Definition pcell (i : nat) (w h : Z) (p : Q * Q) : Z * Z := (level_cell i w p.1, level_cell i h p.2).

Definition level_ok (i : nat) (w h : Z) (points : list (Q * Q)) (g : grid) : Prop :=
  g_dim g = 2 ^ Z.of_nat i /\ dom (g_cells g) = occupied i w h points /\ map_Forall (fun _ v => 0 < v) (g_cells g).

Lemma level_add i w h points g p : 0 < w -> 0 < h -> level_ok i w h points g ->
  exists g', grid_incr g (level_cell i w p.1) (level_cell i h p.2) = Ok g' /\ level_ok i w h (points ++ [p]) g'.
Proof.
  intros Hw Hh (Hd & Hdom & Hpos). unfold grid_incr.
  pose proof (level_cell_range i w p.1 Hw). pose proof (level_cell_range i h p.2 Hh).
  rewrite decide_True by (rewrite Hd; lia). eexists. split; [done|].
  split_and!; cbn [g_dim g_cells]; [done| |].
  - rewrite dom_insert_L, Hdom. unfold occupied. rewrite fmap_app, list_to_set_app_L. simpl. set_solver.
  - apply map_Forall_insert_2; [|done].
    destruct (g_cells g !! (level_cell i w p.1, level_cell i h p.2)) as [v|] eqn:E; simpl; [|lia].
    pose proof (Hpos _ _ E). simpl in *. lia.
Qed.

Definition levels_ok (w h : Z) (points : list (Q * Q)) (grids : list grid) : Prop :=
  forall i g, grids !! i = Some g -> level_ok (S i) w h points g.

Lemma add_loop_ok w h points p : 0 < w -> 0 < h -> forall n grids,
  (n <= length grids)%nat ->
  (forall i g, (i < n)%nat -> grids !! i = Some g -> level_ok (S i) w h points g) ->
  exists grids', vp_add_loop n grids (level_cell n w p.1) (level_cell n h p.2) = Ok grids' /\
    length grids' = length grids /\
    (forall i, (n <= i)%nat -> grids' !! i = grids !! i) /\
    (forall i g, (i < n)%nat -> grids' !! i = Some g -> level_ok (S i) w h (points ++ [p]) g).
Proof.
  intros Hw Hh. induction n as [|n IH]; intros grids Hn Hok; cbn [vp_add_loop].
  { exists grids. split_and!; [done..|]. lia. }
  destruct (lookup_lt_is_Some_2 grids n) as [g Hg]; [lia|]. rewrite Hg. cbn [or_ub mbind outcome_bind].
  destruct (level_add (S n) w h points g p Hw Hh) as (g' & -> & Hg'); [apply Hok; [lia|done]|].
  cbn [mbind outcome_bind]. rewrite <- !level_cell_coarser by done.
  destruct (IH (<[n := g']> grids)) as (grids' & -> & Hl & Hsame & Hnew).
  { rewrite insert_length. lia. }
  { intros i g0 Hi. rewrite list_lookup_insert_ne by lia. apply Hok. lia. }
  exists grids'. split; [done|]. rewrite insert_length in Hl. split; [done|]. split.
  - intros i Hi. rewrite Hsame by lia. by rewrite list_lookup_insert_ne by lia.
  - intros i g0 Hi Hg0. destruct (decide (i = n)) as [->|Hne].
    + rewrite Hsame in Hg0 by lia. rewrite list_lookup_insert in Hg0 by lia. by simplify_eq.
    + apply Hnew; [lia|done].
Qed.

Definition state_ok (L : nat) (w h : Z) (points : list (Q * Q)) (p : pyramid) : Prop :=
  vp_width p = w /\ vp_height p = h /\ vp_max_cells p = 2 ^ Z.of_nat L /\ length (vp_grids p) = L /\
  levels_ok w h points (vp_grids p).

Lemma new_ok L w h : (0 < L <= 30)%nat -> 0 < w -> 0 < h ->
  exists p, vp_new w h (Z.of_nat L) = Ok p /\ state_ok L w h [] p.
Proof.
  intros HL Hw Hh. unfold vp_new, shift1. rewrite decide_True by lia. cbn [mbind outcome_bind].
  rewrite !bool_decide_true by lia. cbn [check mbind outcome_bind]. eexists. split; [done|].
  split_and!; cbn; try done.
  - by rewrite fmap_length, seq_length, Nat2Z.id.
  - intros i g Hg. apply list_lookup_fmap_Some in Hg as (j & Hj & ->). apply lookup_seq in Hj as [-> _].
    split_and!; cbn [g_dim g_cells].
    + f_equal. lia.
    + by rewrite dom_empty_L.
    + apply map_Forall_empty.
Qed.

Lemma add_ok L w h points p pt : 0 < w -> 0 < h -> state_ok L w h points p ->
  representable L w pt.1 -> representable L h pt.2 ->
  exists p', vp_add p pt = Ok p' /\ state_ok L w h (points ++ [pt]) p'.
Proof.
  intros Hw Hh (H1 & H2 & H3 & H4 & H5) Hx Hy. unfold vp_add. rewrite H1, H2, H3, H4.
  rewrite (finest_ok L w pt.1 Hw Hx), (finest_ok L h pt.2 Hh Hy). cbn [mbind outcome_bind].
  destruct (add_loop_ok w h points pt Hw Hh L (vp_grids p)) as (gs & -> & Hl & Hsame & Hnew); [lia| |].
  { intros i g _. apply H5. }
  cbn [mbind outcome_bind]. eexists. split; [done|]. split_and!; cbn; try done; [lia|].
  intros i g Hg. apply Hnew; [|done]. apply lookup_lt_Some in Hg. lia.
Qed.

Lemma adds_ok L w h pts : (0 < L <= 30)%nat -> 0 < w -> 0 < h ->
  Forall (fun p => representable L w p.1 /\ representable L h p.2) pts ->
  exists p0 p, vp_new w h (Z.of_nat L) = Ok p0 /\ run_steps vp_add p0 pts = Ok p /\ state_ok L w h pts p.
Proof.
  intros HL Hw Hh Hpts. destruct (new_ok L w h HL Hw Hh) as (p0 & Hp0 & Hok). exists p0.
  assert (Hgen : forall done p, state_ok L w h done p ->
    exists p', run_steps vp_add p pts = Ok p' /\ state_ok L w h (done ++ pts) p').
  { clear Hp0 Hok p0. induction Hpts as [|pt pts [Hx Hy] Hpts IH]; intros dn p Hok; cbn [run_steps].
    - exists p. by rewrite app_nil_r.
    - destruct (add_ok L w h dn p pt Hw Hh Hok Hx Hy) as (p1 & -> & Hok1). cbn [mbind outcome_bind].
      destruct (IH _ _ Hok1) as (p2 & -> & Hok2). exists p2. by rewrite <- app_assoc in Hok2. }
  destruct (Hgen [] p0 Hok) as (p & Hp & Hokp). exists p. done.
Qed.

(** The score. *)
Lemma level_count i w h points g : level_ok i w h points g ->
  grid_count g = Z.of_nat (size (occupied i w h points)) /\ grid_size g = 4 ^ Z.of_nat i.
Proof.
  intros (Hd & Hdom & Hpos). split.
  - unfold grid_count. rewrite <- Hdom, size_dom. do 2 f_equal. apply map_filter_id.
    intros c v Hc. pose proof (Hpos c v Hc). simpl in *. lia.
  - unfold grid_size. rewrite Hd, <- Z.pow_mul_l. done.
Qed.

Lemma list_to_set_size_le (l : list (Z * Z)) : (size (list_to_set l : gset (Z * Z)) <= length l)%nat.
Proof.
  induction l as [|a l IH]; [by rewrite list_to_set_nil, size_empty|].
  rewrite list_to_set_cons, size_union_alt, size_singleton. cbn [length].
  assert ((size ((list_to_set l : gset (Z * Z)) ∖ {[a]}) <= size (list_to_set l : gset (Z * Z)))%nat)
    by (apply subseteq_size; set_solver).
  lia.
Qed.
Lemma occupied_size i w h points : 0 < w -> 0 < h -> Z.of_nat (size (occupied i w h points)) <= 4 ^ Z.of_nat i.
Proof.
  intros Hw Hh.
  set (all := list_to_set (C := gset (Z * Z)) (seqZ 0 (2 ^ Z.of_nat i) ≫= fun x => pair x <$> seqZ 0 (2 ^ Z.of_nat i))).
  assert (Hsub : occupied i w h points ⊆ all).
  { intros [x y]. unfold occupied, all. rewrite !elem_of_list_to_set, elem_of_list_fmap, elem_of_list_bind.
    intros (p & [= -> ->] & _). exists (level_cell i w p.1).
    pose proof (level_cell_range i w p.1 Hw). pose proof (level_cell_range i h p.2 Hh).
    rewrite elem_of_list_fmap, elem_of_seqZ. split; [|lia].
    eexists. split; [done|]. apply elem_of_seqZ. lia. }
  apply subseteq_size in Hsub.
  assert (Hall : (size all <= length (seqZ 0 (2 ^ Z.of_nat i) ≫= fun x => pair x <$> seqZ 0 (2 ^ Z.of_nat i)))%nat).
  { apply list_to_set_size_le. }
  assert (Hlen : forall (l k : list Z), length (l ≫= fun x => pair x <$> k) = (length l * length k)%nat).
  { intros l k. induction l as [|a l IHl]; [done|]. rewrite bind_cons, app_length, fmap_length, IHl. done. }
  rewrite Hlen, !seqZ_length in Hall. pose proof (pow2_pos i).
  replace (4 ^ Z.of_nat i) with (2 ^ Z.of_nat i * 2 ^ Z.of_nat i) by (by rewrite <- Z.pow_mul_l). nia.
Qed.

Fixpoint score_limit (n : nat) : Z := match n with O => 0 | S m => score_limit m + 4 ^ Z.of_nat n * 4 ^ Z.of_nat n end.
Lemma score_bounds n w h points : 0 < w -> 0 < h -> 0 <= score n w h points <= score_limit n.
Proof.
  intros Hw Hh. induction n as [|n IH]; [cbn [score score_limit]; lia|]. cbn [score score_limit].
  pose proof (occupied_size (S n) w h points Hw Hh).
  assert (0 < 4 ^ Z.of_nat (S n)) by (apply Z.pow_pos_nonneg; lia). nia.
Qed.
Lemma score_limit_mono n m : (n <= m)%nat -> score_limit n <= score_limit m.
Proof.
  induction 1 as [|m Hm IH]; [lia|]. cbn [score_limit].
  assert (0 < 4 ^ Z.of_nat (S m)) by (apply Z.pow_pos_nonneg; lia). nia.
Qed.
Lemma score_limit_7 n : (n <= 7)%nat -> score_limit n < 2 ^ 31.
Proof. intros H. apply score_limit_mono in H. vm_compute (score_limit 7) in H. lia. Qed.

Lemma score_loop_ok w h points : 0 < w -> 0 < h -> forall grids n,
  (n + length grids <= 7)%nat ->
  (forall i g, grids !! i = Some g -> level_ok (S (n + i)) w h points g) ->
  vp_score_loop grids (score n w h points) = Ok (score (n + length grids) w h points).
Proof.
  intros Hw Hh. induction grids as [|g grids IH]; intros n Hn Hok; cbn [vp_score_loop].
  { by rewrite Nat.add_0_r. }
  pose proof (Hok 0%nat g eq_refl) as Hg. rewrite Nat.add_0_r in Hg.
  destruct (level_count _ _ _ _ _ Hg) as [-> ->].
  assert (E : score n w h points + Z.of_nat (size (occupied (S n) w h points)) * 4 ^ Z.of_nat (S n) =
    score (S n) w h points) by done.
  rewrite E.
  pose proof (score_bounds n w h points Hw Hh) as Hb0. pose proof (score_bounds (S n) w h points Hw Hh) as Hb.
  assert (Hlim : score_limit (S n) < 2 ^ 31) by (apply score_limit_7; simpl in Hn; lia).
  change (2 ^ 63) with 9223372036854775808. change (2 ^ 31) with 2147483648 in *.
  rewrite decide_True by lia.
  replace (wrap32 (score (S n) w h points)) with (score (S n) w h points).
  2:{ unfold wrap32. change (2 ^ 31) with 2147483648. change (2 ^ 32) with 4294967296.
      rewrite Z.mod_small by lia. lia. }
  rewrite IH.
  - simpl length. by rewrite Nat.add_succ_r.
  - simpl in *. lia.
  - intros i g0 Hi. rewrite Nat.add_succ_comm. by apply (Hok (S i)).
Qed.

Lemma score_ok L w h points p : (0 < L <= 7)%nat -> 0 < w -> 0 < h -> state_ok L w h points p ->
  vp_score p = Ok (score L w h points).
Proof.
  intros HL Hw Hh (_ & _ & _ & H4 & H5). unfold vp_score.
  change 0 with (score 0 w h points) at 1. rewrite (score_loop_ok w h points Hw Hh (vp_grids p) 0).
  - by rewrite H4.
  - lia.
  - intros i g. apply H5.
Qed.

(** Consequences of the formula. *)
Lemma occupied_mono i w h l k : l ⊆ k -> occupied i w h l ⊆ occupied i w h k.
Proof.
  intros H x. unfold occupied. rewrite !elem_of_list_to_set, !elem_of_list_fmap.
  intros (p & -> & Hp). exists p. split; [done|]. by apply H.
Qed.
Lemma score_mono n w h l k : l ⊆ k -> score n w h l <= score n w h k.
Proof.
  intros H. induction n as [|n IH]; [done|]. cbn [score].
  pose proof (subseteq_size _ _ (occupied_mono (S n) w h l k H)).
  assert (0 < 4 ^ Z.of_nat (S n)) by (apply Z.pow_pos_nonneg; lia). nia.
Qed.
