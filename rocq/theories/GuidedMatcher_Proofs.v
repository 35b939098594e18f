From stdpp Require Import gmap numbers sorting.
From Coq Require Import QArith_base QArith Qround Lia Lqa Psatz.
From Verif Require Import Base VisibilityPyramid_Model GuidedMatcher_Model GuidedMatcher_Spec.
Open Scope Q_scope.

(** ** Truncation *)
Lemma trunc_nonneg x : 0 <= x -> trunc x = Qfloor x.
Proof.
  intros H. unfold trunc, Qfloor. destruct x as [n dd]. cbn. apply Z.quot_div_nonneg; [|lia].
  unfold Qle in H. cbn in H. lia.
Qed.
Lemma trunc_opp x : trunc (- x) = (- trunc x)%Z.
Proof. unfold trunc. destruct x as [n dd]. cbn. apply Z.quot_opp_l. lia. Qed.
Lemma Qdec_nonneg (x : Q) : 0 <= x \/ x <= 0.
Proof. destruct (Qlt_le_dec x 0); [right|left]; lra. Qed.
Lemma trunc_comp x y : x == y -> trunc x = trunc y.
Proof.
  intros E. destruct (Qdec_nonneg x) as [H|H].
  - rewrite !trunc_nonneg by lra. by apply Qfloor_comp.
  - assert (K : trunc (- x) = trunc (- y)).
    { rewrite !trunc_nonneg by lra. apply Qfloor_comp. by rewrite E. }
    rewrite !trunc_opp in K. lia.
Qed.
Lemma trunc_int z : trunc (inject_Z z) = z.
Proof. unfold trunc. cbn. apply Z.quot_1_r. Qed.
Lemma trunc_bound x (m : Z) : - inject_Z m <= x <= inject_Z m -> (- m <= trunc x <= m)%Z.
Proof.
  assert (Hn : forall u, 0 <= u <= inject_Z m -> (0 <= trunc u <= m)%Z).
  { intros u [H0 H1]. rewrite trunc_nonneg by done. split.
    - change 0%Z with (Qfloor 0). by apply Qfloor_resp_le.
    - rewrite <-(Qfloor_Z m). by apply Qfloor_resp_le. }
  intros [Hl Hu]. destruct (Qdec_nonneg x) as [H|H].
  - specialize (Hn x). lia || (destruct Hn; [split; lra|lia]).
  - destruct (Hn (- x)) as [A B]; [split; lra|]. rewrite trunc_opp in A, B. lia.
Qed.
Lemma to_int_ok x : - inject_Z (2 ^ 31 - 1) <= x <= inject_Z (2 ^ 31 - 1) -> to_int x = Ok (trunc x).
Proof. intros H%trunc_bound. unfold to_int. rewrite decide_True; [done|]. lia. Qed.
Lemma to_u16_ok x : 0 <= x <= 65535 -> to_u16 x = Ok (Qfloor x).
Proof.
  intros [H0 H1]. unfold to_u16. rewrite trunc_nonneg by done.
  assert ((0 <= Qfloor x <= 65535)%Z).
  { split; [change 0%Z with (Qfloor 0)|change 65535%Z with (Qfloor (inject_Z 65535))]; by apply Qfloor_resp_le. }
  rewrite decide_True; [done|]. lia.
Qed.

(** ** Endpoints as numbers *)
Lemma lor_shift a b n : (0 <= n)%Z -> (0 <= b < 2 ^ n)%Z -> Z.lor (Z.shiftl a n) b = (a * 2 ^ n + b)%Z.
Proof.
  intros Hn Hb. assert (E : Z.land (Z.shiftl a n) b = 0%Z).
  { apply Z.bits_inj'. intros i Hi. rewrite Z.land_spec, Z.bits_0. destruct (Z.ltb_spec i n) as [Hl|Hl].
    - rewrite Z.shiftl_spec_low by done. done.
    - rewrite andb_comm. destruct (decide (b = 0)%Z) as [->|]; [by rewrite Z.bits_0|].
      rewrite (Z.bits_above_log2 b i); [done|lia|]. apply Z.lt_le_trans with n; [|done]. apply Z.log2_lt_pow2; lia. }
  rewrite <-Z.lxor_lor, <-Z.add_nocarry_lxor by done. by rewrite Z.shiftl_mul_pow2.
Qed.

Definition number (x1 y1 x2 y2 : Z) : Z := (x1 * 2 ^ 48 + y1 * 2 ^ 32 + x2 * 2 ^ 16 + y2)%Z.
Definition u16 (x : Z) : Prop := (0 <= x < 2 ^ 16)%Z.

Lemma encode_number x1 y1 x2 y2 : u16 x1 -> u16 y1 -> u16 x2 -> u16 y2 ->
  Z.lor (Z.lor (Z.lor (Z.lor 0 (Z.shiftl x1 48)) (Z.shiftl y1 32)) (Z.shiftl x2 16)) (Z.shiftl y2 0) = number x1 y1 x2 y2.
Proof.
  unfold u16, number. intros H1 H2 H3 H4. rewrite Z.lor_0_l, Z.shiftl_0_r, <-!Z.lor_assoc.
  rewrite (lor_shift x2 y2 16), (lor_shift y1 _ 32), (lor_shift x1 _ 48) by lia. lia.
Qed.

Lemma decode_number x1 y1 x2 y2 : u16 x1 -> u16 y1 -> u16 x2 -> u16 y2 ->
  decode (number x1 y1 x2 y2) = ((inject_Z x1, inject_Z y1), (inject_Z x2, inject_Z y2)).
Proof.
  unfold u16. intros H1 H2 H3 H4. unfold decode, number. change (Z.shiftr (Z.ones 64) 48) with (Z.ones 16).
  rewrite !(Z.land_comm (Z.ones 16)), !Z.land_ones, !Z.shiftr_div_pow2 by lia.
  assert (E : forall q r n, (0 <= r < n)%Z -> ((q * n + r) / n = q)%Z).
  { intros q r n Hr. rewrite Z.div_add_l by lia. rewrite Z.div_small by lia. lia. }
  replace (x1 * 2 ^ 48 + y1 * 2 ^ 32 + x2 * 2 ^ 16 + y2)%Z with (x1 * 2 ^ 48 + (y1 * 2 ^ 32 + x2 * 2 ^ 16 + y2))%Z at 1 by lia.
  rewrite (E x1 _ (2 ^ 48)%Z) by lia.
  replace (x1 * 2 ^ 48 + y1 * 2 ^ 32 + x2 * 2 ^ 16 + y2)%Z with ((x1 * 2 ^ 16 + y1) * 2 ^ 32 + (x2 * 2 ^ 16 + y2))%Z at 1 by lia.
  rewrite (E (x1 * 2 ^ 16 + y1)%Z _ (2 ^ 32)%Z) by lia.
  replace (x1 * 2 ^ 48 + y1 * 2 ^ 32 + x2 * 2 ^ 16 + y2)%Z with ((x1 * 2 ^ 32 + y1 * 2 ^ 16 + x2) * 2 ^ 16 + y2)%Z at 1 by lia.
  rewrite (E (x1 * 2 ^ 32 + y1 * 2 ^ 16 + x2)%Z _ (2 ^ 16)%Z) by lia.
  change (2 ^ 0)%Z with 1%Z. rewrite Z.div_1_r.
  assert (F : forall q r n, (0 <= r < n)%Z -> ((q * n + r) mod n = r)%Z).
  { intros q r n Hr. rewrite Z.add_comm, Z_mod_plus_full. by apply Z.mod_small. }
  rewrite (Z.mod_small x1) by lia. rewrite (F x1 y1) by lia.
  replace (x1 * 2 ^ 32 + y1 * 2 ^ 16 + x2)%Z with ((x1 * 2 ^ 16 + y1) * 2 ^ 16 + x2)%Z by lia. rewrite F by lia.
  replace (x1 * 2 ^ 48 + y1 * 2 ^ 32 + x2 * 2 ^ 16 + y2)%Z with ((x1 * 2 ^ 32 + y1 * 2 ^ 16 + x2) * 2 ^ 16 + y2)%Z by lia. rewrite F by lia.
  done.
Qed.

Lemma floor_u16 x : 0 <= x <= 65535 -> u16 (Qfloor x).
Proof.
  intros [H0 H1]. unfold u16.
  assert ((0 <= Qfloor x <= 65535)%Z); [|lia].
  split; [change 0%Z with (Qfloor 0)|change 65535%Z with (Qfloor (inject_Z 65535))]; by apply Qfloor_resp_le.
Qed.
Lemma encode_ok a b : image_point a -> image_point b ->
  encode (a, b) = Ok (number (Qfloor a.1) (Qfloor a.2) (Qfloor b.1) (Qfloor b.2)).
Proof.
  intros [H1 H2] [H3 H4]. unfold encode. cbn [fst snd]. rewrite !to_u16_ok by done. cbn [mbind outcome_bind].
  rewrite encode_number; [done|by apply floor_u16..].
Qed.
Lemma decode_encode a b c : image_point a -> image_point b -> encode (a, b) = Ok c ->
  decode c = ((inject_Z (Qfloor a.1), inject_Z (Qfloor a.2)), (inject_Z (Qfloor b.1), inject_Z (Qfloor b.2))).
Proof.
  intros Ha Hb. rewrite encode_ok by done. intros [= <-]. destruct Ha, Hb. apply decode_number; by apply floor_u16.
Qed.

(** ** Lines and boxes *)
Lemma crossing_spec b c lo hi v : crossing b c lo hi = Some v -> ~ b == 0 /\ b * v + c == 0 /\ lo <= v <= hi.
Proof.
  unfold crossing, within. destruct (Qeq_bool b 0) eqn:E; [done|]. apply Qeq_bool_neq in E.
  destruct (Qle_bool lo _) eqn:E1; [|done]. destruct (Qle_bool _ hi) eqn:E2; [|done]. cbn. intros [= <-].
  apply Qle_bool_iff in E1, E2. split; [done|]. split; [|done]. field. done.
Qed.
Lemma Qpos_of x : 0 <= x -> ~ x == 0 -> 0 < x.
Proof. intros H N. apply Qle_lteq in H as [?|E]; [done|]. exfalso. apply N. by rewrite E. Qed.
Lemma Qneg_of x : x <= 0 -> ~ x == 0 -> x < 0.
Proof. intros H N. apply Qle_lteq in H as [?|E]; [done|]. by exfalso. Qed.
(** The values of a linear function have different signs at the two ends (of which none is zero) exactly if it crosses zero. *)
Lemma crossing_signs b c lo hi : lo <= hi -> ~ b * lo + c == 0 -> ~ b * hi + c == 0 ->
  (crossing b c lo hi <> None <-> (b * lo + c < 0 /\ 0 < b * hi + c) \/ (0 < b * lo + c /\ b * hi + c < 0)).
Proof.
  intros Hl H0 H1. unfold crossing, within. destruct (Qeq_bool b 0) eqn:E.
  - apply Qeq_bool_eq in E. split; [done|]. intros H. exfalso. rewrite E in *. destruct H as [[? ?]|[? ?]]; lra.
  - apply Qeq_bool_neq in E. set (v := - c / b). assert (Ev : b * v + c == 0) by (unfold v; field; done).
    clearbody v. destruct (Qlt_le_dec b 0) as [Hb|Hb].
    + destruct (Qle_bool lo v) eqn:E1, (Qle_bool v hi) eqn:E2; cbn; split; intros H; try done;
        try (apply Qle_bool_iff in E1); try (apply Qle_bool_iff in E2);
        try (assert (v < lo) by (apply Qnot_le_lt; intros Hx; apply Qle_bool_iff in Hx; congruence));
        try (assert (hi < v) by (apply Qnot_le_lt; intros Hx; apply Qle_bool_iff in Hx; congruence)).
      * right. split; [|]. 
        -- assert (b * v <= b * lo) by nra. apply Qpos_of; [lra|done].
        -- assert (b * hi <= b * v) by nra. apply Qneg_of; [lra|done].
      * exfalso. assert (b * v < b * hi) by nra. destruct H as [[? ?]|[? ?]]; [|lra]. assert (b * hi <= b * lo) by nra. lra.
      * exfalso. assert (b * lo < b * v) by nra. destruct H as [[? ?]|[? ?]]; [|lra]. assert (b * hi <= b * lo) by nra. lra.
      * exfalso. lra.
    + assert (0 < b). { apply Qle_lteq in Hb as [?|?]; [done|]. lra. }
      destruct (Qle_bool lo v) eqn:E1, (Qle_bool v hi) eqn:E2; cbn; split; intros H'; try done;
        try (apply Qle_bool_iff in E1); try (apply Qle_bool_iff in E2);
        try (assert (v < lo) by (apply Qnot_le_lt; intros Hx; apply Qle_bool_iff in Hx; congruence));
        try (assert (hi < v) by (apply Qnot_le_lt; intros Hx; apply Qle_bool_iff in Hx; congruence)).
      * left. split.
        -- assert (b * lo <= b * v) by nra. apply Qneg_of; [lra|done].
        -- assert (b * v <= b * hi) by nra. apply Qpos_of; [lra|done].
      * exfalso. assert (b * hi < b * v) by nra. destruct H' as [[? ?]|[? ?]]; [lra|]. assert (b * lo <= b * hi) by nra. lra.
      * exfalso. assert (b * v < b * lo) by nra. destruct H' as [[? ?]|[? ?]]; [lra|]. assert (b * lo <= b * hi) by nra. lra.
      * exfalso. lra.
Qed.

Lemma line_endpoints_border bb l p : in_box bb bb.1 -> in_box bb bb.2 -> p ∈ line_endpoints bb l -> on_line l p /\ on_border bb p.
Proof.
  destruct l as [[a b] c], bb as [[x0 y0] [x1 y1]]. unfold in_box. cbn [fst snd]. intros [Hx0 Hy0] [Hx1 Hy1].
  unfold line_endpoints. rewrite !elem_of_app. unfold on_line, on_border, in_box. cbn [fst snd].
  intros [H|[H|[H|H]]]; destruct (crossing _ _ _ _) as [v|] eqn:E; try (by apply elem_of_nil in H);
    apply elem_of_list_singleton in H as ->; apply crossing_spec in E as (_ & E & Hv); cbn [fst snd].
  - split; [rewrite <-E; ring|]. split; [split; [lra|done]|]. left. lra.
  - split; [rewrite <-E; ring|]. split; [split; [done|lra]|]. right; right; left. lra.
  - split; [rewrite <-E; ring|]. split; [split; [lra|done]|]. right; left. lra.
  - split; [rewrite <-E; ring|]. split; [split; [done|lra]|]. right; right; right. lra.
Qed.

Lemma line_endpoints_count bb l : in_box bb bb.1 -> in_box bb bb.2 -> (forall p, corner bb p -> ~ on_line l p) ->
  length (line_endpoints bb l) = 0%nat \/ length (line_endpoints bb l) = 2%nat.
Proof.
  destruct l as [[a b] c], bb as [[x0 y0] [x1 y1]]. unfold in_box, corner, on_line. cbn [fst snd]. intros [Hx0 Hy0] [Hx1 Hy1] Hc.
  assert (H00 : ~ a * x0 + b * y0 + c == 0) by (apply (Hc (x0, y0)); cbn; split; left; lra).
  assert (H01 : ~ a * x0 + b * y1 + c == 0) by (apply (Hc (x0, y1)); cbn; split; [left|right]; lra).
  assert (H10 : ~ a * x1 + b * y0 + c == 0) by (apply (Hc (x1, y0)); cbn; split; [right|left]; lra).
  assert (H11 : ~ a * x1 + b * y1 + c == 0) by (apply (Hc (x1, y1)); cbn; split; right; lra).
  clear Hc. unfold line_endpoints.
  assert (G1 := crossing_signs b (c + a * x0) y0 y1 ltac:(lra) ltac:(intros E; apply H00; rewrite <-E; ring) ltac:(intros E; apply H01; rewrite <-E; ring)).
  assert (G2 := crossing_signs a (c + b * y0) x0 x1 ltac:(lra) ltac:(intros E; apply H00; rewrite <-E; ring) ltac:(intros E; apply H10; rewrite <-E; ring)).
  assert (G3 := crossing_signs b (c + a * x1) y0 y1 ltac:(lra) ltac:(intros E; apply H10; rewrite <-E; ring) ltac:(intros E; apply H11; rewrite <-E; ring)).
  assert (G4 := crossing_signs a (c + b * y1) x0 x1 ltac:(lra) ltac:(intros E; apply H01; rewrite <-E; ring) ltac:(intros E; apply H11; rewrite <-E; ring)).
  set (f00 := a * x0 + b * y0 + c) in *. set (f01 := a * x0 + b * y1 + c) in *. set (f10 := a * x1 + b * y0 + c) in *. set (f11 := a * x1 + b * y1 + c) in *.
  assert (S : f00 + f11 == f01 + f10) by (unfold f00, f01, f10, f11; ring).
  assert (E1 : b * y0 + (c + a * x0) == f00) by (unfold f00; ring). assert (E2 : b * y1 + (c + a * x0) == f01) by (unfold f01; ring).
  assert (E3 : a * x0 + (c + b * y0) == f00) by (unfold f00; ring). assert (E4 : a * x1 + (c + b * y0) == f10) by (unfold f10; ring).
  assert (E5 : b * y0 + (c + a * x1) == f10) by (unfold f10; ring). assert (E6 : b * y1 + (c + a * x1) == f11) by (unfold f11; ring).
  assert (E7 : a * x0 + (c + b * y1) == f01) by (unfold f01; ring). assert (E8 : a * x1 + (c + b * y1) == f11) by (unfold f11; ring).
  rewrite E1, E2 in G1. rewrite E3, E4 in G2. rewrite E5, E6 in G3. rewrite E7, E8 in G4.
  clearbody f00 f01 f10 f11. clear E1 E2 E3 E4 E5 E6 E7 E8.
  assert (Hs : forall f, ~ f == 0 -> f < 0 \/ 0 < f). { intros f Hf. destruct (Qlt_le_dec f 0) as [?|Hx]; [by left|]. right. apply Qle_lteq in Hx as [?|?]; [done|]. exfalso. lra. }
  destruct (crossing b (c + a * x0) y0 y1) as [v1|]; [assert (K1 := proj1 G1 ltac:(done))|assert (K1 : ~ _) by (intros K; apply (proj2 G1) in K; done)];
  destruct (crossing a (c + b * y0) x0 x1) as [v2|]; [assert (K2 := proj1 G2 ltac:(done))|assert (K2 : ~ _) by (intros K; apply (proj2 G2) in K; done)
    |assert (K2 := proj1 G2 ltac:(done))|assert (K2 : ~ _) by (intros K; apply (proj2 G2) in K; done)];
  destruct (crossing b (c + a * x1) y0 y1) as [v3|]; destruct (crossing a (c + b * y1) x0 x1) as [v4|];
  try (by left); try (by right); exfalso;
  try (assert (K3 := proj1 G3 ltac:(done))); try (assert (K3 : ~ _) by (intros K; apply (proj2 G3) in K; done));
  try (assert (K4 := proj1 G4 ltac:(done))); try (assert (K4 : ~ _) by (intros K; apply (proj2 G4) in K; done));
  clear G1 G2 G3 G4;
  destruct (Hs _ H00), (Hs _ H01), (Hs _ H10), (Hs _ H11); clear Hs H00 H01 H10 H11;
  try (destruct K1 as [[? ?]|[? ?]]; lra); try (destruct K2 as [[? ?]|[? ?]]; lra); try (destruct K3 as [[? ?]|[? ?]]; lra); try (destruct K4 as [[? ?]|[? ?]]; lra);
  try (apply K1; first [left; split; assumption|right; split; assumption]);
  try (apply K2; first [left; split; assumption|right; split; assumption]);
  try (apply K3; first [left; split; assumption|right; split; assumption]);
  try (apply K4; first [left; split; assumption|right; split; assumption]).
Qed.

(** ** Grids *)
Lemma center_real size off x : 0 < size -> exists v, v - size <= x < v + size /\
  (center size off x = Ok (trunc v) \/ center size off x = UB) /\ (exists k : Z, v == inject_Z k * 2 * size + size + off) /\
  (- inject_Z (2 ^ 31 - 1) <= v <= inject_Z (2 ^ 31 - 1) -> center size off x = Ok (trunc v)).
Proof.
  intros Hs. set (v := inject_Z (Qfloor ((x - off) / (2 * size))) * 2 * size + size + off). exists v.
  assert (E : Qeq_bool size 0 = false). { destruct (Qeq_bool size 0) eqn:E; [|done]. apply Qeq_bool_eq in E. lra. }
  split; [|split; [|split]].
  - unfold v. set (q := (x - off) / (2 * size)). assert (Eq : x == q * 2 * size + off) by (unfold q; field; lra).
    assert (L := Qfloor_le q). assert (U := Qlt_floor q). rewrite inject_Z_plus in U. clearbody q.
    set (f := inject_Z (Qfloor q)) in *. clearbody f. change (inject_Z 1) with 1 in U. clear E.
    assert (f * size <= q * size) by nra. assert (q * size < (f + 1) * size) by nra. lra.
  - unfold center. rewrite E. fold v. unfold to_int. case_decide; [by left|by right].
  - eexists. reflexivity.
  - intros H. unfold center. rewrite E. fold v. by apply to_int_ok.
Qed.
Lemma center_comp size off x y : x == y -> center size off x = center size off y.
Proof.
  intros E. unfold center. destruct (Qeq_bool size 0); [done|]. f_equal. do 5 f_equal. apply Qfloor_comp. by rewrite E.
Qed.

(** For cells of integer size the center is an integer. *)
Lemma center_int (n : Z) (off : Z) x c : (0 < n)%Z -> center (inject_Z n) (inject_Z off) x = Ok c ->
  (exists k : Z, c = (k * 2 * n + n + off)%Z) /\ inject_Z c - inject_Z n <= x < inject_Z c + inject_Z n.
Proof.
  intros Hn H. destruct (center_real (inject_Z n) (inject_Z off) x) as (v & Hv & Hc & (k & Ek) & _).
  { change 0 with (inject_Z 0). by rewrite <-Zlt_Qlt. }
  assert (E : v == inject_Z (k * 2 * n + n + off)).
  { rewrite Ek, !inject_Z_plus, !inject_Z_mult. reflexivity. }
  destruct Hc as [Hc|Hc]; rewrite Hc in H; [|discriminate H]. injection H as <-.
  rewrite (trunc_comp _ _ E), trunc_int. split; [by exists k|]. by rewrite <-E.
Qed.
Lemma Qfloor_unique x (k : Z) : inject_Z k <= x -> x < inject_Z k + 1 -> Qfloor x = k.
Proof.
  intros L U. assert (L' := Qfloor_le x). assert (U' := Qlt_floor x). rewrite inject_Z_plus in U'. change (inject_Z 1) with 1 in U'.
  assert (A : inject_Z k < inject_Z (Qfloor x) + inject_Z 1) by (change (inject_Z 1) with 1; lra).
  assert (B : inject_Z (Qfloor x) < inject_Z k + inject_Z 1) by (change (inject_Z 1) with 1; lra).
  rewrite <-inject_Z_plus, <-Zlt_Qlt in A, B. lia.
Qed.
Lemma center_same (n : Z) (off : Z) x y c : (0 < n)%Z -> center (inject_Z n) (inject_Z off) x = Ok c ->
  inject_Z c - inject_Z n <= y < inject_Z c + inject_Z n -> center (inject_Z n) (inject_Z off) y = Ok c.
Proof.
  intros Hn H [L U]. assert (Hn' : 0 < inject_Z n) by (change 0 with (inject_Z 0); by rewrite <-Zlt_Qlt).
  rewrite <-H. unfold center in *. destruct (Qeq_bool (inject_Z n) 0); [discriminate H|]. do 6 f_equal.
  set (f := Qfloor ((x - inject_Z off) / (2 * inject_Z n))) in *.
  assert (Ec : c = (f * 2 * n + n + off)%Z).
  { unfold to_int in H. case_decide; [|discriminate H]. injection H as <-. rewrite <-(trunc_int (f * 2 * n + n + off)).
    apply trunc_comp. rewrite !inject_Z_plus, !inject_Z_mult. reflexivity. }
  clearbody f. subst c. rewrite !inject_Z_plus, !inject_Z_mult in L, U. change (inject_Z 2) with 2 in L, U.
  set (F := inject_Z f) in *. apply Qfloor_unique; fold F.
  - apply Qle_shift_div_l; [lra|]. lra.
  - apply Qlt_shift_div_r; [lra|]. lra.
Qed.

(** One of the two centers is at most half a cell away. *)
Lemma center_half (n : Z) x c0 c1 : (0 < n)%Z -> center (inject_Z n) 0 x = Ok c0 -> center (inject_Z n) (inject_Z n) x = Ok c1 ->
  (inject_Z c0 - x) * (inject_Z c0 - x) <= (inject_Z c1 - x) * (inject_Z c1 - x) ->
  - (inject_Z n / 2) <= inject_Z c0 - x <= inject_Z n / 2.
Proof.
  intros Hn H0 H1 Hd. change 0 with (inject_Z 0) in H0.
  destruct (center_int n 0 x c0 Hn H0) as ((k0 & E0) & L0 & U0). destruct (center_int n n x c1 Hn H1) as ((k1 & E1) & L1 & U1).
  assert (Hn' : 0 < inject_Z n) by (change 0 with (inject_Z 0); by rewrite <-Zlt_Qlt).
  assert (Hc : c1 = (c0 + n)%Z \/ c1 = (c0 - n)%Z).
  { assert (A : inject_Z c0 - inject_Z n < inject_Z c1 + inject_Z n) by lra. assert (B : inject_Z c1 - inject_Z n < inject_Z c0 + inject_Z n) by lra.
    unfold Qminus in A, B. rewrite <-!inject_Z_opp, <-!inject_Z_plus, <-Zlt_Qlt in A, B. rewrite E0, E1 in A, B.
    assert ((k1 - k0 < 1)%Z) by nia. assert ((k0 - k1 < 2)%Z) by nia. assert (k1 = k0 \/ k1 = (k0 - 1)%Z) as [->| ->] by lia; lia. }
  destruct Hc as [-> | ->]; unfold Z.sub in *; rewrite inject_Z_plus, ?inject_Z_opp in *; set (a := inject_Z c0) in *; set (m := inject_Z n) in *;
    clearbody a m; clear - Hd L0 U0 L1 U1 Hn'; (assert (m / 2 == m * (1 # 2)) as -> by field); split; nra.
Qed.
Lemma center_half' (n : Z) x c0 c1 : (0 < n)%Z -> center (inject_Z n) 0 x = Ok c0 -> center (inject_Z n) (inject_Z n) x = Ok c1 ->
  (inject_Z c1 - x) * (inject_Z c1 - x) <= (inject_Z c0 - x) * (inject_Z c0 - x) ->
  - (inject_Z n / 2) <= inject_Z c1 - x <= inject_Z n / 2.
Proof.
  intros Hn H0 H1 Hd. change 0 with (inject_Z 0) in H0.
  destruct (center_int n 0 x c0 Hn H0) as ((k0 & E0) & L0 & U0). destruct (center_int n n x c1 Hn H1) as ((k1 & E1) & L1 & U1).
  assert (Hn' : 0 < inject_Z n) by (change 0 with (inject_Z 0); by rewrite <-Zlt_Qlt).
  assert (Hc : c1 = (c0 + n)%Z \/ c1 = (c0 - n)%Z).
  { assert (A : inject_Z c0 - inject_Z n < inject_Z c1 + inject_Z n) by lra. assert (B : inject_Z c1 - inject_Z n < inject_Z c0 + inject_Z n) by lra.
    unfold Qminus in A, B. rewrite <-!inject_Z_opp, <-!inject_Z_plus, <-Zlt_Qlt in A, B. rewrite E0, E1 in A, B.
    assert ((k1 - k0 < 1)%Z) by nia. assert ((k0 - k1 < 2)%Z) by nia. assert (k1 = k0 \/ k1 = (k0 - 1)%Z) as [->| ->] by lia; lia. }
  destruct Hc as [-> | ->]; unfold Z.sub in *; rewrite inject_Z_plus, ?inject_Z_opp in *; set (a := inject_Z c0) in *; set (m := inject_Z n) in *;
    clearbody a m; clear - Hd L0 U0 L1 U1 Hn'; (assert (m / 2 == m * (1 # 2)) as -> by field); split; nra.
Qed.

(** What the grids contain. *)
Definition shape (g : image_grid) : Q * Q * Q := (ig_size g, ig_x g, ig_y g).
Lemma closest_center_shape g g' p : shape g = shape g' -> closest_center g p = closest_center g' p.
Proof. unfold shape, closest_center. intros [= -> -> ->]. done. Qed.
Lemma closest_center_comp g p q : p.1 == q.1 -> p.2 == q.2 -> closest_center g p = closest_center g q.
Proof. intros E1 E2. unfold closest_center. by rewrite (center_comp _ _ _ _ E1), (center_comp _ _ _ _ E2). Qed.

Definition contains (ks : nat -> pixel -> Prop) (g : image_grid) : Prop :=
  forall c i, i ∈ default [] (ig_cells g !! c) <-> exists k, ks i k /\ closest_center g k = Ok c.
Lemma add_feature_Ok i p g g' (ks : nat -> pixel -> Prop) : add_feature i p g = Ok g' -> contains ks g ->
  shape g' = shape g /\ contains (fun j k => ks j k \/ (j = i /\ k = p)) g'.
Proof.
  unfold add_feature. destruct (closest_center g p) as [c| | |] eqn:Ec; cbn [mbind outcome_bind]; try discriminate. intros [= <-] Hk.
  split; [done|]. intros c' j. cbn [ig_cells].
  assert (Es : forall k, closest_center (ImageGrid (ig_size g) (ig_x g) (ig_y g) (<[c:=default [] (ig_cells g !! c) ++ [i]]> (ig_cells g))) k = closest_center g k)
    by (intros k; by apply closest_center_shape).
  setoid_rewrite Es. clear Es. destruct (decide (c = c')) as [<-|Hn].
  - rewrite lookup_insert. cbn [from_option]; unfold id at 1. rewrite elem_of_app, elem_of_list_singleton, (Hk c j). split.
    + intros [(k & H & E)| ->]; [exists k; by split; [left|]|exists p; by split; [right|]].
    + intros (k & [H|[-> ->]] & E); [left; by exists k|by right].
  - rewrite lookup_insert_ne by done. rewrite (Hk c' j). split.
    + intros (k & H & E). exists k. by split; [left|].
    + intros (k & [H|[-> ->]] & E); [by exists k|]. rewrite Ec in E. injection E as E. by exfalso.
Qed.
Lemma add_to_grids_Ok i p gs gs' (ks : nat -> pixel -> Prop) : add_to_grids i p gs = Ok gs' -> Forall (contains ks) gs ->
  shape <$> gs' = shape <$> gs /\ Forall (contains (fun j k => ks j k \/ (j = i /\ k = p))) gs'.
Proof.
  revert gs'. induction gs as [|g gs IH]; intros gs' H Hc; cbn [add_to_grids] in H.
  - injection H as <-. done.
  - destruct (add_feature i p g) as [g'| | |] eqn:Eg; cbn [mbind outcome_bind] in H; try discriminate.
    destruct (add_to_grids i p gs) as [gs1| | |]; cbn [mbind outcome_bind] in H; try discriminate. injection H as <-.
    apply Forall_cons in Hc as [Hc1 Hc2]. destruct (add_feature_Ok _ _ _ _ _ Eg Hc1) as [S1 C1]. destruct (IH gs1 eq_refl Hc2) as [S2 C2].
    split; [|by constructor]. cbn. by rewrite S1, S2.
Qed.
Lemma contains_iff ks ks' g : (forall i k, ks i k <-> ks' i k) -> contains ks g -> contains ks' g.
Proof. intros H Hc c i. rewrite (Hc c i). by setoid_rewrite H. Qed.

(** The keypoints of the second image that have no match. *)
Definition free (ks : list pixel) (m : gset nat) (i : nat) (k : pixel) : Prop := ks !! i = Some k /\ i ∉ m.
Lemma add_keypoints_Ok m i ks gs xs gs' xs' (K : nat -> pixel -> Prop) : add_keypoints m i ks gs xs = Ok (gs', xs') ->
  Forall (contains K) gs ->
  shape <$> gs' = shape <$> gs /\ Forall (contains (fun j k => K j k \/ exists j', j = (i + j')%nat /\ ks !! j' = Some k /\ j ∉ m)) gs' /\
  (forall k, k ∈ xs' <-> k ∈ xs \/ exists j', ks !! j' = Some k /\ (i + j')%nat ∉ m).
Proof.
  revert i gs xs K. induction ks as [|k ks IH]; intros i gs xs K H Hc; cbn [add_keypoints] in H.
  - injection H as <- <-. split; [done|]. split.
    + eapply Forall_impl; [exact Hc|]. intros g. apply contains_iff. intros j k. split; [by left|]. intros [?|(j' & _ & ? & _)]; done.
    + intros k. split; [by left|]. intros [?|(j' & ? & _)]; done.
  - destruct (decide (i ∈ m)) as [Hm|Hm].
    + destruct (IH _ _ _ _ H Hc) as (Sh & C & X). split; [done|]. split.
      * eapply Forall_impl; [exact C|]. intros g. apply contains_iff. intros j k'. split.
        -- intros [?|(j' & -> & E & N)]; [by left|]. right. exists (S j'). split; [lia|done].
        -- intros [?|([|j'] & -> & E & N)]; [by left| |].
           ++ exfalso. apply N. by rewrite Nat.add_0_r.
           ++ right. exists j'. split; [lia|done].
      * intros k'. rewrite X. split.
        -- intros [?|(j' & E & N)]; [by left|]. right. exists (S j'). by rewrite Nat.add_succ_r.
        -- intros [?|([|j'] & E & N)]; [by left| |].
           ++ exfalso. apply N. by rewrite Nat.add_0_r.
           ++ right. exists j'. by rewrite Nat.add_succ_r in N.
    + destruct (add_to_grids i k gs) as [gs1| | |] eqn:Eg; cbn [mbind outcome_bind] in H; try discriminate.
      destruct (add_to_grids_Ok _ _ _ _ _ Eg Hc) as [S1 C1]. destruct (IH _ _ _ _ H C1) as (Sh & C & X).
      split; [by rewrite Sh|]. split.
      * eapply Forall_impl; [exact C|]. intros g. apply contains_iff. intros j k'. split.
        -- intros [[?|[-> ->]]|(j' & -> & E & N)]; [by left| |].
           ++ right. exists 0%nat. by rewrite Nat.add_0_r.
           ++ right. exists (S j'). split; [lia|done].
        -- intros [?|([|j'] & -> & E & N)]; [by left; left| |].
           ++ cbn in E. injection E as <-. left. right. by rewrite Nat.add_0_r.
           ++ right. exists j'. split; [lia|done].
      * intros k'. rewrite X, elem_of_app, elem_of_list_singleton. split.
        -- intros [[?| ->]|(j' & E & N)]; [by left| |].
           ++ right. exists 0%nat. by rewrite Nat.add_0_r.
           ++ right. exists (S j'). by rewrite Nat.add_succ_r.
        -- intros [?|([|j'] & E & N)]; [by left; left| |].
           ++ cbn in E. injection E as <-. left. by right.
           ++ right. exists j'. by rewrite Nat.add_succ_r in N.
Qed.

Lemma foldl_min_spec l x : foldl Qmin2 x l <= x /\ (forall y, y ∈ l -> foldl Qmin2 x l <= y) /\ (foldl Qmin2 x l = x \/ foldl Qmin2 x l ∈ l).
Proof.
  revert x. induction l as [|a l IH]; intros x; cbn [foldl].
  - split; [lra|]. split; [by intros y ?%elem_of_nil|by left].
  - destruct (IH (Qmin2 x a)) as (A & B & C). assert (M : Qmin2 x a <= x /\ Qmin2 x a <= a /\ (Qmin2 x a = x \/ Qmin2 x a = a)).
    { unfold Qmin2. destruct (Qle_bool x a) eqn:E.
      - apply Qle_bool_iff in E. split; [lra|]. split; [lra|by left].
      - assert (a < x) by (apply Qnot_le_lt; intros Hx; apply Qle_bool_iff in Hx; congruence). split; [lra|]. split; [lra|by right]. }
    destruct M as (M1 & M2 & M3). split; [lra|]. split.
    + intros y [->|Hy]%elem_of_cons; [lra|by apply B].
    + destruct C as [->|C]; [destruct M3 as [->| ->]; [by left|right; by left]|right; by right].
Qed.
Lemma foldl_max_spec l x : x <= foldl Qmax2 x l /\ (forall y, y ∈ l -> y <= foldl Qmax2 x l) /\ (foldl Qmax2 x l = x \/ foldl Qmax2 x l ∈ l).
Proof.
  revert x. induction l as [|a l IH]; intros x; cbn [foldl].
  - split; [lra|]. split; [by intros y ?%elem_of_nil|by left].
  - destruct (IH (Qmax2 x a)) as (A & B & C). assert (M : x <= Qmax2 x a /\ a <= Qmax2 x a /\ (Qmax2 x a = x \/ Qmax2 x a = a)).
    { unfold Qmax2. destruct (Qle_bool x a) eqn:E.
      - apply Qle_bool_iff in E. split; [lra|]. split; [lra|by right].
      - assert (a < x) by (apply Qnot_le_lt; intros Hx; apply Qle_bool_iff in Hx; congruence). split; [lra|]. split; [lra|by left]. }
    destruct M as (M1 & M2 & M3). split; [lra|]. split.
    + intros y [->|Hy]%elem_of_cons; [lra|by apply B].
    + destruct C as [->|C]; [destruct M3 as [->| ->]; [by left|right; by left]|right; by right].
Qed.
Lemma minmax_Ok l r : minmax l = Ok r -> (forall y, y ∈ l -> r.1 <= y <= r.2) /\ r.1 ∈ l /\ r.2 ∈ l.
Proof.
  destruct l as [|x l]; cbn [minmax]; [discriminate|]. intros [= <-]. cbn [fst snd].
  destruct (foldl_min_spec l x) as (A & B & C), (foldl_max_spec l x) as (A' & B' & C'). split; [|split].
  - intros y [->|Hy]%elem_of_cons; [lra|]. specialize (B y Hy). specialize (B' y Hy). lra.
  - destruct C as [->|C]; [by left|by right].
  - destruct C' as [->|C']; [by left|by right].
Qed.

Definition grid_shapes (d : Q) : list (Q * Q * Q) := [(d, 0, 0); (d, d, 0); (d, 0, d); (d, d, d)].
Definition unmatched (ks : list pixel) (m : gset nat) (i : nat) (k : pixel) : Prop := ks !! i = Some k /\ i ∉ m.

Section initialize.
Context (d : Q) (ks2 : list pixel).
Lemma initialize_Ok m gs bb : initialize d ks2 m = Ok (gs, bb) ->
  shape <$> gs = grid_shapes d /\ Forall (contains (unmatched ks2 m)) gs /\
  (forall i k, unmatched ks2 m i k -> in_box bb k) /\
  (exists i k, unmatched ks2 m i k /\ k.1 = bb.1.1) /\ (exists i k, unmatched ks2 m i k /\ k.1 = bb.2.1) /\
  (exists i k, unmatched ks2 m i k /\ k.2 = bb.1.2) /\ (exists i k, unmatched ks2 m i k /\ k.2 = bb.2.2).
Proof.
  unfold initialize. destruct (add_keypoints m 0 ks2 _ []) as [[gs1 xs]| | |] eqn:Ea; cbn [mbind outcome_bind]; try discriminate.
  assert (He : forall s x y, contains (fun _ _ => False) (ImageGrid s x y ∅)).
  { intros s x y c i. cbn. rewrite lookup_empty. cbn. split; [by intros ?%elem_of_nil|]. intros (? & [] & _). }
  destruct (add_keypoints_Ok _ _ _ _ _ _ _ (fun _ _ => False) Ea) as (Sh & C & X); [repeat constructor; apply He|].
  destruct (minmax (fst <$> xs)) as [x| | |] eqn:Ex; cbn [mbind outcome_bind]; try discriminate.
  destruct (minmax (snd <$> xs)) as [y| | |] eqn:Ey; cbn [mbind outcome_bind]; try discriminate. intros [= <- <-].
  apply minmax_Ok in Ex as (X1 & X2 & X3), Ey as (Y1 & Y2 & Y3).
  assert (Xu : forall k, k ∈ xs <-> exists i, unmatched ks2 m i k).
  { intros k. rewrite X. split; [intros [?%elem_of_nil|(j & E & N)]; [done|by exists j]|]. intros (j & E & N). right. by exists j. }
  split; [done|]. split.
  { eapply Forall_impl; [exact C|]. intros g. apply contains_iff. intros i k. unfold unmatched. split.
    - intros [[]|(j & -> & ?)]. done.
    - intros [E N]. right. by exists i. }
  split.
  { intros i k Hk. assert (k ∈ xs) by (apply Xu; by exists i). unfold in_box. cbn [fst snd].
    split; [apply X1|apply Y1]; by apply elem_of_list_fmap_1. }
  cbn [fst snd].
  apply elem_of_list_fmap in X2 as (k2 & -> & K2), X3 as (k3 & -> & K3), Y2 as (k4 & -> & K4), Y3 as (k5 & -> & K5).
  apply Xu in K2 as [i2 ?], K3 as [i3 ?], K4 as [i4 ?], K5 as [i5 ?].
  split; [by exists i2, k2|]. split; [by exists i3, k3|]. split; [by exists i4, k4|by exists i5, k5].
Qed.
End initialize.

(** The closest cell. *)
Lemma closest_cell_Ok p gs best r : closest_cell p gs best = Ok r ->
  (forall g c m, best = Some (g, c, m) -> m == sq_dist (inject_Z c.1, inject_Z c.2) p) ->
  exists g c m, (r = Some (g, c, m) /\ m == sq_dist (inject_Z c.1, inject_Z c.2) p /\
    (best = Some (g, c, m) \/ (g ∈ gs /\ closest_center g p = Ok c)) /\
    (forall g' c' m', best = Some (g', c', m') -> m <= m') /\
    (forall g', g' ∈ gs -> exists c', closest_center g' p = Ok c' /\ m <= sq_dist (inject_Z c'.1, inject_Z c'.2) p)) \/
  r = None /\ best = None /\ gs = [].
Proof.
  revert best. induction gs as [|g gs IH]; intros best H Hb; cbn [closest_cell] in H.
  - injection H as <-. destruct best as [[[g c] m]|].
    + exists g, c, m. left. split; [done|]. split; [by apply (Hb g c m)|]. split; [by left|]. split; [intros ? ? ? [= <- <- <-]; lra|]. by intros ? ?%elem_of_nil.
    + exists (ImageGrid 0 0 0 ∅), (0%Z, 0%Z), 0. by right.
  - destruct (closest_center g p) as [c| | |] eqn:Ec; cbn [mbind outcome_bind] in H; try discriminate. cbv zeta in H.
    set (dist := sq_dist (inject_Z c.1, inject_Z c.2) p) in *.
    destruct (IH _ H) as (g' & c' & m' & [(-> & Em & Hor & Hle & Hall)|(-> & Hn & _)]).
    + intros g1 c1 m1 E1. destruct best as [[[g0 c0] m0]|].
      * destruct (negb (Qle_bool m0 dist)); injection E1 as <- <- <-; [unfold dist; reflexivity|by apply (Hb g0 c0 m0)].
      * injection E1 as <- <- <-. unfold dist. reflexivity.
    + exists g', c', m'. left. split; [done|]. split; [done|].
      assert (Hd : m' <= dist /\ forall g0 c0 m0, best = Some (g0, c0, m0) -> m' <= m0).
      { destruct best as [[[g0 c0] m0]|].
        - destruct (Qle_bool m0 dist) eqn:E; cbn [negb] in Hle.
          + apply Qle_bool_iff in E. specialize (Hle _ _ _ eq_refl). split; [lra|]. intros ? ? ? [= <- <- <-]. done.
          + assert (dist < m0) by (apply Qnot_le_lt; intros Hx; apply Qle_bool_iff in Hx; congruence).
            specialize (Hle _ _ _ eq_refl). split; [done|]. intros ? ? ? [= <- <- <-]. lra.
        - specialize (Hle _ _ _ eq_refl). split; [done|]. discriminate. }
      split; [|split; [apply Hd|]].
      * destruct Hor as [Hor|[? ?]]; [|right; split; [by right|done]].
        destruct best as [[[g0 c0] m0]|].
        -- destruct (negb (Qle_bool m0 dist)); [|by left]. injection Hor as <- <- <-. right. split; [by left|done].
        -- injection Hor as <- <- <-. right. split; [by left|done].
      * intros g1 [->|H1]%elem_of_cons; [|by apply Hall]. exists c. split; [done|apply Hd].
    + exfalso. destruct best as [[[g0 c0] m0]|]; [destruct (negb (Qle_bool m0 dist))|]; discriminate Hn.
Qed.

Lemma keypoints_near_Ok (n : Z) gs p l (K : nat -> pixel -> Prop) : (0 < n)%Z -> shape <$> gs = grid_shapes (inject_Z n) -> Forall (contains K) gs ->
  keypoints_near gs p = Ok l ->
  (forall i k, K i k -> closer (inject_Z n / 2) k p -> i ∈ l) /\
  (forall i, i ∈ l -> exists k, K i k /\ close (3 * inject_Z n / 2) k p).
Proof.
  intros Hn Hs Hc H. unfold keypoints_near in H. destruct (closest_cell p gs None) as [best| | |] eqn:Eb; cbn [mbind outcome_bind] in H; try discriminate.
  destruct (closest_cell_Ok _ _ _ _ Eb) as (g & c & m & [(-> & Em & Hor & _ & Hall)|(_ & _ & ->)]); [discriminate| |discriminate Hs].
  cbn [or_ub mbind outcome_bind] in H. injection H as <-.
  destruct Hor as [Hor|[Hg Ec]]; [discriminate Hor|].
  rewrite Forall_forall in Hc. specialize (Hc g Hg).
  destruct gs as [|g0 [|g1 [|g2 [|g3 [|]]]]]; try discriminate Hs. 
  assert (Hs0 : shape g0 = (inject_Z n, 0, 0)) by (cbn [fmap list_fmap] in Hs; unfold grid_shapes in Hs; congruence).
  assert (Hs1 : shape g1 = (inject_Z n, inject_Z n, 0)) by (cbn [fmap list_fmap] in Hs; unfold grid_shapes in Hs; congruence).
  assert (Hs2 : shape g2 = (inject_Z n, 0, inject_Z n)) by (cbn [fmap list_fmap] in Hs; unfold grid_shapes in Hs; congruence).
  assert (Hs3 : shape g3 = (inject_Z n, inject_Z n, inject_Z n)) by (cbn [fmap list_fmap] in Hs; unfold grid_shapes in Hs; congruence).
  clear Hs.
  assert (HA : forall g', g' ∈ [g0; g1; g2; g3] -> exists c', closest_center g' p = Ok c' /\ m <= sq_dist (inject_Z c'.1, inject_Z c'.2) p) by exact Hall. clear Hall.
  destruct (HA g0 ltac:(by left)) as (c0 & E0 & M0). destruct (HA g1 ltac:(right; by left)) as (c1 & E1 & M1).
  destruct (HA g2 ltac:(right; right; by left)) as (c2 & E2 & M2). destruct (HA g3 ltac:(right; right; right; by left)) as (c3 & E3 & M3). clear HA.
  assert (Hx : exists ax bx, center (inject_Z n) 0 p.1 = Ok ax /\ center (inject_Z n) (inject_Z n) p.1 = Ok bx /\ c0.1 = ax /\ c2.1 = ax /\ c1.1 = bx /\ c3.1 = bx /\
     exists ay by', center (inject_Z n) 0 p.2 = Ok ay /\ center (inject_Z n) (inject_Z n) p.2 = Ok by' /\ c0.2 = ay /\ c1.2 = ay /\ c2.2 = by' /\ c3.2 = by').
  { unfold closest_center in E0, E1, E2, E3. unfold shape in Hs0, Hs1, Hs2, Hs3. injection Hs0 as A1' A2' A3'. rewrite A1', A2', A3' in E0. injection Hs1 as A1 A2 A3. injection Hs2 as A4 A5 A6. injection Hs3 as A7 A8 A9.
    rewrite A1, A2, A3 in E1. rewrite A4, A5, A6 in E2. rewrite A7, A8, A9 in E3.
    destruct (center (inject_Z n) 0 p.1) as [ax| | |]; cbn [mbind outcome_bind] in E0, E2; try discriminate.
    destruct (center (inject_Z n) 0 p.2) as [ay| | |]; cbn [mbind outcome_bind] in E0, E1; try discriminate.
    destruct (center (inject_Z n) (inject_Z n) p.1) as [bx| | |]; cbn [mbind outcome_bind] in E1, E3; try discriminate.
    destruct (center (inject_Z n) (inject_Z n) p.2) as [by'| | |]; cbn [mbind outcome_bind] in E2, E3; try discriminate.
    injection E0 as <-. injection E1 as <-. injection E2 as <-. injection E3 as <-. exists ax, bx. repeat (split; [done|]). exists ay, by'. done. }
  destruct Hx as (ax & bx & Cax & Cbx & X0 & X2 & X1 & X3 & ay & by' & Cay & Cby & Y0 & Y1 & Y2 & Y3).
  unfold sq_dist in M0, M1, M2, M3, Em. cbn [fst snd] in M0, M1, M2, M3, Em. rewrite X0, Y0 in M0. rewrite X1, Y1 in M1. rewrite X2, Y2 in M2. rewrite X3, Y3 in M3.
  assert (Hoff : exists ox oy : Z, shape g = (inject_Z n, inject_Z ox, inject_Z oy) /\
    - (inject_Z n / 2) <= inject_Z c.1 - p.1 <= inject_Z n / 2 /\ - (inject_Z n / 2) <= inject_Z c.2 - p.2 <= inject_Z n / 2).
  { apply elem_of_cons in Hg as [->|Hg]; [|apply elem_of_cons in Hg as [->|Hg]; [|apply elem_of_cons in Hg as [->|Hg]; [|apply elem_of_list_singleton in Hg as ->]]].
    - rewrite E0 in Ec. injection Ec as <-. exists 0%Z, 0%Z. split; [done|]. rewrite X0, Y0 in *.
      split; [eapply center_half; [exact Hn|exact Cax|exact Cbx|]|eapply center_half; [exact Hn|exact Cay|exact Cby|]]; rewrite Em in M1, M2; lra.
    - rewrite E1 in Ec. injection Ec as <-. exists n, 0%Z. split; [done|]. rewrite X1, Y1 in *.
      split; [eapply center_half'; [exact Hn|exact Cax|exact Cbx|]|eapply center_half; [exact Hn|exact Cay|exact Cby|]]; rewrite Em in M0, M3; lra.
    - rewrite E2 in Ec. injection Ec as <-. exists 0%Z, n. split; [done|]. rewrite X2, Y2 in *.
      split; [eapply center_half; [exact Hn|exact Cax|exact Cbx|]|eapply center_half'; [exact Hn|exact Cay|exact Cby|]]; rewrite Em in M0, M3; lra.
    - rewrite E3 in Ec. injection Ec as <-. exists n, n. split; [done|]. rewrite X3, Y3 in *.
      split; [eapply center_half'; [exact Hn|exact Cax|exact Cbx|]|eapply center_half'; [exact Hn|exact Cay|exact Cby|]]; rewrite Em in M1, M2; lra. }
  destruct Hoff as (ox & oy & Hsh & Bx & By).
  clear E0 E1 E2 E3 M0 M1 M2 M3 X0 X1 X2 X3 Y0 Y1 Y2 Y3 Cax Cbx Cay Cby Hs0 Hs1 Hs2 Hs3 Hg Em.
  injection Hsh as S1 S2 S3.
  assert (Hcc : forall k c', closest_center g k = Ok c' <-> center (inject_Z n) (inject_Z ox) k.1 = Ok c'.1 /\ center (inject_Z n) (inject_Z oy) k.2 = Ok c'.2).
  { intros k c'. unfold closest_center. rewrite S1, S2, S3. destruct (center _ _ k.1) as [a| | |]; cbn [mbind outcome_bind]; [|split; [discriminate|intros [X _]; discriminate X]..].
    destruct (center _ _ k.2) as [b| | |]; cbn [mbind outcome_bind]; [|split; [discriminate|intros [_ X]; discriminate X]..].
    destruct c'; cbn [fst snd]. split; [intros [= -> ->]; done|intros [[= ->] [= ->]]; done]. }
  assert (Hdiv : inject_Z n / 2 == inject_Z n * (1 # 2)) by field.
  assert (Hn' : 0 < inject_Z n) by (change 0 with (inject_Z 0); by rewrite <-Zlt_Qlt).
  apply Hcc in Ec as [Ec1 Ec2].
  split.
  - intros i k Hk [[Lx1 Lx2] [Ly1 Ly2]]. apply (Hc c i). exists k. split; [done|]. apply Hcc.
    rewrite Hdiv in Bx, By, Lx1, Lx2, Ly1, Ly2. 
    split; [apply (center_same n ox p.1); [exact Hn|exact Ec1|]|apply (center_same n oy p.2); [exact Hn|exact Ec2|]];
      clear - Bx By Lx1 Lx2 Ly1 Ly2 Hn'; split; lra.
  - intros i Hi. apply (Hc c i) in Hi as (k & Hk & Ek). exists k. split; [done|].
    apply Hcc in Ek as [Ek1 Ek2]. destruct (center_int n ox _ _ Hn Ek1) as (_ & ? & ?). destruct (center_int n oy _ _ Hn Ek2) as (_ & ? & ?).
    unfold close. assert (3 * inject_Z n / 2 == inject_Z n * (3 # 2)) as -> by field. rewrite Hdiv in Bx, By.
    clear - Bx By H H0 H1 H2 Hn'. split; lra.
Qed.

(** A line that meets the box crosses its border (if it avoids the corners). *)
Lemma meets_crosses bb l : in_box bb bb.1 -> in_box bb bb.2 -> (forall p, corner bb p -> ~ on_line l p) ->
  meets bb l <-> length (line_endpoints bb l) = 2%nat.
Proof.
  intros H1 H2 Hc. split.
  - intros ([x y] & Hb & Hl). destruct (line_endpoints_count bb l H1 H2 Hc) as [E|E]; [|done]. exfalso.
    destruct l as [[a b] c], bb as [[x0 y0] [x1 y1]]. unfold in_box, corner, on_line in *. cbn [fst snd] in *.
    destruct H1 as [Hx0 Hy0], H2 as [Hx1 Hy1], Hb as [Hx Hy].
    assert (H00 : ~ a * x0 + b * y0 + c == 0) by (apply (Hc (x0, y0)); cbn; split; left; lra).
    assert (H01 : ~ a * x0 + b * y1 + c == 0) by (apply (Hc (x0, y1)); cbn; split; [left|right]; lra).
    assert (H10 : ~ a * x1 + b * y0 + c == 0) by (apply (Hc (x1, y0)); cbn; split; [right|left]; lra).
    assert (H11 : ~ a * x1 + b * y1 + c == 0) by (apply (Hc (x1, y1)); cbn; split; right; lra).
    clear Hc. unfold line_endpoints in E.
    assert (G1 := crossing_signs b (c + a * x0) y0 y1 ltac:(lra) ltac:(intros K; apply H00; rewrite <-K; ring) ltac:(intros K; apply H01; rewrite <-K; ring)).
    assert (G2 := crossing_signs a (c + b * y0) x0 x1 ltac:(lra) ltac:(intros K; apply H00; rewrite <-K; ring) ltac:(intros K; apply H10; rewrite <-K; ring)).
    assert (G3 := crossing_signs b (c + a * x1) y0 y1 ltac:(lra) ltac:(intros K; apply H10; rewrite <-K; ring) ltac:(intros K; apply H11; rewrite <-K; ring)).
    destruct (crossing b (c + a * x0) y0 y1); [discriminate E|]. destruct (crossing a (c + b * y0) x0 x1); [discriminate E|].
    destruct (crossing b (c + a * x1) y0 y1); [discriminate E|]. clear E.
    assert (Hs : forall f, ~ f == 0 -> f < 0 \/ 0 < f). { intros f Hf. destruct (Qlt_le_dec f 0) as [?|Hz]; [by left|]. right. apply Qle_lteq in Hz as [?|?]; [done|]. exfalso. lra. }
    assert (Sgn : (a * x0 + b * y0 + c < 0 /\ a * x0 + b * y1 + c < 0 /\ a * x1 + b * y0 + c < 0 /\ a * x1 + b * y1 + c < 0) \/
                  (0 < a * x0 + b * y0 + c /\ 0 < a * x0 + b * y1 + c /\ 0 < a * x1 + b * y0 + c /\ 0 < a * x1 + b * y1 + c)).
    { destruct (Hs _ H00) as [A|A], (Hs _ H01) as [B|B], (Hs _ H10) as [C|C], (Hs _ H11) as [E|E]; try (left; done); try (right; done); exfalso;
        clear Hs H00 H01 H10 H11 Hl Hx Hy;
        first [ (assert (K : None <> None :> option Q) by (apply (proj2 G1); first [left; split; lra|right; split; lra])); done
              | (assert (K : None <> None :> option Q) by (apply (proj2 G2); first [left; split; lra|right; split; lra])); done
              | (assert (K : None <> None :> option Q) by (apply (proj2 G3); first [left; split; lra|right; split; lra])); done ]. }
    clear G1 G2 G3 Hs H00 H01 H10 H11 Hx0 Hy0 Hx1 Hy1.
    assert (Ha : (a * x0 <= a * x /\ a * x <= a * x1) \/ (a * x1 <= a * x /\ a * x <= a * x0)).
    { destruct (Qdec_nonneg a); [left|right]; split; nra. }
    assert (Hb : (b * y0 <= b * y /\ b * y <= b * y1) \/ (b * y1 <= b * y /\ b * y <= b * y0)).
    { destruct (Qdec_nonneg b); [left|right]; split; nra. }
    destruct Sgn as [(A & B & C & E)|(A & B & C & E)], Ha as [[? ?]|[? ?]], Hb as [[? ?]|[? ?]]; lra.
  - intros E. destruct (line_endpoints bb l) as [|p q] eqn:El; [discriminate E|].
    destruct (line_endpoints_border bb l p H1 H2) as [? [? _]]; [rewrite El; by left|]. by exists p.
Qed.

(** ** Groups *)
Lemma encoded_lines_Ok line_of m bb i ks es : encoded_lines line_of m bb i ks = Ok es ->
  (forall j c, (c, j) ∈ es -> exists k a b, (i <= j)%nat /\ ks !! (j - i)%nat = Some k /\ j ∉ m /\ line_endpoints bb (line_of k) = [a; b] /\ encode (a, b) = Ok c) /\
  (forall j k, ks !! j = Some k -> (i + j)%nat ∉ m -> length (line_endpoints bb (line_of k)) = 2%nat -> (i + j)%nat ∈ es.*2) /\
  NoDup es.*2.
Proof.
  revert i es. induction ks as [|k ks IH]; intros i es H; cbn [encoded_lines] in H.
  - injection H as <-. split; [by intros j c ?%elem_of_nil|]. split; [|constructor]. intros j k E. discriminate E.
  - assert (Hskip : forall es', encoded_lines line_of m bb (S i) ks = Ok es' -> (i ∈ m \/ length (line_endpoints bb (line_of k)) <> 2%nat) ->
      (forall j c, (c, j) ∈ es' -> exists k' a b, (i <= j)%nat /\ (k :: ks) !! (j - i)%nat = Some k' /\ j ∉ m /\ line_endpoints bb (line_of k') = [a; b] /\ encode (a, b) = Ok c) /\
      (forall j k', (k :: ks) !! j = Some k' -> (i + j)%nat ∉ m -> length (line_endpoints bb (line_of k')) = 2%nat -> (i + j)%nat ∈ es'.*2) /\ NoDup es'.*2).
    { intros es' H' Hno. destruct (IH _ _ H') as (A & B & C). split; [|split; [|done]].
      - intros j c Hj. destruct (A j c Hj) as (k' & a & b & Hle & E & R). exists k', a, b. split; [lia|]. split; [|done].
        replace (j - i)%nat with (S (j - S i)) by lia. done.
      - intros [|j] k' E N L.
        + cbn in E. injection E as <-. rewrite Nat.add_0_r in N. by destruct Hno.
        + rewrite Nat.add_succ_r in *. by apply (B j k'). }
    destruct (decide (i ∈ m)) as [Hm|Hm]; [apply Hskip; [done|by left]|].
    destruct (line_endpoints bb (line_of k)) as [|a [|b [|]]] eqn:El; try (apply Hskip; [done|right; cbn; lia]).
    destruct (encode (a, b)) as [c| | |] eqn:Ec; cbn [mbind outcome_bind] in H; try discriminate.
    destruct (encoded_lines line_of m bb (S i) ks) as [rest| | |] eqn:Er; cbn [mbind outcome_bind] in H; try discriminate. injection H as <-.
    destruct (IH _ _ Er) as (A & B & C). clear Hskip. split; [|split].
    + intros j c' [[= -> ->]|Hj]%elem_of_cons.
      * exists k, a, b. rewrite Nat.sub_diag. done.
      * destruct (A j c' Hj) as (k' & a' & b' & Hle & E & R). exists k', a', b'. split; [lia|]. split; [|done].
        replace (j - i)%nat with (S (j - S i)) by lia. done.
    + intros [|j] k' E N L; rewrite fmap_cons.
      * rewrite Nat.add_0_r. by left.
      * right. rewrite Nat.add_succ_r in *. by apply (B j k').
    + rewrite fmap_cons. constructor; [|done]. intros ([c' j] & E & Hj)%elem_of_list_fmap. cbn in E. subst j.
      destruct (A _ _ Hj) as (_ & _ & _ & Hle & _). cbn in *. lia.
Qed.

Section groups.
Context (d : Q).
(** The segments [xs] of the features of a group. *)
Definition group_ok (code : nat -> pixel * pixel -> Prop) (g : epiline_group) : Prop :=
  exists xs, Forall2 code (eg_features g) xs /\ mean_of xs (eg_endpoints g) /\ eg_features g <> [] /\
    forall j x, xs !! j = Some x -> (0 < j)%nat -> exists c, mean_of (take j xs) c /\ sq_dist c.1 x.1 <= d * d.

Lemma total_app f xs x : total f (xs ++ [x]) == total f xs + f x.
Proof. induction xs as [|y xs IH]; cbn; [lra|]. unfold total in IH. rewrite IH. lra. Qed.

Lemma mean_snoc xs c x fs : length fs = length xs -> mean_of xs c ->
  let w := 1 / inject_Z (Z.of_nat (length (fs ++ [0%nat]))) in mean_of (xs ++ [x]) (mix w c.1 x.1, mix w c.2 x.2).
Proof.
  intros El Hm. cbv zeta. rewrite app_length, El. change (length [0%nat]) with 1%nat. unfold mean_of in *. cbv zeta in *. rewrite !app_length. change (length [x]) with 1%nat.
  rewrite !total_app. destruct Hm as (<- & <- & <- & <-). unfold mix. cbn [fst snd].
  rewrite !Nat2Z.inj_add, !inject_Z_plus. change (inject_Z (Z.of_nat 1)) with 1.
  assert (Hp : 0 <= inject_Z (Z.of_nat (length xs))) by (change 0 with (inject_Z 0); rewrite <-Zle_Qle; lia).
  set (n := inject_Z (Z.of_nat (length xs))) in *. clearbody n. split; [|split; [|split]]; field; lra.
Qed.

Lemma take_app_S {A} (l : list A) x j : (j <= length l)%nat -> take j (l ++ [x]) = take j l.
Proof. intros H. by apply take_app_le. Qed.

Lemma group_steps (code : nat -> pixel * pixel -> Prop) es acc : (forall e, e ∈ es -> code e.2 (decode e.1)) ->
  Forall (group_ok code) acc ->
  let gs := foldl (group_step d) acc es in
  Forall (group_ok code) gs /\ concat (eg_features <$> reverse gs) = concat (eg_features <$> reverse acc) ++ es.*2.
Proof.
  revert acc. induction es as [|e es IH]; intros acc He Ha; cbv zeta; cbn [foldl].
  - cbn. by rewrite app_nil_r.
  - assert (Hnew : group_ok code (EpilineGroup (mix (1 / inject_Z (Z.of_nat (length ([] ++ [e.2])))) (decode e.1).1 (decode e.1).1,
                                    mix (1 / inject_Z (Z.of_nat (length ([] ++ [e.2])))) (decode e.1).2 (decode e.1).2) ([] ++ [e.2]))).
    { exists [decode e.1]. split; [constructor; [apply He; by left|constructor]|]. split; [|split; [done|]].
      - unfold mean_of, total, mix. cbn. repeat split; field.
      - intros [|j] x Hx Hj; [lia|]. discriminate Hx. }
    assert (Hst : Forall (group_ok code) (group_step d acc e) /\
      concat (eg_features <$> reverse (group_step d acc e)) = concat (eg_features <$> reverse acc) ++ [e.2]).
    { unfold group_step. destruct acc as [|g rest].
      - split; [|done]. constructor; [exact Hnew|constructor].
      - destruct (Qle_bool (sq_dist (eg_endpoints g).1 (decode e.1).1) (d * d)) eqn:Ed; cbn [negb].
        + apply Qle_bool_iff in Ed. apply Forall_cons in Ha as [Hg Hr]. split.
          * constructor; [|done]. destruct Hg as (xs & Hf & Hm & Hne & Hj). exists (xs ++ [decode e.1]). cbn [eg_features eg_endpoints].
            assert (El := Forall2_length _ _ _ Hf).
            split; [apply Forall2_app; [done|]; constructor; [apply He; by left|constructor]|]. split; [|split].
            -- assert (Hs := mean_snoc xs _ (decode e.1) _ El Hm). cbv zeta in Hs. rewrite !app_length in *. exact Hs.
            -- destruct (eg_features g); done.
            -- intros j x Hx Hpos. apply lookup_app_Some in Hx as [Hx|[Hlen Hx]].
               ++ destruct (Hj j x Hx Hpos) as (c & Hc & Hd). exists c. split; [|done]. rewrite take_app_S; [done|]. apply lookup_lt_Some in Hx. lia.
               ++ apply list_lookup_singleton_Some in Hx as [Hz <-]. assert (j = length xs) as -> by lia.
                  exists (eg_endpoints g). split; [|done]. by rewrite take_app.
          * rewrite !reverse_cons, !fmap_app, !concat_app. cbn. by rewrite !app_nil_r, app_assoc.
        + split; [constructor; [exact Hnew|done]|]. rewrite reverse_cons, fmap_app, concat_app. cbn [fmap list_fmap concat eg_features]. by rewrite app_nil_r. }
    destruct Hst as [H1 H2]. destruct (IH _ ltac:(intros e' He'; apply He; by right) H1) as [G1 G2]. cbv zeta in G1, G2. split; [done|].
    rewrite G2, H2, fmap_cons, <-app_assoc. done.
Qed.
End groups.
