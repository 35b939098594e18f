(** Digits, %g and what is read back. *)
From stdpp Require Import gmap strings.
From Coq Require Import Ascii QArith Qabs Qcanon Qround Qpower Lqa.
From Verif Require Import Base Calibration_Model Calibration_Spec.
Local Open Scope Z_scope.

Notation digit := (fun x => 0 <= x < 10).
Lemma number_app a b : number_of (a ++ b) = number_of a * 10 ^ Z.of_nat (length b) + number_of b.
Proof.
  revert a. induction b as [|d b IH] using rev_ind; intros a; [rewrite app_nil_r; cbn; lia|].
  rewrite app_assoc. unfold number_of in *. rewrite !foldl_snoc, IH, app_length. cbn [length].
  replace (Z.of_nat (length b + 1)) with (Z.of_nat (length b) + 1) by lia. rewrite Z.pow_add_r by lia. nia.
Qed.
Lemma number_bound l : Forall digit l -> 0 <= number_of l < 10 ^ Z.of_nat (length l).
Proof.
  induction l as [|d l IH] using rev_ind; intros H; [cbn; lia|]. apply Forall_app in H as [Hl Hd]. inversion Hd; subst.
  rewrite number_app, app_length. cbn [length]. replace (Z.of_nat (length l + 1)) with (Z.of_nat (length l) + 1) by lia.
  rewrite Z.pow_add_r by lia. specialize (IH Hl). change (number_of [d]) with (10 * 0 + d). change (10 ^ Z.of_nat 1) with 10. lia.
Qed.
Lemma number_zeros k : number_of (replicate k 0) = 0.
Proof.
  induction k as [|k IH]; [done|]. change (replicate (S k) 0) with ([0] ++ replicate k 0). rewrite number_app, IH. cbn. lia.
Qed.
Lemma digits_loop_ok fuel z : 0 <= z < 2 ^ Z.of_nat fuel -> (1 <= fuel)%nat ->
  number_of (digits_loop fuel z) = z /\ Forall digit (digits_loop fuel z) /\
  (digits_loop fuel z = [0] /\ z = 0 \/ exists x l, digits_loop fuel z = x :: l /\ x <> 0).
Proof.
  revert z. induction fuel as [|fuel IH]; intros z Hz Hf; [lia|]. cbn [digits_loop]. destruct (decide _) as [Hs|Hs].
  - split; [cbn; lia|]. split; [constructor; [lia|constructor]|]. destruct (decide (z = 0)) as [->|Hn]; [by left|right]. by exists z, [].
  - rewrite Nat2Z.inj_succ, Z.pow_succ_r in Hz by lia.
    assert (Hd : z / 10 < 2 ^ Z.of_nat fuel) by (apply Z.div_lt_upper_bound; lia). assert (Hd0 : 1 <= z / 10) by (apply Z.div_le_lower_bound; lia).
    destruct fuel as [|fuel]; [cbn in Hd; lia|]. destruct (IH (z / 10)) as (H1 & H2 & H3); [lia|lia|]. split; [|split].
    + rewrite number_app, H1. change (number_of [z mod 10]) with (10 * 0 + z mod 10). cbn [length]. change (10 ^ Z.of_nat 1) with 10. pose proof (Z.div_mod z 10). lia.
    + apply Forall_app. split; [done|]. constructor; [apply Z.mod_pos_bound; lia|constructor].
    + right. destruct H3 as [[_ K]|(x & l & -> & Hx)]; [lia|]. by exists x, (l ++ [z mod 10]).
Qed.
Lemma digits_ok z : 0 <= z -> number_of (digits z) = z /\ Forall digit (digits z) /\ (digits z = [0] /\ z = 0 \/ exists x l, digits z = x :: l /\ x <> 0).
Proof.
  intros Hz. apply digits_loop_ok; [|lia]. split; [done|]. rewrite Nat2Z.inj_succ, Z2Nat.id by apply Z.log2_nonneg.
  destruct (decide (z = 0)) as [->|Hn]; [cbn; lia|]. apply Z.log2_spec. lia.
Qed.
Lemma six_length z : 100000 <= z < 1000000 -> length (digits z) = 6%nat.
Proof.
  intros Hz. destruct (digits_ok z) as (H1 & H2 & [[_ K]|(x & l & E & Hx)]); [lia|lia|]. rewrite E in *.
  pose proof (number_bound _ H2) as Hb. apply Forall_cons in H2 as [Hd Hl']. change (x :: l) with ([x] ++ l) in H1, Hb. rewrite number_app in H1, Hb. change (number_of [x]) with (10 * 0 + x) in H1, Hb.
  pose proof (number_bound l ltac:(done)) as Hl. rewrite app_length in Hb. cbn [length] in *. assert (length l = 5%nat) as ->; [|done].
  assert (Hx1 : 1 <= x) by lia. set (n := length l) in *.
  destruct (decide (n <= 4)%nat) as [Hn|Hn].
  - exfalso. assert (10 ^ Z.of_nat (1 + n) <= 10 ^ 5) by (apply Z.pow_le_mono_r; lia). change (10 ^ 5) with 100000 in *. lia.
  - destruct (decide (6 <= n)%nat) as [Hn6|Hn6]; [|lia]. exfalso. assert (10 ^ 6 <= 10 ^ Z.of_nat n) by (apply Z.pow_le_mono_r; lia). change (10 ^ 6) with 1000000 in *. nia.
Qed.
Lemma strip_ok l : Forall digit l -> exists k, l = strip l ++ replicate k 0.
Proof.
  induction 1 as [|d l Hd Hl [k IH]]; [by exists 0%nat|]. cbn [strip]. destruct (strip l) as [|x s] eqn:E.
  - destruct (decide (d = 0)) as [->|]; [exists (S k); cbn in *; by rewrite IH at 1|]. exists k. cbn in *. by rewrite IH at 1.
  - exists k. cbn in *. by rewrite IH at 1.
Qed.
Lemma strip_digits l : Forall digit l -> Forall digit (strip l).
Proof. intros H. destruct (strip_ok l H) as [k E]. rewrite E in H. by apply Forall_app in H as [H _]. Qed.
Lemma strip_nonzero l : Forall digit l -> number_of l <> 0 -> strip l <> [].
Proof. intros H Hn E. destruct (strip_ok l H) as [k K]. rewrite E in K. rewrite K in Hn. cbn [app] in Hn. by rewrite number_zeros in Hn. Qed.

(** * Powers of ten *)
Local Open Scope Q_scope.
Lemma ten_pos k : 0 < ten k.
Proof. unfold ten. apply Qpower_0_lt. reflexivity. Qed.
Lemma ten_add a b : ten (a + b) == ten a * ten b.
Proof. unfold ten. apply Qpower_plus. discriminate. Qed.
Lemma ten_nat n : ten (Z.of_nat n) == inject_Z (10 ^ Z.of_nat n).
Proof. unfold ten. rewrite Zpower_Qpower by lia. reflexivity. Qed.
Lemma ten_0 : ten 0 == 1. Proof. reflexivity. Qed.
Lemma ten_le a b : (a <= b)%Z -> ten a <= ten b.
Proof.
  intros H. replace b with (a + Z.of_nat (Z.to_nat (b - a)))%Z by lia. rewrite ten_add, ten_nat. pose proof (ten_pos a).
  assert (1 <= inject_Z (10 ^ Z.of_nat (Z.to_nat (b - a)))). { change 1 with (inject_Z 1). rewrite <- Zle_Qle. pose proof (Z.pow_pos_nonneg 10 (Z.of_nat (Z.to_nat (b - a)))). lia. }
  nra.
Qed.
Lemma exponent_loop_ok fuel a e : a < ten (e + 1) -> ten (e - Z.of_nat fuel) <= a ->
  ten (exponent_loop fuel a e) <= a < ten (exponent_loop fuel a e + 1).
Proof.
  revert e. induction fuel as [|fuel IH]; intros e H1 H2; cbn [exponent_loop].
  - split; [|done]. by replace e with (e - Z.of_nat 0)%Z at 1 by lia.
  - destruct (Qle_bool _ _) eqn:E; [apply Qle_bool_iff in E; done|]. apply IH.
    + replace (e - 1 + 1)%Z with e by lia. apply Qnot_le_lt. intros K. apply Qle_bool_iff in K. congruence.
    + by replace (e - 1 - Z.of_nat fuel)%Z with (e - Z.of_nat (S fuel))%Z by lia.
Qed.
Lemma log2_ten z : (0 < z)%Z -> inject_Z z < ten (Z.log2 z + 1).
Proof.
  intros Hz. pose proof (Z.log2_nonneg z). replace (Z.log2 z + 1)%Z with (Z.of_nat (Z.to_nat (Z.log2 z + 1))) by lia. rewrite ten_nat, <- Zlt_Qlt, Z2Nat.id by lia.
  destruct (Z.log2_spec z Hz) as [_ K]. eapply Z.lt_le_trans; [exact K|]. rewrite <- Z.add_1_r. apply Z.pow_le_mono_l. lia.
Qed.
Lemma exponent_ok a : 0 < a -> ten (exponent a) <= a < ten (exponent a + 1).
Proof.
  intros Ha. unfold exponent. set (l := (Z.log2 (Qnum a) + Z.log2 (Zpos (Qden a)) + 2)%Z).
  assert (Hn : (0 < Qnum a)%Z). { unfold Qlt in Ha. cbn in Ha. lia. }
  pose proof (Z.log2_nonneg (Qnum a)) as L1. pose proof (Z.log2_nonneg (Zpos (Qden a))) as L2.
  assert (E : a * inject_Z (Zpos (Qden a)) == inject_Z (Qnum a)). { destruct a as [n d]. unfold Qmult, Qeq. cbn. lia. }
  assert (D1 : 1 <= inject_Z (Zpos (Qden a))). { change 1 with (inject_Z 1). rewrite <- Zle_Qle. lia. }
  assert (N1 : 1 <= inject_Z (Qnum a)). { change 1 with (inject_Z 1). rewrite <- Zle_Qle. lia. }
  apply exponent_loop_ok.
  - pose proof (log2_ten (Qnum a) Hn) as K. assert (ten (Z.log2 (Qnum a) + 1) <= ten (l + 1)) by (apply ten_le; lia). nra.
  - replace (l - Z.of_nat (Z.to_nat (2 * l + 1)))%Z with (- (l + 1))%Z by lia.
    pose proof (log2_ten (Zpos (Qden a)) ltac:(lia)) as K. assert (K2 : ten (Z.log2 (Zpos (Qden a)) + 1) <= ten (l + 1)) by (apply ten_le; lia).
    assert (I : ten (- (l + 1)) * ten (l + 1) == 1). { rewrite <- ten_add. by replace (- (l + 1) + (l + 1))%Z with 0%Z by lia. }
    pose proof (ten_pos (l + 1)) as P1. pose proof (ten_pos (- (l + 1))) as P2. set (u := ten (- (l + 1))) in *. set (v := ten (l + 1)) in *. set (d := inject_Z (Zpos (Qden a))) in *.
    assert (Hd : d < v) by lra. apply Qnot_lt_le. intros Hlt. assert (a * v < 1) by nra. assert (a * d <= a * v) by nra. lra.
Qed.
Lemma round_even_ok s : 0 <= s -> Qabs (inject_Z (round_even s) - s) <= 1 # 2.
Proof.
  intros Hs. unfold round_even. pose proof (Qfloor_le s) as H1. pose proof (Qlt_floor s) as H2. rewrite inject_Z_plus in H2. change (inject_Z 1) with 1 in H2.
  set (f := Qfloor s) in *. destruct (Qle_bool (1 # 2) _) eqn:E1.
  - apply Qle_bool_iff in E1. destruct (Qle_bool _ (1 # 2)) eqn:E2.
    + apply Qle_bool_iff in E2. destruct (Z.even f); [|rewrite inject_Z_plus; change (inject_Z 1) with 1]; apply Qabs_Qle_condition; lra.
    + rewrite inject_Z_plus. change (inject_Z 1) with 1. apply Qabs_Qle_condition. lra.
  - assert (s - inject_Z f < 1 # 2). { apply Qnot_le_lt. intros K. apply Qle_bool_iff in K. congruence. } apply Qabs_Qle_condition. lra.
Qed.
Lemma round_even_range s a b : inject_Z a <= s -> s < inject_Z b -> (a <= round_even s <= b)%Z.
Proof.
  intros Ha Hb. pose proof (Qfloor_resp_le _ _ Ha) as K. rewrite Qfloor_Z in K. assert (Hf : (Qfloor s < b)%Z). { rewrite Zlt_Qlt. pose proof (Qfloor_le s). lra. }
  unfold round_even. destruct (Qle_bool _ _); [destruct (Qle_bool _ _); [destruct (Z.even _)|]|]; lia.
Qed.
Lemma round_even_int s z : s == inject_Z z -> round_even s = z.
Proof.
  intros E. unfold round_even. assert (Ef : Qfloor s = z) by (rewrite (Qfloor_comp _ _ E); apply Qfloor_Z). rewrite Ef. destruct (Qle_bool (1 # 2) _) eqn:K; [|done].
  apply Qle_bool_iff in K. lra.
Qed.
(** The six digits of a positive number. *)
Lemma significant_ok a m e : 0 < a -> significant a = (m, e) ->
  (100000 <= m < 1000000)%Z /\ Qabs (inject_Z m * ten (e - 5) - a) <= (5 # 1000000) * a /\
  (forall M k, (0 < M < 1000000)%Z -> a == inject_Z M * ten k -> inject_Z m * ten (e - 5) == a).
Proof.
  intros Ha. unfold significant. destruct (exponent_ok a Ha) as [H1 H2]. set (e0 := exponent a) in *. set (s := a / ten (e0 - 5)).
  pose proof (ten_pos (e0 - 5)) as P. assert (Es : a == s * ten (e0 - 5)). { unfold s. field. lra. }
  assert (T1 : ten e0 == 100000 * ten (e0 - 5)). { replace e0 with (5 + (e0 - 5))%Z at 1 by lia. rewrite ten_add. reflexivity. }
  assert (T2 : ten (e0 + 1) == 1000000 * ten (e0 - 5)). { replace (e0 + 1)%Z with (6 + (e0 - 5))%Z by lia. rewrite ten_add. reflexivity. }
  set (u := ten (e0 - 5)) in *. assert (S1 : inject_Z 100000 <= s). { change (inject_Z 100000) with 100000. apply Qnot_lt_le. intros K. assert (s * u < 100000 * u) by nra. lra. }
  assert (S2 : s < inject_Z 1000000). { change (inject_Z 1000000) with 1000000. apply Qnot_le_lt. intros K. assert (1000000 * u <= s * u) by nra. lra. }
  pose proof (round_even_range s _ _ S1 S2) as R. pose proof (round_even_ok s ltac:(change (inject_Z 100000) with 100000 in S1; lra)) as B.
  change (inject_Z 100000) with 100000 in S1. change (inject_Z 1000000) with 1000000 in S2.
  assert (Hv : forall m e, (if decide (round_even s = 1000000)%Z then (100000, e0 + 1)%Z else (round_even s, e0)) = (m, e) -> (100000 <= m < 1000000)%Z /\ inject_Z m * ten (e - 5) == inject_Z (round_even s) * u).
  { intros m' e'. destruct (decide _) as [E|E]; intros [= <- <-]; [|split; [lia|reflexivity]]. split; [lia|]. rewrite E. replace (e0 + 1 - 5)%Z with (1 + (e0 - 5))%Z by lia. rewrite ten_add. fold u. change (ten 1) with (10 # 1). change (inject_Z 100000) with 100000. change (inject_Z 1000000) with 1000000. ring. }
  intros Hme. destruct (Hv _ _ Hme) as [Hm Ev]. split; [done|]. split.
  - rewrite Ev. apply Qabs_Qle_condition in B. apply Qabs_Qle_condition. set (x := inject_Z (round_even s)) in *. assert (100000 * u <= a) by lra. split; nra.
  - intros M k HM EM. rewrite Ev. assert (Hk : (0 <= k - (e0 - 5))%Z).
    { destruct (decide (0 <= k - (e0 - 5))%Z) as [|Hk]; [done|]. exfalso. assert (ten k <= ten (e0 - 6)) by (apply ten_le; lia). assert (ten e0 == 1000000 * ten (e0 - 6)). { replace e0 with (6 + (e0 - 6))%Z at 1 by lia. rewrite ten_add. reflexivity. }
      assert (inject_Z M < 1000000). { change 1000000 with (inject_Z 1000000). rewrite <- Zlt_Qlt. lia. } assert (0 < inject_Z M). { change 0 with (inject_Z 0). rewrite <- Zlt_Qlt. lia. } pose proof (ten_pos k). nra. }
    assert (Ei : s == inject_Z (M * 10 ^ (k - (e0 - 5)))).
    { rewrite inject_Z_mult. replace (k - (e0 - 5))%Z with (Z.of_nat (Z.to_nat (k - (e0 - 5)))) by lia. rewrite <- ten_nat, Z2Nat.id by lia.
      assert (ten k == ten (k - (e0 - 5)) * u). { unfold u. rewrite <- ten_add. by replace (k - (e0 - 5) + (e0 - 5))%Z with k by lia. } rewrite H in EM. unfold s. rewrite EM. fold u. field. lra. }
    rewrite (round_even_int _ _ Ei), <- Ei. symmetry. exact Es.
Qed.

(** * The decimal that is printed *)
Definition dec_exp (d : decimal) : Z := match d_exp d with None => 0%Z | Some (neg, es) => signed neg (number_of es) end.
Lemma json_value d : get_double (json_of d) = Ok (Q2Qc (inject_Z (signed (d_neg d) (number_of (d_int d ++ d_frac d))) * ten (dec_exp d - Z.of_nat (length (d_frac d))))).
Proof.
  destruct d as [neg int [|f fs] [[en es]|]]; unfold json_of, dec_exp; cbn [d_frac d_exp d_neg d_int get_double]; try reflexivity.
  rewrite app_nil_r. f_equal. apply Qc_is_canon. cbn [this Q2Qc]. rewrite !Qred_correct. change (ten (0 - Z.of_nat (length (@nil Z)))) with (1#1). cbn [this]. ring.
Qed.
Lemma pad_two_ok l : Forall digit l -> l <> [] -> number_of (pad_two l) = number_of l /\ Forall digit (pad_two l) /\ pad_two l <> [].
Proof.
  intros H Hn. destruct l as [|d [|d' l]]; [done| |done]. cbn [pad_two]. split; [cbn; lia|]. split; [|done]. constructor; [lia|done].
Qed.
Definition printed (neg : bool) (m e : Z) : decimal :=
  if decide (-4 <= e < 6)%Z then
    if decide (0 <= e)%Z
    then Decimal neg (take (Z.to_nat (e + 1)) (digits m)) (strip (drop (Z.to_nat (e + 1)) (digits m))) None
    else Decimal neg [0%Z] (replicate (Z.to_nat (- e - 1)) 0%Z ++ strip (digits m)) None
  else Decimal neg (take 1 (digits m)) (strip (drop 1 (digits m))) (Some (bool_decide (e < 0)%Z, pad_two (digits (Z.abs e)))).
Lemma number_scale a k : inject_Z (number_of (a ++ replicate k 0%Z)) == inject_Z (number_of a) * ten (Z.of_nat k).
Proof. rewrite number_app, number_zeros, replicate_length, Z.add_0_r, inject_Z_mult, ten_nat. reflexivity. Qed.
Lemma split_number n l : Forall digit l -> (n <= length l)%nat ->
  inject_Z (number_of l) == inject_Z (number_of (take n l ++ strip (drop n l))) * ten (Z.of_nat (length l) - Z.of_nat n - Z.of_nat (length (strip (drop n l)))).
Proof.
  intros H Hn. destruct (strip_ok (drop n l) (Forall_drop _ _ _ H)) as [k Ek].
  assert (E : l = (take n l ++ strip (drop n l)) ++ replicate k 0%Z) by (rewrite <- app_assoc, <- Ek; symmetry; apply take_drop).
  assert (L : Z.of_nat k = (Z.of_nat (length l) - Z.of_nat n - Z.of_nat (length (strip (drop n l))))%Z).
  { pose proof (f_equal length Ek) as K. rewrite app_length, drop_length, replicate_length in K. lia. }
  rewrite E at 1. rewrite number_scale, L. reflexivity.
Qed.
Lemma printed_ok neg m e : (100000 <= m < 1000000)%Z ->
  let d := printed neg m e in
  d_neg d = neg /\ proper d /\ is_number (json_of d) = true /\
  inject_Z (number_of (d_int d ++ d_frac d)) * ten (dec_exp d - Z.of_nat (length (d_frac d))) == inject_Z m * ten (e - 5).
Proof.
  intros Hm d. pose proof (six_length m Hm) as L6. destruct (digits_ok m) as (N & Dg & [[_ K]|(x & l & Ex & Hx)]); [lia|lia|].
  assert (Hfirst : forall n, (1 <= n)%nat -> exists x l, take n (digits m) = x :: l /\ x <> 0%Z). { intros [|n] Hn; [lia|]. rewrite Ex. cbn. eauto. }
  assert (Hint : forall n, is_number (JInt (signed neg (number_of (take n (digits m))))) = true).
  { intros n. pose proof (number_bound (take n (digits m)) (Forall_take _ _ _ Dg)) as B. rewrite take_length, L6 in B. assert (10 ^ Z.of_nat (n `min` 6) <= 10 ^ 6)%Z by (apply Z.pow_le_mono_r; lia). change (10 ^ 6)%Z with 1000000%Z in *.
    unfold is_number, is_int. apply orb_true_iff. right. apply bool_decide_eq_true. destruct neg; cbn [signed]; lia. }
  unfold d, printed. destruct (decide _) as [He|He]; [destruct (decide (0 <= e)%Z) as [H0|H0]|].
  - split; [reflexivity|]. split; [|split].
    + split; [by apply Forall_take|]. split; [by apply strip_digits, Forall_drop|]. split; [right; cbn [d_int]; apply Hfirst; lia|exact I].
    + unfold json_of. cbn [d_frac d_exp d_neg d_int]. destruct (strip _); [apply Hint|reflexivity].
    + cbn [d_int d_frac]. unfold dec_exp. cbn [d_exp]. transitivity (inject_Z (number_of (digits m)) * ten (e - 5)); [|rewrite N; reflexivity]. rewrite (split_number (Z.to_nat (e + 1)) (digits m) Dg) by lia. rewrite L6, <- Qmult_assoc, <- ten_add.
      match goal with |- _ * ten ?a == _ * ten ?b => replace a with b by lia end. reflexivity.
  - split; [reflexivity|]. assert (Hs : strip (digits m) <> []) by (apply strip_nonzero; [done|lia]). split; [|split].
    + split; [repeat constructor; lia|]. split; [cbn [d_frac]; apply Forall_app; split; [apply Forall_replicate; lia|by apply strip_digits]|]. split; [by left|exact I].
    + unfold json_of. cbn [d_frac d_exp d_neg d_int]. destruct (replicate _ _ ++ strip _) eqn:E; [|reflexivity]. apply app_nil in E as [_ E]. done.
    + cbn [d_int d_frac]. unfold dec_exp. cbn [d_exp]. rewrite app_assoc. replace ([0%Z] ++ replicate (Z.to_nat (- e - 1)) 0%Z) with (replicate (S (Z.to_nat (- e - 1))) 0%Z) by reflexivity.
      rewrite number_app, number_zeros, Z.mul_0_l, Z.add_0_l. transitivity (inject_Z (number_of (digits m)) * ten (e - 5)); [|rewrite N; reflexivity]. pose proof (split_number 0 (digits m) Dg ltac:(lia)) as S0. rewrite drop_0 in S0. change (take 0 (digits m) ++ strip (digits m)) with (strip (digits m)) in S0.
      rewrite S0, L6, <- Qmult_assoc, <- ten_add, app_length, replicate_length.
      match goal with |- _ * ten ?a == _ * ten ?b => replace a with b by lia end. reflexivity.
  - split; [reflexivity|]. destruct (digits_ok (Z.abs e) ltac:(lia)) as (Ne & De & He'). assert (Hne : digits (Z.abs e) <> []) by (destruct He' as [[-> _]|(? & ? & -> & _)]; done).
    destruct (pad_two_ok _ De Hne) as (P1 & P2 & P3). split; [|split].
    + split; [by apply Forall_take|]. split; [by apply strip_digits, Forall_drop|]. split; [right; cbn [d_int]; apply Hfirst; lia|]. cbn [d_exp]. done.
    + unfold json_of. cbn [d_frac d_exp d_neg d_int]. destruct (strip _); reflexivity.
    + cbn [d_int d_frac]. unfold dec_exp. cbn [d_exp]. rewrite P1, Ne. assert (signed (bool_decide (e < 0)%Z) (Z.abs e) = e) as ->. { destruct (bool_decide_reflect (e < 0)%Z); cbn [signed]; lia. }
      transitivity (inject_Z (number_of (digits m)) * ten (e - 5)); [|rewrite N; reflexivity]. rewrite (split_number 1 (digits m) Dg) by lia. rewrite L6, <- Qmult_assoc, <- ten_add.
      match goal with |- _ * ten ?a == _ * ten ?b => replace a with b by lia end. reflexivity.
Qed.
Lemma decimal_ok x : exists y, proper (decimal_of x) /\ is_number (json_of (decimal_of x)) = true /\ get_double (json_of (decimal_of x)) = Ok y /\ read_for x y.
Proof.
  unfold decimal_of. destruct (decide (x = Q2Qc 0)) as [->|Hx].
  - exists (Q2Qc 0). split; [|split; [reflexivity|split; [reflexivity|]]].
    + split; [repeat constructor; lia|]. split; [constructor|]. split; [by left|exact I].
    + split; [|done]. apply Qle_bool_iff. vm_compute. reflexivity.
  - assert (Hx0 : ~ this x == 0). { intros E. apply Hx. apply Qc_is_canon. rewrite E. reflexivity. }
    assert (Ha : 0 < Qabs (this x)). { apply Qnot_le_lt. intros K. apply Hx0. pose proof (Qle_Qabs (this x)). pose proof (Qle_Qabs (- this x)). rewrite Qabs_opp in *. lra. }
    destruct (significant (Qabs (this x))) as [m e] eqn:E. destruct (significant_ok _ _ _ Ha E) as (Hm & B & Sh).
    set (neg := bool_decide (x < Q2Qc 0)%Qc). destruct (printed_ok neg m e Hm) as (Hn & Hp & Hnum & Hv). fold (printed neg m e).
    eexists. split; [exact Hp|]. split; [exact Hnum|]. split; [apply json_value|]. rewrite Hn. set (d := printed neg m e) in *.
    set (v := inject_Z m * ten (e - 5)) in *.
    assert (Ey : this (Q2Qc (inject_Z (signed neg (number_of (d_int d ++ d_frac d))) * ten (dec_exp d - Z.of_nat (length (d_frac d))))) == if neg then - v else v).
    { cbn [this Q2Qc]. rewrite Qred_correct. destruct neg; cbn [signed]; [rewrite inject_Z_opp|]; rewrite <- Hv; ring. }
    assert (Ex : this x == if neg then - Qabs (this x) else Qabs (this x)).
    { unfold neg. destruct (bool_decide_reflect (x < Q2Qc 0)%Qc) as [K|K].
      - assert (this x <= 0) by (apply Qlt_le_weak; exact K). rewrite Qabs_neg by done. ring.
      - rewrite Qabs_pos; [reflexivity|]. apply Qnot_lt_le. intros K'. apply K. exact K'. }
    split.
    + rewrite Ey. rewrite Ex at 1. destruct neg; [|exact B]. rewrite <- Qabs_opp. setoid_replace (- (- v - - Qabs (this x))) with (v - Qabs (this x)) by ring. exact B.
    + intros (M & k & HM & EM). apply Qc_is_canon. transitivity (if neg then - v else v); [exact Ey|]. transitivity (if neg then - Qabs (this x) else Qabs (this x)); [|symmetry; exact Ex].
      assert (EA : Qabs (this x) == inject_Z (Z.abs M) * ten k). { rewrite EM, Qabs_Qmult, (Qabs_pos (ten k)) by (apply Qlt_le_weak, ten_pos). reflexivity. }
      assert (HM0 : (0 < Z.abs M < 1000000)%Z). { split; [|done]. destruct (decide (M = 0)%Z) as [->|]; [|lia]. exfalso. apply Hx0. rewrite EM. change (inject_Z 0) with 0. ring. }
      pose proof (Sh _ _ HM0 EA) as V. fold v in V. destruct neg; rewrite V; reflexivity.
Qed.
Lemma int_ok z : proper (decimal_of_int z) /\ json_of (decimal_of_int z) = JInt z.
Proof.
  unfold decimal_of_int, proper, json_of. cbn [d_int d_frac d_exp d_neg]. destruct (digits_ok (Z.abs z) ltac:(lia)) as (N & Dg & Hf). split.
  - split; [done|]. split; [constructor|]. split; [|done]. destruct Hf as [[-> _]|H]; [by left|by right].
  - rewrite N. f_equal. destruct (bool_decide_reflect (z < 0)%Z); cbn [signed]; lia.
Qed.
