(** Proofs about the binary SIFT key files. *)
From stdpp Require Import prelude.
From Coq Require Import ZArith Reals Lia Lra.
From Flocq Require Import Core Relative IEEE754.BinarySingleNaN IEEE754.Binary IEEE754.Bits.
From Verif Require Import Base SiftFile_Model SiftFile_Spec.

(** ** Bytes *)
Lemma of_le_le_bytes n : forall z, of_le (le_bytes n z) = (z mod 256 ^ Z.of_nat n)%Z.
Proof.
  induction n as [|n IH]; intros z; cbn [le_bytes of_le]; [by rewrite Z.mod_1_r|].
  rewrite IH, Nat2Z.inj_succ, Z.pow_succ_r by lia. rewrite Z.rem_mul_r by lia. done.
Qed.
Lemma le_bytes_length n z : length (le_bytes n z) = n.
Proof. revert z. induction n; intros z; cbn; [done|]. by f_equal. Qed.
Lemma le_bytes_bytes n : forall z b, b ∈ le_bytes n z -> is_byte b.
Proof.
  induction n as [|n IH]; intros z b; cbn [le_bytes]; [by intros []%elem_of_nil|].
  intros [-> | Hb]%elem_of_cons; [apply Z.mod_pos_bound; lia|by eapply IH].
Qed.
Lemma le_bytes_of_le l : (forall b, b ∈ l -> is_byte b) -> le_bytes (length l) (of_le l) = l.
Proof.
  induction l as [|b l IH]; intros Hl; [done|]. cbn [length le_bytes of_le].
  assert (is_byte b) as Hb by (apply Hl; by left). unfold is_byte in Hb.
  replace (b + 256 * of_le l)%Z with (b + of_le l * 256)%Z by lia.
  rewrite Z.mod_add, Z.mod_small, Z.div_add, Z.div_small, Z.add_0_l by lia. f_equal. apply IH. intros b' Hb'. apply Hl. by right.
Qed.
Lemma of_le_range l : (forall b, b ∈ l -> is_byte b) -> (0 <= of_le l < 256 ^ Z.of_nat (length l))%Z.
Proof.
  induction l as [|b l IH]; intros Hl; cbn [of_le length]; [cbn; lia|].
  assert (is_byte b) as Hb by (apply Hl; by left). unfold is_byte in Hb.
  assert (0 <= of_le l < 256 ^ Z.of_nat (length l))%Z by (apply IH; intros b' Hb'; apply Hl; by right).
  rewrite Nat2Z.inj_succ, Z.pow_succ_r by lia. lia.
Qed.

Lemma bits_range x : (0 <= bits_of_b32 x < 2 ^ 32)%Z.
Proof. apply (bits_of_binary_float_range 23 8); reflexivity. Qed.
Lemma b32_of_bits_of x : b32_of_bits (bits_of_b32 x) = x.
Proof. apply (binary_float_of_bits_of_binary_float 23 8). Qed.
Lemma bits_of_b32_of z : (0 <= z < 2 ^ 32)%Z -> bits_of_b32 (b32_of_bits z) = z.
Proof. intros Hz. by apply (bits_of_binary_float_of_bits 23 8). Qed.

Lemma take_plus_app (a b : list Z) n k : length a = n -> take (n + k) (a ++ b) = a ++ take k b.
Proof. intros <-. apply firstn_app_2. Qed.

(** Reading back what was written. *)
Lemma read_bytes_app a b : read_bytes (length a) (a ++ b) = Ok (a, b).
Proof.
  unfold read_bytes. rewrite decide_True by (rewrite app_length; lia). by rewrite take_app, drop_app.
Qed.
Lemma read_float_write x l : read_float (write_float x ++ l) = Ok (x, l).
Proof.
  unfold read_float, write_float. pose proof (read_bytes_app (le_bytes 4 (bits_of_b32 x)) l) as H. rewrite le_bytes_length in H.
  rewrite H. cbn [mbind outcome_bind]. rewrite of_le_le_bytes. change (256 ^ Z.of_nat 4)%Z with (2 ^ 32)%Z.
  rewrite Z.mod_small by apply bits_range. by rewrite b32_of_bits_of.
Qed.
Lemma read_int_write z l : (- 2 ^ 31 <= z < 2 ^ 31)%Z -> read_int (write_int z ++ l) = Ok (z, l).
Proof.
  intros Hz. unfold read_int, write_int. pose proof (read_bytes_app (le_bytes 4 (z mod 2 ^ 32)) l) as H. rewrite le_bytes_length in H.
  rewrite H. cbn [mbind outcome_bind]. rewrite of_le_le_bytes. change (256 ^ Z.of_nat 4)%Z with (2 ^ 32)%Z.
  rewrite Z.mod_mod by lia. do 2 f_equal. unfold to_signed32. case_decide.
  - destruct (decide (0 <= z)%Z); [by rewrite Z.mod_small by lia|].
    exfalso. rewrite <- (Z.mod_add z 1) in H0 by lia. rewrite Z.mod_small in H0 by lia. lia.
  - destruct (decide (0 <= z)%Z); [rewrite Z.mod_small in H0 by lia; lia|].
    rewrite <- (Z.mod_add z 1) by lia. rewrite Z.mod_small by lia. lia.
Qed.

(** Writing back what was read. *)
Lemma read_bytes_inv n l a b : read_bytes n l = Ok (a, b) -> l = a ++ b /\ length a = n.
Proof.
  unfold read_bytes. case_decide; [|done]. intros [= <- <-]. split; [by rewrite take_drop|]. rewrite take_length. lia.
Qed.
Lemma read_float_inv l x l' : (forall b, b ∈ l -> is_byte b) -> read_float l = Ok (x, l') -> l = write_float x ++ l' /\ (forall b, b ∈ l' -> is_byte b).
Proof.
  unfold read_float. intros Hl ([a b] & H & H')%bind_Ok. injection H' as <- <-. apply read_bytes_inv in H as [-> Ha].
  assert (Hab : forall x, x ∈ a -> is_byte x) by (intros x Hx; apply Hl, elem_of_app; by left).
  split; [|intros x Hx; apply Hl, elem_of_app; by right]. f_equal. unfold write_float.
  rewrite bits_of_b32_of. { rewrite <- Ha. by rewrite le_bytes_of_le. }
  pose proof (of_le_range a Hab) as Hr. rewrite Ha in Hr. exact Hr.
Qed.
Lemma read_int_inv l z l' : (forall b, b ∈ l -> is_byte b) -> read_int l = Ok (z, l') ->
  l = write_int z ++ l' /\ (forall b, b ∈ l' -> is_byte b) /\ (- 2 ^ 31 <= z < 2 ^ 31)%Z.
Proof.
  unfold read_int. intros Hl ([a b] & H & H')%bind_Ok. injection H' as <- <-. apply read_bytes_inv in H as [-> Ha].
  assert (Hab : forall x, x ∈ a -> is_byte x) by (intros x Hx; apply Hl, elem_of_app; by left).
  pose proof (of_le_range a Hab) as Hr. rewrite Ha in Hr. change (256 ^ Z.of_nat 4)%Z with (2 ^ 32)%Z in Hr.
  split; [|split; [intros x Hx; apply Hl, elem_of_app; by right|unfold to_signed32; case_decide; lia]]. f_equal. unfold write_int.
  replace (to_signed32 (of_le a) mod 2 ^ 32)%Z with (of_le a). { rewrite <- Ha. by rewrite le_bytes_of_le. }
  unfold to_signed32. case_decide; [by rewrite Z.mod_small by lia|].
  rewrite <- (Z.mod_add _ 1) by lia. rewrite Z.mod_small by lia. lia.
Qed.

(** ** Numbers *)
Lemma fexp32 : SpecFloat.fexp 24 128 = FLT_exp (-149) 24.
Proof. reflexivity. Qed.
Lemma fexp64 : SpecFloat.fexp 53 1024 = FLT_exp (-1074) 53.
Proof. reflexivity. Qed.

Lemma single_is_double x : generic_format radix2 (FLT_exp (-149) 24) x -> generic_format radix2 (FLT_exp (-1074) 53) x.
Proof.
  intros H%FLT_format_generic; [|done]. destruct H as [f Hx Hm He]. apply generic_format_FLT.
  exists f; [done| |lia]. eapply Z.lt_trans; [exact Hm|]. done.
Qed.

Lemma Rcompare_cond s m e : Rcompare (F2R (Float radix2 (cond_Zopp s (Zpos m)) e)) 0 = if s then Lt else Gt.
Proof.
  destruct s; cbn [cond_Zopp].
  - apply Rcompare_Lt. by apply F2R_lt_0.
  - apply Rcompare_Gt. by apply F2R_gt_0.
Qed.

Lemma to_double_correct x : is_finite 24 128 x = true ->
  is_finite 53 1024 (to_double x) = true /\ value64 (to_double x) = value32 x /\ Bsign 53 1024 (to_double x) = Bsign 24 128 x.
Proof.
  intros Hf. destruct x as [s|s|s pl Hpl|s m e Hb]; try done.
  unfold value64, value32. cbn [to_double B2R Bsign is_finite] in *.
  pose proof (binary_normalize_correct 53 1024 eq_refl eq_refl mode_NE (cond_Zopp s (Zpos m)) e s) as H.
  assert (Hg : generic_format radix2 (FLT_exp (-149) 24) (F2R (Float radix2 (cond_Zopp s (Zpos m)) e))).
  { pose proof (generic_format_B2R 24 128 (B754_finite 24 128 s m e Hb)) as Hg. exact Hg. }
  rewrite fexp64 in H. rewrite (round_generic _ _ _ _ (single_is_double _ Hg)) in H.
  rewrite Rlt_bool_true in H.
  - destruct H as (H1 & H2 & H3). split; [exact H2|]. split; [exact H1|]. rewrite H3.
    rewrite Rcompare_cond. destruct s; reflexivity.
  - pose proof (abs_B2R_lt_emax 24 128 (B754_finite 24 128 s m e Hb)) as Hlt. cbn [B2R] in Hlt.
    eapply Rlt_le_trans; [exact Hlt|]. apply bpow_le. lia.
Qed.

Lemma max_single : generic_format radix2 (FLT_exp (-149) 24) (bpow radix2 128 - bpow radix2 104)%R.
Proof.
  apply generic_format_FLT. exists (Float radix2 (2 ^ 24 - 1) 104); [|done|done].
  unfold F2R. cbn [Fnum Fexp]. rewrite minus_IZR. change (2 ^ 24)%Z with (Zpower radix2 24). rewrite (IZR_Zpower radix2 24) by lia.
  rewrite Rmult_minus_distr_r, <- bpow_plus. rewrite Rmult_1_l. reflexivity.
Qed.

(** Rounding to single precision. *)
Lemma to_float_correct x : fits_single x ->
  is_finite 24 128 (to_float x) = true /\ value32 (to_float x) = nearest_single (value64 x) /\ Bsign 24 128 (to_float x) = Bsign 53 1024 x.
Proof.
  intros [Hf Hle]. unfold finite64, value64, value32 in *. destruct x as [s|s|s pl Hpl|s m e Hb]; try done.
  - cbn. split; [done|]. split; [|done]. unfold nearest_single. by rewrite round_0 by apply valid_rnd_N.
  - cbn [to_float B2R Bsign] in *.
    pose proof (binary_normalize_correct 24 128 eq_refl eq_refl mode_NE (cond_Zopp s (Zpos m)) e s) as H.
    rewrite fexp32 in H. cbn [round_mode] in H. fold (nearest_single (F2R (Float radix2 (cond_Zopp s (Zpos m)) e))) in H.
    rewrite Rlt_bool_true in H.
    + destruct H as (H1 & H2 & H3). rewrite Rcompare_cond in H3. split; [exact H2|]. split; [exact H1|]. rewrite H3. by destruct s.
    + apply Rle_lt_trans with (bpow radix2 128 - bpow radix2 104)%R; [|pose proof (bpow_gt_0 radix2 104); lra]. unfold nearest_single.
      apply abs_round_le_generic; [by apply FLT_exp_valid|apply valid_rnd_N|apply max_single|exact Hle].
Qed.

Lemma to_float_to_double x : is_nan 24 128 x = false -> to_float (to_double x) = x.
Proof.
  intros Hn. destruct x as [s|s|s pl Hpl|s m e Hb]; try done.
  set (x := B754_finite 24 128 s m e Hb). destruct (to_double_correct x eq_refl) as (H1 & H2 & H3).
  assert (Hfit : fits_single (to_double x)).
  { split; [done|]. rewrite H2. unfold value32. pose proof (abs_B2R_le_emax_minus_prec 24 128 eq_refl x) as Hle.
    exact Hle. }
  destruct (to_float_correct _ Hfit) as (H4 & H5 & H6).
  apply B2R_Bsign_inj; [exact H4|reflexivity| |].
  - unfold value32 in H5. rewrite H5, H2. unfold nearest_single. apply round_generic; [apply valid_rnd_N|].
    apply (generic_format_B2R 24 128 x).
  - by rewrite H6, H3.
Qed.

Local Open Scope R_scope.
Lemma nearest_error x M : Rabs x <= M -> Rabs (nearest_single x - x) <= M / 16777216 + / 1099511627776.
Proof.
  intros Hx. destruct (error_N_FLT radix2 (-149) 24 eq_refl (fun z => negb (Z.even z)) x) as (eps & eta & Heps & Heta & _ & Heq).
  unfold nearest_single. rewrite Heq. replace (x * (1 + eps) + eta - x) with (x * eps + eta) by ring.
  assert (He1 : / 2 * bpow radix2 (- (24) + 1) = / 16777216).
  { change (bpow radix2 (- (24) + 1)) with (/ IZR 8388608). lra. }
  rewrite He1 in Heps.
  assert (He2 : / 2 * bpow radix2 (-149) <= / 1099511627776).
  { apply Rle_trans with (/ 2 * bpow radix2 (-39)); [|change (bpow radix2 (-39)) with (/ IZR 549755813888); lra].
    apply Rmult_le_compat_l; [lra|]. apply bpow_le. lia. }
  assert (Rabs (x * eps + eta) <= Rabs x * Rabs eps + Rabs eta).
  { eapply Rle_trans; [apply Rabs_triang|]. rewrite Rabs_mult. lra. }
  assert (Rabs x * Rabs eps <= M * / 16777216).
  { apply Rmult_le_compat; try apply Rabs_pos; lra. }
  lra.
Qed.

Lemma int_format k : (Z.abs k < 2 ^ 24)%Z -> generic_format radix2 (FLT_exp (-149) 24) (IZR k).
Proof.
  intros Hk. apply generic_format_FLT. exists (Float radix2 k 0); [|done|done]. unfold F2R. cbn. by rewrite Rmult_1_r.
Qed.
Lemma f32_of_int_correct k : (Z.abs k < 2 ^ 24)%Z -> is_finite 24 128 (f32_of_int k) = true /\ value32 (f32_of_int k) = IZR k.
Proof.
  intros Hk. pose proof (binary_normalize_correct 24 128 eq_refl eq_refl mode_NE k 0 false) as H.
  rewrite fexp32 in H. replace (F2R (Float radix2 k 0)) with (IZR k) in H by (unfold F2R; cbn; by rewrite Rmult_1_r).
  rewrite (round_generic _ _ _ _ (int_format k Hk)) in H. rewrite Rlt_bool_true in H.
  - destruct H as (H1 & H2 & _). done.
  - rewrite <- abs_IZR. apply Rlt_trans with (IZR (2 ^ 24)); [by apply IZR_lt|].
    change (2 ^ 24)%Z with (Zpower radix2 24). rewrite (IZR_Zpower radix2 24) by lia. apply bpow_lt. lia.
Qed.

Lemma nearest_between x a b : (Z.abs a < 2 ^ 24)%Z -> (Z.abs b < 2 ^ 24)%Z -> IZR a <= x <= IZR b -> IZR a <= nearest_single x <= IZR b.
Proof.
  intros Ha Hb [H1 H2]. split; unfold nearest_single.
  - apply round_ge_generic; [by apply FLT_exp_valid|apply valid_rnd_N|by apply int_format|done].
  - apply round_le_generic; [by apply FLT_exp_valid|apply valid_rnd_N|by apply int_format|done].
Qed.
Lemma nearest_small x : 0 <= x <= 255 -> Rabs (nearest_single x) < bpow radix2 128.
Proof.
  intros Hx. destruct (nearest_between x 0 255) as [H1 H2]; try (cbn; lia); try done. rewrite Rabs_pos_eq by done.
  apply Rle_lt_trans with (IZR (2 ^ 8)); [eapply Rle_trans; [exact H2|]; apply IZR_le; lia|].
  change (2 ^ 8)%Z with (Zpower radix2 8). rewrite (IZR_Zpower radix2 8) by lia. apply bpow_lt. lia.
Qed.

Lemma mult_correct x y : finite32 x -> finite32 y -> 0 <= value32 x * value32 y <= 255 ->
  finite32 (b32_mult mode_NE x y) /\ value32 (b32_mult mode_NE x y) = nearest_single (value32 x * value32 y).
Proof.
  intros Hx Hy Hb. pose proof (Bmult_correct 24 128 eq_refl eq_refl binop_nan_pl32 mode_NE x y) as H.
  rewrite fexp32 in H. cbn [round_mode] in H. fold (value32 x) (value32 y) in H. fold (nearest_single (value32 x * value32 y)) in H.
  rewrite Rlt_bool_true in H by by apply nearest_small. destruct H as (H1 & H2 & _).
  split; [|exact H1]. unfold finite32. etransitivity; [exact H2|]. by rewrite Hx, Hy.
Qed.
Lemma div_correct x y : finite32 x -> value32 y <> 0 -> 0 <= value32 x / value32 y <= 255 ->
  finite32 (b32_div mode_NE x y) /\ value32 (b32_div mode_NE x y) = nearest_single (value32 x / value32 y).
Proof.
  intros Hx Hy Hb. pose proof (Bdiv_correct 24 128 eq_refl eq_refl binop_nan_pl32 mode_NE x y Hy) as H.
  rewrite fexp32 in H. cbn [round_mode] in H. fold (value32 x) (value32 y) in H. fold (nearest_single (value32 x / value32 y)) in H.
  rewrite Rlt_bool_true in H by by apply nearest_small. destruct H as (H1 & H2 & _).
  split; [|exact H1]. unfold finite32. etransitivity; [exact H2|]. done.
Qed.

Lemma trunc_correct x : Btrunc 24 128 x = Ztrunc (value32 x).
Proof.
  apply eq_IZR. rewrite Btrunc_correct by reflexivity. unfold round, F2R, scaled_mantissa, cexp, FIX_exp. cbn.
  by rewrite !Rmult_1_r.
Qed.

(** A number between 0 and 1 gives a byte. *)
Lemma descriptor_byte_correct v : unit_number v ->
  exists b, descriptor_byte v = Ok b /\ (0 <= b <= 255)%Z /\ b = Ztrunc (nearest_single (value32 v * 255)).
Proof.
  intros [Hf Hv]. destruct (f32_of_int_correct 255) as [H1 H2]; [cbn; lia|].
  destruct (mult_correct v (f32_of_int 255) Hf H1) as [H3 H4]; [rewrite H2; lra|].
  unfold descriptor_byte, to_byte. rewrite H3, trunc_correct, H4, H2.
  destruct (nearest_between (value32 v * 255) 0 255) as [H5 H6]; [cbn; lia|cbn; lia|lra|].
  assert (Hr : (0 <= Ztrunc (nearest_single (value32 v * 255)) <= 255)%Z).
  { apply Ztrunc_le in H5, H6. rewrite Ztrunc_IZR in H5. rewrite Ztrunc_IZR in H6. done. }
  exists (Ztrunc (nearest_single (value32 v * 255))). cbv zeta. rewrite decide_True by done. done.
Qed.

(** The value that is read for a byte. *)
Lemma byte_value_correct recip b : (0 <= b <= 255)%Z ->
  finite32 (byte_value recip b) /\ Rabs (value32 (byte_value recip b) - IZR b / 255) <= 1 / 4000000 /\
  (value32 (byte_value recip b) = nearest_single (IZR b / 255) \/
   value32 (byte_value recip b) = nearest_single (IZR b * nearest_single (1 / 255))).
Proof.
  intros Hb. destruct (f32_of_int_correct 255) as [H1 H2]; [cbn; lia|]. destruct (f32_of_int_correct b) as [H3 H4]; [lia|].
  destruct (f32_of_int_correct 1) as [H5 H6]; [cbn; lia|].
  assert (Hb' : 0 <= IZR b <= 255) by (split; apply IZR_le; lia).
  unfold byte_value. destruct recip.
  - destruct (div_correct (f32_of_int 1) (f32_of_int 255)) as [H7 H8]; [done|rewrite H2; lra|rewrite H2, H6; lra|].
    rewrite H2, H6 in H8.
    assert (Hn : 0 <= nearest_single (1 / 255) <= 1) by (apply (nearest_between _ 0 1); try (cbn; lia); lra).
    pose proof (nearest_error (1 / 255) (1 / 255)) as He. rewrite (Rabs_pos_eq (1 / 255)) in He by lra. specialize (He (Rle_refl _)).
    destruct (mult_correct (f32_of_int b) (b32_div mode_NE (f32_of_int 1) (f32_of_int 255))) as [H9 H10]; [done|done| |].
    { rewrite H8, H4. split; [apply Rmult_le_pos; lra|]. apply Rle_trans with (255 * 1); [|lra]. apply Rmult_le_compat; lra. }
    rewrite H4, H8 in H10. split; [done|]. split; [|by right]. rewrite H10.
    apply Rabs_le_inv in He.
    assert (Hp : 0 <= IZR b * nearest_single (1 / 255) <= 2).
    { split; [apply Rmult_le_pos; lra|]. apply Rle_trans with (255 * (2 / 255)); [|lra]. apply Rmult_le_compat; lra. }
    pose proof (nearest_error (IZR b * nearest_single (1 / 255)) 2) as He2. rewrite Rabs_pos_eq in He2 by lra. specialize (He2 (proj2 Hp)).
    apply Rabs_le_inv in He2.
    assert (Hd : Rabs (IZR b * nearest_single (1 / 255) - IZR b / 255) <= 255 * (1 / 255 / 16777216 + / 1099511627776)).
    { replace (IZR b * nearest_single (1 / 255) - IZR b / 255) with (IZR b * (nearest_single (1 / 255) - 1 / 255)) by field.
      rewrite Rabs_mult. apply Rmult_le_compat; try apply Rabs_pos; [rewrite Rabs_pos_eq; lra|]. apply Rabs_le. lra. }
    apply Rabs_le_inv in Hd. apply Rabs_le. lra.
  - destruct (div_correct (f32_of_int b) (f32_of_int 255)) as [H7 H8]; [done|rewrite H2; lra|rewrite H2, H4; lra|].
    rewrite H2, H4 in H8. split; [done|]. split; [|by left]. rewrite H8.
    pose proof (nearest_error (IZR b / 255) 1) as He. rewrite Rabs_pos_eq in He by lra. specialize (He ltac:(lra)).
    eapply Rle_trans; [exact He|]. lra.
Qed.
Local Close Scope R_scope.

(** Every byte survives reading and writing. *)
Definition bytes_survive (recip : bool) : bool :=
  forallb (fun k => match descriptor_byte (byte_value recip (Z.of_nat k)) with Ok b => Z.eqb b (Z.of_nat k) | _ => false end) (seq 0 256).
Lemma bytes_survive_true recip : bytes_survive recip = true.
Proof. destruct recip; vm_compute; reflexivity. Qed.
Lemma byte_survives recip b : is_byte b -> descriptor_byte (byte_value recip b) = Ok b.
Proof.
  intros Hb. unfold is_byte in Hb. pose proof (bytes_survive_true recip) as H. unfold bytes_survive in H. rewrite forallb_forall in H.
  specialize (H (Z.to_nat b)). rewrite Z2Nat.id in H by lia. assert (Hin : In (Z.to_nat b) (seq 0 256)) by (apply in_seq; lia). specialize (H Hin).
  destruct (descriptor_byte (byte_value recip b)); try done. apply Z.eqb_eq in H. by subst.
Qed.
Lemma bytes_survive_list recip bs : (forall b, b ∈ bs -> is_byte b) -> descriptor_bytes (map (byte_value recip) bs) = Ok bs.
Proof.
  induction bs as [|b bs IH]; intros Hb; [done|]. cbn [map descriptor_bytes].
  rewrite byte_survives by (apply Hb; by left). cbn [mbind outcome_bind].
  rewrite IH by (intros b' Hb'; apply Hb; by right). done.
Qed.

Lemma quantised_value recip v b : unit_number v -> (0 <= b <= 255)%Z -> b = Ztrunc (nearest_single (value32 v * 255)) ->
  quantised v (byte_value recip b).
Proof.
  intros [Hf Hv] Hb Heq. destruct (byte_value_correct recip b Hb) as (H1 & H2 & H3). split; [done|]. split; [|by exists b].
  pose proof (nearest_error (value32 v * 255) 255) as He. rewrite Rabs_pos_eq in He by lra. specialize (He ltac:(lra)).
  destruct (nearest_between (value32 v * 255) 0 255) as [H5 H6]; [cbn; lia|cbn; lia|lra|].
  rewrite Ztrunc_floor in Heq by done.
  pose proof (Zfloor_lb (nearest_single (value32 v * 255))) as H7. pose proof (Zfloor_ub (nearest_single (value32 v * 255))) as H8.
  rewrite <- Heq in H7, H8. apply Rabs_le_inv in He. apply Rabs_le_inv in H2. apply Rabs_le. lra.
Qed.

Lemma descriptor_bytes_correct ds : (forall v, v ∈ ds -> unit_number v) ->
  exists bs, descriptor_bytes ds = Ok bs /\ length bs = length ds /\ (forall b, b ∈ bs -> is_byte b) /\
    forall recip, Forall2 quantised ds (map (byte_value recip) bs).
Proof.
  induction ds as [|v ds IH]; intros Hu.
  { exists []. split; [done|]. split; [done|]. split; [by intros b []%elem_of_nil|]. intros recip. constructor. }
  destruct (descriptor_byte_correct v) as (b & H1 & H2 & H3); [apply Hu; by left|].
  destruct IH as (bs & H4 & H5 & H6 & H7); [intros w Hw; apply Hu; by right|].
  exists (b :: bs). cbn [descriptor_bytes]. rewrite H1. cbn [mbind outcome_bind]. rewrite H4. split; [done|]. split; [cbn; lia|]. split.
  - intros b' [-> | Hb']%elem_of_cons; [unfold is_byte; lia|by apply H6].
  - intros recip. cbn [map]. constructor; [|apply H7]. apply quantised_value; [apply Hu; by left|done|done].
Qed.

Lemma rounded_correct x : fits_single x -> rounded x (to_double (to_float x)).
Proof.
  intros Hx. destruct (to_float_correct x Hx) as (H1 & H2 & _). destruct (to_double_correct (to_float x) H1) as (H3 & H4 & _).
  split; [done|]. by rewrite H4, H2.
Qed.

Lemma write_float_length x : length (write_float x) = 4%nat.
Proof. apply le_bytes_length. Qed.

Lemma write_entries_correct ds : forall ks, length ds = length ks ->
  (forall d, d ∈ ds -> descriptor_fits d) -> (forall k, k ∈ ks -> keypoint_fits k) ->
  exists file, write_entries ds ks = Ok file /\ length file = (144 * length ds)%nat /\ (forall b, b ∈ file -> is_byte b) /\
    forall recip, exists ds' ks', read_entries recip (length ds) file = Ok (ds', ks') /\
      Forall2 (Forall2 quantised) ds ds' /\ Forall2 keypoint_read ks ks'.
Proof.
  induction ds as [|d ds IH]; intros [|k ks] Hl Hd Hk; try done.
  { exists []. split; [done|]. split; [done|]. split; [by intros b []%elem_of_nil|]. intros recip. by exists [], []. }
  cbn [length] in Hl. injection Hl as Hl.
  destruct (IH ks Hl) as (rest & H1 & H2 & H3 & H4); [intros d' Hd'; apply Hd; by right|intros k' Hk'; apply Hk; by right|].
  destruct (Hd d ltac:(by left)) as [Hlen Hu]. destruct (Hk k ltac:(by left)) as (Hx & Hy & Hs & Ho).
  destruct (descriptor_bytes_correct d Hu) as (bs & H5 & H6 & H7 & H8).
  cbn [write_entries]. rewrite H5. cbn [mbind outcome_bind]. rewrite H1. cbn [mbind outcome_bind].
  eexists. split; [reflexivity|]. split; [|split].
  - rewrite !app_length, !write_float_length, H6, H2, Hlen. cbn [length]. lia.
  - intros b. rewrite !elem_of_app. unfold write_float.
    intros [H | [H | [H | [H | [H | H]]]]]; [by eapply le_bytes_bytes..|by apply H7|by apply H3].
  - intros recip. destruct (H4 recip) as (ds' & ks' & H9 & H10 & H11). cbn [length read_entries].
    rewrite read_float_write. cbn [mbind outcome_bind]. rewrite read_float_write. cbn [mbind outcome_bind].
    rewrite read_float_write. cbn [mbind outcome_bind]. rewrite read_float_write. cbn [mbind outcome_bind].
    pose proof (read_bytes_app bs rest) as Hr. rewrite H6, Hlen in Hr. rewrite Hr. cbn [mbind outcome_bind]. rewrite H9. cbn [mbind outcome_bind].
    eexists _, _. split; [reflexivity|]. split; [constructor; [apply H8|done]|]. constructor; [|done].
    repeat split; cbn; try done; by apply rounded_correct.
Qed.

Lemma round_trip_lemma ds ks : length ds = length ks -> (Z.of_nat (length ds) < 2 ^ 31)%Z ->
  (forall d, d ∈ ds -> descriptor_fits d) -> (forall k, k ∈ ks -> keypoint_fits k) ->
  exists file, write_sift ds ks = Ok file /\ length file = (8 + 144 * length ds)%nat /\ (forall b, b ∈ file -> is_byte b) /\
    forall recip, exists ds' ks', read_sift recip file = Ok (ds', ks') /\
      Forall2 (Forall2 quantised) ds ds' /\ Forall2 keypoint_read ks ks'.
Proof.
  intros Hl Hn Hd Hk. destruct (write_entries_correct ds ks Hl Hd Hk) as (rest & H1 & H2 & H3 & H4).
  unfold write_sift. rewrite bool_decide_eq_true_2 by done. cbn [check mbind outcome_bind]. rewrite H1. cbn [mbind outcome_bind].
  eexists. split; [reflexivity|]. split; [|split].
  - rewrite !app_length. unfold write_int. rewrite !le_bytes_length, H2. lia.
  - intros b. rewrite !elem_of_app. unfold write_int. intros [H | [H | H]]; [by eapply le_bytes_bytes..|by apply H3].
  - intros recip. unfold read_sift. rewrite read_int_write by lia. cbn [mbind outcome_bind]. rewrite read_int_write by lia.
    cbn [mbind outcome_bind]. rewrite (bool_decide_eq_true_2 (128 = 128)%Z) by done. cbn [check mbind outcome_bind].
    rewrite bool_decide_eq_true_2 by lia. cbn [check mbind outcome_bind]. rewrite Nat2Z.id. apply H4.
Qed.

(** Writing again what was read. *)
Lemma to_double_nan x : is_nan 24 128 x = is_nan 53 1024 (to_double x).
Proof.
  destruct x as [s|s|s pl Hpl|s m e Hb]; try done. destruct (to_double_correct (B754_finite 24 128 s m e Hb) eq_refl) as (H & _).
  destruct (to_double _); done.
Qed.

Lemma rewrite_entries recip n : forall l ds ks, (forall b, b ∈ l -> is_byte b) ->
  read_entries recip n l = Ok (ds, ks) -> (forall k, k ∈ ks -> no_nan k) ->
  length ds = n /\ length ks = n /\ write_entries ds ks = Ok (take (144 * n) l).
Proof.
  induction n as [|n IH]; intros l ds ks Hl; cbn [read_entries].
  { intros [= <- <-] _. done. }
  intros ([y l1] & H1 & H)%bind_Ok Hn. apply bind_Ok in H as ([x l2] & H2 & H). apply bind_Ok in H as ([sc l3] & H3 & H).
  apply bind_Ok in H as ([ori l4] & H4 & H). apply bind_Ok in H as ([bs l5] & H5 & H). apply bind_Ok in H as ([ds' ks'] & H6 & H).
  injection H as <- <-.
  apply read_float_inv in H1 as [-> B1]; [|done]. apply read_float_inv in H2 as [-> B2]; [|done].
  apply read_float_inv in H3 as [-> B3]; [|done]. apply read_float_inv in H4 as [-> B4]; [|done].
  apply read_bytes_inv in H5 as [-> Hbs].
  destruct (Hn _ ltac:(by left)) as (N1 & N2 & N3 & N4). cbn in N1, N2, N3, N4. rewrite <- to_double_nan in N1, N2, N3, N4.
  destruct (IH l5 ds' ks') as (L1 & L2 & L3).
  { intros b Hb. apply B4, elem_of_app. by right. } { done. } { intros k Hk. apply Hn. by right. }
  split; [cbn; lia|]. split; [cbn; lia|].
  cbn [write_entries]. rewrite bytes_survive_list by (intros b Hb; apply B4, elem_of_app; by left). cbn [mbind outcome_bind].
  rewrite L3. cbn [mbind outcome_bind kp_x kp_y kp_scale kp_orientation]. rewrite !to_float_to_double by done.
  f_equal. rewrite !app_assoc.
  set (pre := (((write_float y ++ write_float x) ++ write_float sc) ++ write_float ori) ++ bs).
  assert (Hp : length pre = 144%nat) by (unfold pre; rewrite !app_length, !write_float_length, Hbs; lia).
  replace (144 * S n)%nat with (length pre + 144 * n)%nat by lia. by rewrite take_plus_app.
Qed.

Lemma rewrite_lemma recip file ds ks : (forall b, b ∈ file -> is_byte b) ->
  read_sift recip file = Ok (ds, ks) -> (forall k, k ∈ ks -> no_nan k) ->
  write_sift ds ks = Ok (take (8 + 144 * length ds) file).
Proof.
  intros Hb. unfold read_sift. intros ([num l] & H1 & H)%bind_Ok Hn. apply bind_Ok in H as ([len l'] & H2 & H).
  apply read_int_inv in H1 as (-> & B1 & R1); [|done]. apply read_int_inv in H2 as (-> & B2 & _); [|done].
  destruct (decide (len = 128%Z)) as [->|Hne]; [|by rewrite (bool_decide_eq_false_2 (len = 128%Z)) in H].
  rewrite (bool_decide_eq_true_2 (128%Z = 128%Z)) in H by done. cbn [check mbind outcome_bind] in H.
  destruct (decide (0 <= num)%Z) as [Hnum|Hne]; [|by rewrite bool_decide_eq_false_2 in H].
  rewrite bool_decide_eq_true_2 in H by done. cbn [check mbind outcome_bind] in H.
  destruct (rewrite_entries recip (Z.to_nat num) l' ds ks B2 H Hn) as (L1 & L2 & L3).
  unfold write_sift. rewrite bool_decide_eq_true_2 by congruence. cbn [check mbind outcome_bind]. rewrite L3. cbn [mbind outcome_bind].
  f_equal. rewrite L1, Z2Nat.id by done. rewrite !app_assoc.
  assert (Hp : length (write_int num ++ write_int 128) = 8%nat) by (rewrite app_length; unfold write_int; by rewrite !le_bytes_length).
  replace (8 + 144 * Z.to_nat num)%nat with (length (write_int num ++ write_int 128) + 144 * Z.to_nat num)%nat by lia.
  by rewrite take_plus_app.
Qed.

(** A file that was cut off. *)
Lemma read_float_short l : (length l < 4)%nat -> read_float l = UB.
Proof. intros H. unfold read_float, read_bytes. by rewrite decide_False by lia. Qed.
Lemma read_float_long l : (4 <= length l)%nat -> exists x, read_float l = Ok (x, drop 4 l).
Proof. intros H. unfold read_float, read_bytes. rewrite decide_True by lia. cbn [mbind outcome_bind]. eauto. Qed.

Lemma read_entries_short recip n : forall l, (length l < 144 * n)%nat -> read_entries recip n l = UB.
Proof.
  induction n as [|n IH]; intros l Hl; [lia|]. cbn [read_entries].
  destruct (decide (length l < 4)%nat) as [H|H]; [by rewrite read_float_short|].
  destruct (read_float_long l) as [y ->]; [lia|]. cbn [mbind outcome_bind].
  destruct (decide (length (drop 4 l) < 4)%nat) as [H'|H']; [by rewrite read_float_short|].
  destruct (read_float_long (drop 4 l)) as [x ->]; [lia|]. cbn [mbind outcome_bind]. rewrite drop_length in H'. rewrite !drop_drop.
  destruct (decide (length (drop (4 + 4) l) < 4)%nat) as [H2|H2]; [by rewrite read_float_short|].
  destruct (read_float_long (drop (4 + 4) l)) as [sc ->]; [lia|]. cbn [mbind outcome_bind]. rewrite drop_length in H2. rewrite !drop_drop.
  destruct (decide (length (drop (4 + 4 + 4) l) < 4)%nat) as [H3|H3]; [by rewrite read_float_short|].
  destruct (read_float_long (drop (4 + 4 + 4) l)) as [ori ->]; [lia|]. cbn [mbind outcome_bind]. rewrite drop_length in H3. rewrite !drop_drop.
  unfold read_bytes. case_decide as H4; [|done]. cbn [mbind outcome_bind]. rewrite drop_length in H4. rewrite drop_drop.
  rewrite IH; [done|]. rewrite drop_length. lia.
Qed.

Lemma truncated_lemma recip ds ks file n : (Z.of_nat (length ds) < 2 ^ 31)%Z -> (forall d, d ∈ ds -> length d = 128%nat) ->
  write_sift ds ks = Ok file -> (n < length file)%nat -> read_sift recip (take n file) = UB.
Proof.
  intros Hn Hd Hw Hlt. unfold write_sift in Hw.
  destruct (decide (length ds = length ks)) as [Hl|Hl]; [|by rewrite bool_decide_eq_false_2 in Hw].
  rewrite bool_decide_eq_true_2 in Hw by done. cbn [check mbind outcome_bind] in Hw. apply bind_Ok in Hw as (rest & Hr & Hw).
  assert (file = write_int (Z.of_nat (length ds)) ++ write_int 128 ++ rest) as -> by congruence. clear Hw.
  assert (Hlen : length rest = (144 * length ds)%nat).
  { clear Hn Hlt. revert ks rest Hl Hr. induction ds as [|d ds IH]; intros [|k ks] rest Hl Hr; try done; cbn [write_entries] in Hr.
    { by injection Hr as <-. }
    apply bind_Ok in Hr as (bs & Hbs & Hr). apply bind_Ok in Hr as (l & Hl' & Hr). injection Hr as <-.
    assert (length bs = length d).
    { clear -Hbs. revert bs Hbs. induction d as [|v d IH]; intros bs; cbn [descriptor_bytes]; [by intros [= <-]|].
      intros (b & _ & H)%bind_Ok. apply bind_Ok in H as (l & H & H'). injection H' as <-. cbn. f_equal. by apply IH. }
    cbn [length]. rewrite !app_length, (IH (fun d' Hd' => Hd d' (elem_of_list_further _ _ _ Hd')) ks l); [|cbn in Hl; lia|done].
    rewrite H, Hd by left. lia. }
  rewrite !app_length in Hlt. unfold write_int in Hlt. rewrite !le_bytes_length in Hlt. unfold read_sift.
  destruct (decide (n < 4)%nat) as [H4|H4].
  { unfold read_int, read_bytes. rewrite decide_False by (rewrite take_length; lia). done. }
  assert (Hi1 : length (write_int (Z.of_nat (length ds))) = 4%nat) by apply le_bytes_length.
  assert (Hi2 : length (write_int 128) = 4%nat) by apply le_bytes_length.
  replace n with (length (write_int (Z.of_nat (length ds))) + (n - 4))%nat by lia. rewrite take_plus_app by done.
  rewrite read_int_write by lia. cbn [mbind outcome_bind].
  destruct (decide (n < 8)%nat) as [H8|H8].
  { unfold read_int, read_bytes. rewrite decide_False by (rewrite take_length; lia). done. }
  replace (n - 4)%nat with (length (write_int 128) + (n - 8))%nat by lia. rewrite take_plus_app by done.
  rewrite read_int_write by lia. cbn [mbind outcome_bind]. rewrite (bool_decide_eq_true_2 (128 = 128)%Z) by done. cbn [check mbind outcome_bind].
  rewrite bool_decide_eq_true_2 by lia. cbn [check mbind outcome_bind]. rewrite Nat2Z.id. apply read_entries_short. rewrite take_length. lia.
Qed.
