(** Property theorems about the binary SIFT key files. *)
From stdpp Require Import prelude.
From Coq Require Import ZArith Reals Lia Lra.
From Flocq Require Import Core IEEE754.BinarySingleNaN IEEE754.Binary IEEE754.Bits.
From Verif Require Import Base SiftFile_Model SiftFile_Spec SiftFile_Proofs.

(** C46.  Keypoints and descriptors that are written can be read: the coordinates are rounded to single precision, the
    entries of the descriptors to multiples of 1/255.  [recip] says how Eigen divides by 255. *)
Theorem sift_round_trip : forall (ds : list (list binary32)) (ks : list keypoint),
  length ds = length ks -> (Z.of_nat (length ds) < 2 ^ 31)%Z ->
  (forall d, d ∈ ds -> descriptor_fits d) -> (forall k, k ∈ ks -> keypoint_fits k) ->
  exists file, write_sift ds ks = Ok file /\ length file = (8 + 144 * length ds)%nat /\ (forall b, b ∈ file -> is_byte b) /\
    forall recip, exists ds' ks', read_sift recip file = Ok (ds', ks') /\
      Forall2 (Forall2 quantised) ds ds' /\ Forall2 keypoint_read ks ks'.
Proof. exact round_trip_lemma. Qed.

(** C46.  What was read from a file gives the same bytes when it is written. *)
Theorem sift_rewrite : forall (recip : bool) (file : list Z) (ds : list (list binary32)) (ks : list keypoint),
  (forall b, b ∈ file -> is_byte b) -> read_sift recip file = Ok (ds, ks) -> (forall k, k ∈ ks -> no_nan k) ->
  write_sift ds ks = Ok (take (8 + 144 * length ds) file).
Proof. exact rewrite_lemma. Qed.

(** C46.  A file that was cut off anywhere is not noticed by the reader: it uses indeterminate values. *)
Theorem sift_truncated : forall (recip : bool) (ds : list (list binary32)) (ks : list keypoint) (file : list Z) (n : nat),
  (Z.of_nat (length ds) < 2 ^ 31)%Z -> (forall d, d ∈ ds -> length d = 128%nat) ->
  write_sift ds ks = Ok file -> (n < length file)%nat -> read_sift recip (take n file) = UB.
Proof. exact truncated_lemma. Qed.

(** A keypoint and a descriptor: entries 0, 1, 1/2 and 1/3. *)
Definition k1 : keypoint :=
  Keypoint (to_double (b32_div mode_NE (f32_of_int 3) (f32_of_int 2))) (b64_div mode_NE (f64_of_int 1) (f64_of_int 10)) kp_sift
    kp_invalid (f64_of_int 4) (f64_of_int (-1)).
Definition d1 : list binary32 :=
  concat (replicate 32 [f32_of_int 0; f32_of_int 1; b32_div mode_NE (f32_of_int 1) (f32_of_int 2); b32_div mode_NE (f32_of_int 1) (f32_of_int 3)]).

(** 0.1 is rounded to single precision, 1/2 becomes the byte 127 and 1/3 the byte 85. *)
Example sift_sample :
  match write_sift [d1] [k1] with
  | Ok file =>
      match read_sift false file with
      | Ok (ds, [k]) =>
          bool_decide (take 4 (drop 24 file) = [0; 255; 127; 85]%Z) &&
          bool_decide (bits_of_b64 (kp_x k) = bits_of_b64 (kp_x k1)) && bool_decide (bits_of_b64 (kp_y k) <> bits_of_b64 (kp_y k1)) &&
          match write_sift ds [k] with Ok file' => bool_decide (file' = file) | _ => false end
      | _ => false
      end
  | _ => false
  end = true.
Proof. vm_compute. reflexivity. Qed.

(** The sample meets the hypotheses. *)
Example sift_sample_fits : keypoint_fits k1 /\ descriptor_fits d1.
Proof.
  split.
  - assert (H2 : fits_single (to_double (b32_div mode_NE (f32_of_int 3) (f32_of_int 2)))).
    { destruct (f32_of_int_correct 3) as [A1 A2]; [cbn; lia|]. destruct (f32_of_int_correct 2) as [B1 B2]; [cbn; lia|].
      destruct (div_correct (f32_of_int 3) (f32_of_int 2) A1) as [C1 C2]; [rewrite B2; lra|rewrite A2, B2; lra|].
      destruct (to_double_correct _ C1) as (D1 & D2 & _). split; [exact D1|]. rewrite D2.
      apply (abs_B2R_le_emax_minus_prec 24 128 eq_refl). }
    assert (Hi : forall x : binary64, is_finite 53 1024 x = true -> (Rabs (value64 x) <= 4)%R -> fits_single x).
    { intros x Hf Hx. split; [exact Hf|]. eapply Rle_trans; [exact Hx|].
      apply Rle_trans with (bpow radix2 127); [change 4%R with (bpow radix2 2); apply bpow_le; lia|].
      assert (bpow radix2 104 <= bpow radix2 127)%R by (apply bpow_le; lia).
      replace (bpow radix2 128) with (bpow radix2 127 + bpow radix2 127)%R; [lra|].
      change 128%Z with (127 + 1)%Z. rewrite bpow_plus. change (bpow radix2 1) with 2%R. ring. }
    assert (Hv : forall k : Z, (Z.abs k <= 4)%Z -> fits_single (f64_of_int k)).
    { intros k Hk. pose proof (binary_normalize_correct 53 1024 eq_refl eq_refl mode_NE k 0 false) as H.
      rewrite fexp64 in H. replace (F2R (Float radix2 k 0)) with (IZR k) in H by (unfold F2R; cbn; by rewrite Rmult_1_r).
      rewrite (round_generic _ _ _ _ (single_is_double _ (int_format k ltac:(lia)))) in H.
      assert (Hk' : (Rabs (IZR k) <= 4)%R) by (rewrite <- abs_IZR; by apply IZR_le).
      rewrite Rlt_bool_true in H.
      2: { eapply Rle_lt_trans; [exact Hk'|]. change 4%R with (bpow radix2 2). apply bpow_lt. lia. }
      destruct H as (E1 & E2 & _). apply Hi; [exact E2|]. unfold value64, f64_of_int. rewrite E1. exact Hk'. }
    split; [exact H2|]. split; [|split; apply Hv; lia].
    apply Hi; [vm_compute; reflexivity|].
    pose proof (Bdiv_correct 53 1024 eq_refl eq_refl binop_nan_pl64 mode_NE (f64_of_int 1) (f64_of_int 10)) as H.
    rewrite fexp64 in H.
    assert (Hval : forall k : Z, (Z.abs k <= 10)%Z -> B2R 53 1024 (f64_of_int k) = IZR k).
    { intros k Hk. pose proof (binary_normalize_correct 53 1024 eq_refl eq_refl mode_NE k 0 false) as H0.
      rewrite fexp64 in H0. replace (F2R (Float radix2 k 0)) with (IZR k) in H0 by (unfold F2R; cbn; by rewrite Rmult_1_r).
      rewrite (round_generic _ _ _ _ (single_is_double _ (int_format k ltac:(lia)))) in H0.
      rewrite Rlt_bool_true in H0; [by destruct H0|]. apply Rle_lt_trans with (bpow radix2 4).
      - rewrite <- abs_IZR. change (bpow radix2 4) with 16%R. apply IZR_le. lia.
      - apply bpow_lt. lia. }
    rewrite (Hval 1%Z), (Hval 10%Z) in H by lia. specialize (H ltac:(lra)).
    assert (Hr : (Rabs (round radix2 (FLT_exp (-1074) 53) ZnearestE (1 / 10)) <= 4)%R).
    { apply abs_round_le_generic; [by apply FLT_exp_valid|apply valid_rnd_N| |rewrite Rabs_pos_eq; lra].
      apply single_is_double. change 4%R with (IZR 4). apply int_format. lia. }
    cbn [round_mode] in H. rewrite Rlt_bool_true in H.
    2: { eapply Rle_lt_trans; [exact Hr|]. change 4%R with (bpow radix2 2). apply bpow_lt. lia. }
    destruct H as [E1 _]. unfold value64. eapply Rle_trans; [|exact Hr]. right. f_equal. exact E1.
  - split; [vm_compute; reflexivity|]. intros v Hv.
    assert (Hv' : v ∈ [f32_of_int 0; f32_of_int 1; b32_div mode_NE (f32_of_int 1) (f32_of_int 2); b32_div mode_NE (f32_of_int 1) (f32_of_int 3)]).
    { unfold d1 in Hv. revert Hv. generalize 32%nat. intros n Hv. induction n as [|n IH]; [by apply elem_of_nil in Hv|].
      cbn [replicate concat] in Hv. apply elem_of_app in Hv as [Hv | Hv]; [exact Hv|by apply IH]. }
    clear Hv.
    assert (Hc : forall a b : Z, (0 <= a <= b)%Z -> (1 <= b <= 4)%Z -> unit_number (b32_div mode_NE (f32_of_int a) (f32_of_int b))).
    { intros a b Ha Hb. destruct (f32_of_int_correct a) as [A1 A2]; [lia|]. destruct (f32_of_int_correct b) as [B1 B2]; [lia|].
      assert (1 <= IZR b)%R by (apply IZR_le; lia). assert (0 <= IZR a <= IZR b)%R by (split; apply IZR_le; lia).
      assert (Hq : (0 <= IZR a / IZR b <= 1)%R).
      { split; [apply Rmult_le_pos; [lra|left; apply Rinv_0_lt_compat; lra]|]. apply Rmult_le_reg_r with (IZR b); [lra|].
        unfold Rdiv. rewrite Rmult_assoc, Rinv_l by lra. lra. }
      destruct (div_correct (f32_of_int a) (f32_of_int b) A1) as [C1 C2]; [rewrite B2; lra|rewrite A2, B2; lra|].
      split; [exact C1|]. rewrite C2, A2, B2. apply (nearest_between _ 0 1); [lia|lia|exact Hq]. }
    assert (Hint : forall a : Z, (0 <= a <= 1)%Z -> unit_number (f32_of_int a)).
    { intros a Ha. destruct (f32_of_int_correct a) as [A1 A2]; [lia|]. split; [exact A1|]. rewrite A2. split; apply IZR_le; lia. }
    rewrite !elem_of_cons, elem_of_nil in Hv'. destruct Hv' as [-> | [-> | [-> | [-> | []]]]].
    + apply Hint. lia. + apply Hint. lia. + apply Hc; lia. + apply Hc; lia.
Qed.

(** Outside of the guarded range: a descriptor of another length gives a file that cannot be read, and a number above 1
    is undefined behaviour. *)
Example sift_other_length :
  match write_sift [take 64 d1] [k1] with Ok file => match read_sift false file with UB => true | _ => false end | _ => false end = true.
Proof. vm_compute. reflexivity. Qed.
Example sift_out_of_range :
  match write_sift [replicate 128 (f32_of_int 2)] [k1] with UB => true | _ => false end = true.
Proof. vm_compute. reflexivity. Qed.

Print Assumptions sift_round_trip.
Print Assumptions sift_rewrite.
Print Assumptions sift_truncated.
