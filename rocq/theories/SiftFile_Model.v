(** Model of the binary SIFT key files: /repo/src/theia/io/sift_binary_file.cc.

    A file is a list of bytes (numbers 0 to 255).  The float and double of the code are the binary32 and binary64 numbers of
    Flocq, which follow IEEE 754, bit for bit; the machine is little-endian.  Rounding is to nearest, ties to even.
    A NaN becomes the default NaN when it is converted between the two formats.  That a file cannot be opened is
    left out. *)
From stdpp Require Import prelude.
From Coq Require Import ZArith Lia.
From Flocq Require Import Core.Zaux IEEE754.BinarySingleNaN IEEE754.Binary IEEE754.Bits.
From Verif Require Import Base.

(** keypoint.h:50-114, Keypoint. *)
Record keypoint := Keypoint {
  kp_x : binary64; kp_y : binary64; kp_type : Z; kp_strength : binary64; kp_scale : binary64; kp_orientation : binary64 }.
(** keypoint.h:53-58, the type SIFT; keypoint.h:49, THEIA_INVALID_KEYPOINT_VAR (-9999). *)
Definition kp_sift : Z := 1.
Definition f64_of_int (k : Z) : binary64 := binary_normalize 53 1024 eq_refl eq_refl mode_NE k 0 false.
Definition kp_invalid : binary64 := f64_of_int (-9999).

(** Conversions between numbers. *)
Definition f32_of_int (k : Z) : binary32 := binary_normalize 24 128 eq_refl eq_refl mode_NE k 0 false.
Definition nan32 : binary32 := proj1_sig default_nan_pl32.
Definition nan64 : binary64 := proj1_sig default_nan_pl64.
Definition to_float (x : binary64) : binary32 :=
  match x with
  | B754_zero _ _ s => B754_zero 24 128 s
  | B754_infinity _ _ s => B754_infinity 24 128 s
  | B754_nan _ _ _ _ _ => nan32
  | B754_finite _ _ s m e _ => binary_normalize 24 128 eq_refl eq_refl mode_NE (cond_Zopp s (Zpos m)) e s
  end.
Definition to_double (x : binary32) : binary64 :=
  match x with
  | B754_zero _ _ s => B754_zero 53 1024 s
  | B754_infinity _ _ s => B754_infinity 53 1024 s
  | B754_nan _ _ _ _ _ => nan64
  | B754_finite _ _ s m e _ => binary_normalize 53 1024 eq_refl eq_refl mode_NE (cond_Zopp s (Zpos m)) e s
  end.
(** The conversion of a float to uint8_t: undefined if the truncated number is out of range. *)
Definition to_byte (x : binary32) : outcome Z :=
  if is_finite 24 128 x then
    let k := Btrunc 24 128 x in
    if decide (0 <= k <= 255)%Z then Ok k else UB
  else UB.

(** Numbers in files: [n] bytes of a number, lowest first, and back. *)
Fixpoint le_bytes (n : nat) (z : Z) : list Z :=
  match n with O => [] | S n => (z mod 256)%Z :: le_bytes n (z / 256) end.
Fixpoint of_le (l : list Z) : Z := match l with [] => 0%Z | b :: l => (b + 256 * of_le l)%Z end.
Definition to_signed32 (z : Z) : Z := if decide (z < 2 ^ 31)%Z then z else (z - 2 ^ 32)%Z.
Definition write_int (z : Z) : list Z := le_bytes 4 (z mod 2 ^ 32).
Definition write_float (x : binary32) : list Z := le_bytes 4 (bits_of_b32 x).

(** sift_binary_file.cc:132-137: the bytes of a descriptor, d * 255 converted to uint8_t. *)
Definition descriptor_byte (d : binary32) : outcome Z := to_byte (b32_mult mode_NE d (f32_of_int 255)).
Fixpoint descriptor_bytes (ds : list binary32) : outcome (list Z) :=
  match ds with
  | [] => Ok []
  | d :: ds => b ← descriptor_byte d; l ← descriptor_bytes ds; Ok (b :: l)
  end.

(** sift_binary_file.cc:122-138: the loop of the writer.  The number of entries is that of the descriptors; an access to
    a missing keypoint cannot happen as the sizes were compared. *)
Fixpoint write_entries (ds : list (list binary32)) (ks : list keypoint) : outcome (list Z) :=
  match ds, ks with
  | d :: ds, k :: ks =>
      bs ← descriptor_bytes d;
      l ← write_entries ds ks;
      Ok (write_float (to_float (kp_y k)) ++ write_float (to_float (kp_x k)) ++ write_float (to_float (kp_scale k)) ++
          write_float (to_float (kp_orientation k)) ++ bs ++ l)
  | _, _ => Ok []
  end.

(** sift_binary_file.cc:101-141, WriteSiftKeyBinaryFile, for fewer than 2^31 descriptors. *)
Definition write_sift (ds : list (list binary32)) (ks : list keypoint) : outcome (list Z) :=
  _ ← check (bool_decide (length ds = length ks));
  l ← write_entries ds ks;
  Ok (write_int (Z.of_nat (length ds)) ++ write_int 128 ++ l).

(** Reading [n] bytes.  When the file is too short the variables keep indeterminate values, which the code then uses:
    undefined behaviour. *)
Definition read_bytes (n : nat) (l : list Z) : outcome (list Z * list Z) :=
  if decide (n <= length l)%nat then Ok (take n l, drop n l) else UB.
Definition read_int (l : list Z) : outcome (Z * list Z) :=
  '(b, l) ← read_bytes 4 l; Ok (to_signed32 (of_le b), l).
Definition read_float (l : list Z) : outcome (binary32 * list Z) :=
  '(b, l) ← read_bytes 4 l; Ok (b32_of_bits (of_le b), l).

(** sift_binary_file.cc:91-94: a byte as a float, divided by 255.  Eigen before version 3.3 multiplies by the reciprocal
    ([recip]). *)
Definition byte_value (recip : bool) (b : Z) : binary32 :=
  if recip then b32_mult mode_NE (f32_of_int b) (b32_div mode_NE (f32_of_int 1) (f32_of_int 255))
  else b32_div mode_NE (f32_of_int b) (f32_of_int 255).

(** sift_binary_file.cc:76-96: the loop of the reader. *)
Fixpoint read_entries (recip : bool) (n : nat) (l : list Z) : outcome (list (list binary32) * list keypoint) :=
  match n with
  | O => Ok ([], [])
  | S n =>
      '(y, l) ← read_float l;
      '(x, l) ← read_float l;
      '(scale, l) ← read_float l;
      '(ori, l) ← read_float l;
      '(bs, l) ← read_bytes 128 l;
      '(ds, ks) ← read_entries recip n l;
      Ok (map (byte_value recip) bs :: ds,
          Keypoint (to_double x) (to_double y) kp_sift kp_invalid (to_double scale) (to_double ori) :: ks)
  end.

(** sift_binary_file.cc:57-99, ReadSiftKeyBinaryFile, for an existing file.  A negative number is passed to
    vector::reserve, which throws. *)
Definition read_sift (recip : bool) (file : list Z) : outcome (list (list binary32) * list keypoint) :=
  '(num, l) ← read_int file;
  '(len, l) ← read_int l;
  _ ← check (bool_decide (len = 128%Z));
  _ ← check (bool_decide (0 <= num)%Z);
  read_entries recip (Z.to_nat num) l.
