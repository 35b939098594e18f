(** Independent specification of the binary SIFT key files, over the reals. *)
From stdpp Require Import prelude.
From Coq Require Import ZArith Reals.
From Flocq Require Import Core IEEE754.BinarySingleNaN IEEE754.Binary IEEE754.Bits.
From Verif Require Import SiftFile_Model.

(** The value of a double, of a float, and the nearest single-precision number. *)
Definition value64 (x : binary64) : R := B2R 53 1024 x.
Definition value32 (x : binary32) : R := B2R 24 128 x.
Definition finite64 (x : binary64) : Prop := is_finite 53 1024 x = true.
Definition finite32 (x : binary32) : Prop := is_finite 24 128 x = true.
Definition nearest_single (x : R) : R := round radix2 (FLT_exp (-149) 24) ZnearestE x.

(** A keypoint that fits in single precision (not above the largest number, 2^128 - 2^104), and what is read back. *)
Definition fits_single (x : binary64) : Prop := finite64 x /\ (Rabs (value64 x) <= bpow radix2 128 - bpow radix2 104)%R.
Definition keypoint_fits (k : keypoint) : Prop :=
  fits_single (kp_x k) /\ fits_single (kp_y k) /\ fits_single (kp_scale k) /\ fits_single (kp_orientation k).
Definition rounded (x x' : binary64) : Prop := finite64 x' /\ value64 x' = nearest_single (value64 x).
Definition keypoint_read (k k' : keypoint) : Prop :=
  rounded (kp_x k) (kp_x k') /\ rounded (kp_y k) (kp_y k') /\ rounded (kp_scale k) (kp_scale k') /\
  rounded (kp_orientation k) (kp_orientation k') /\ kp_type k' = kp_sift /\ kp_strength k' = kp_invalid.

(** A descriptor of 128 numbers between 0 and 1, and what is read back: within a 254th of the number written, and
    the quotient of a byte and 255. *)
Definition unit_number (v : binary32) : Prop := finite32 v /\ (0 <= value32 v <= 1)%R.
Definition descriptor_fits (d : list binary32) : Prop := length d = 128%nat /\ forall v, v ∈ d -> unit_number v.
Definition quantised (v v' : binary32) : Prop :=
  finite32 v' /\ (Rabs (value32 v' - value32 v) <= 1 / 254)%R /\
  exists b : Z, (0 <= b <= 255)%Z /\ b = Ztrunc (nearest_single (value32 v * 255)) /\
    (value32 v' = nearest_single (IZR b / 255) \/ value32 v' = nearest_single (IZR b * nearest_single (1 / 255)))%R.

(** No coordinate is a NaN. *)
Definition no_nan (k : keypoint) : Prop :=
  is_nan 53 1024 (kp_x k) = false /\ is_nan 53 1024 (kp_y k) = false /\ is_nan 53 1024 (kp_scale k) = false /\
  is_nan 53 1024 (kp_orientation k) = false.
Definition is_byte (b : Z) : Prop := (0 <= b < 256)%Z.
