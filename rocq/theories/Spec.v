(** Spec.v -- the vocabulary of the property statements.  Nothing here comes from the kernels:
    real numbers, integer rounding, clamping, "which bits of the buffer hold element i". *)
From Coq Require Import ZArith List Reals.
From Flocq Require Import Core Binary Bits.
From Verif Require Import Base Floats Dtypes.
Import ListNotations.
Local Open Scope Z_scope.

(** Real value of a float. *)
Definition val (x : f32) : R := B2R 24 128 x.
Definition finite (x : f32) : Prop := is_finite 24 128 x = true.

(** Round a real to the nearest binary32 value, ties to even (unbounded above: overflow is excluded by guards). *)
Definition RN32 (r : R) : R := round radix2 (FLT_exp (-149) 24) ZnearestE r.
Definition max32 : R := bpow radix2 128.

(** Nearest integer, halfway cases away from zero. *)
Definition round_half_away (r : R) : Z :=
  if Rlt_bool r 0 then - Zfloor (- r + / 2) else Zfloor (r + / 2).

Definition clamp (lo hi v : Z) : Z := Z.max lo (Z.min hi v).

(** Largest code of a quantized dtype. *)
Definition code_max (d : dtype) : Z := 2 ^ Z.of_nat (bit_size d) - 1.

(** The scaled value the library rounds: x times the rounded reciprocal of the scale, rounded. *)
Definition scaled (scale x : R) : R := RN32 (x * RN32 (1 / scale)).

(** The documented code. *)
Definition quant_code (d : dtype) (scale : R) (zp : Z) (x : R) : Z :=
  clamp 0 (code_max d) (round_half_away (scaled scale x) + zp).

(** Bits of a buffer: element [i] of width [bits] (2, 4 or 8), least significant first. *)
Definition code_at (d : dtype) (m : mem) (i : nat) : Z :=
  let p := (i * bit_size d)%nat in
  (nth (p / 8) m 0 / 2 ^ Z.of_nat (p mod 8)) mod 2 ^ Z.of_nat (bit_size d).

(** Element [i] of a float buffer (little-endian). *)
Definition f32_at (m : mem) (i : nat) : f32 := f32_of_bits (le_val (slice (4 * i) 4 m)).
Definition bf16_at (m : mem) (i : nat) : bf16 := le_val (slice (2 * i) 2 m).
Definition elem_at (d : dtype) (m : mem) (i : nat) : f32 :=
  match d with
  | DT_BF16 => f32_of_bits (bf16_at m i * 65536)  (* the 16 bits are the high half of a float *)
  | _ => f32_at m i
  end.

(** Number of bytes that hold [n] elements. *)
Definition bytes_for (d : dtype) (n : nat) : nat := (n * bit_size d + 7) / 8.

(** The two floats just inside +-1/2, where the x86 vector rounding is off by one. *)
Definition pred_half : R := (/ 2 - bpow radix2 (-25))%R.

(** What the guards of the quantization theorems ask of the scale: a nonzero finite scale whose reciprocal does not overflow. *)
Definition good_scale (scale : f32) : Prop :=
  val scale <> 0%R /\ (Rabs (RN32 (1 / val scale)) < max32)%R.
(** ... and of an input: finite, and the scaled value is below 2^30. *)
Definition quantizable (scale x : f32) : Prop :=
  finite x /\ (Rabs (scaled (val scale) (val x)) < bpow radix2 30)%R.

(** Stochastic rounding with a threshold: away from zero if the fractional part of |y| exceeds the threshold,
    else towards zero. *)
Definition stoch_round (thr y : R) : Z :=
  let n := Zfloor (Rabs y) in
  let n' := if Rlt_bool thr (Rabs y - IZR n) then (n + 1)%Z else n in
  if Rlt_bool y 0 then (- n')%Z else n'.
Definition stoch_code (d : dtype) (scale : R) (zp : Z) (thr x : R) : Z :=
  clamp 0 (code_max d) (stoch_round thr (scaled scale x) + zp).
(** A threshold as drawn by std::uniform_real_distribution<float>(0, 1).  The end point 1 is included: the rounding of the generated integer to float can
    reach it in implementations without a correction (see Rng.v). *)
Definition threshold (thr : f32) : Prop := finite thr /\ (0 <= val thr <= 1)%R.
