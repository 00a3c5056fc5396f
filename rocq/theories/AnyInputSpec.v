(** AnyInputSpec.v -- what quantize stores for *every* float, *every* scale (zero, NaN, infinite, negative) and *every* int64 zero point:
    the vocabulary of the theorems of PropsAnyInput.v.  Nothing here comes from the kernels. *)
From Coq Require Import ZArith List Bool Reals.
From Flocq Require Import Core Binary Bits.
From Verif Require Import Base Floats Dtypes Spec ApiSpec PathSpec.
Import ListNotations.
Local Open Scope R_scope.

(** The IEEE single-precision product of x with the IEEE single-precision quotient 1/scale. *)
Definition product (scale x : f32) : f32 := fmul x (fdiv f_one scale).

(** The integer an x86 vector iteration makes of the product: add one half with the sign of the product (rounded to single precision), cut off the
    fraction; the "integer indefinite" value -2^31 for NaN, infinities and magnitudes of 2^31 or more. *)
Definition x86_integer (p : f32) : Z :=
  if is_finite 24 128 p && Rlt_bool (Rabs (val p)) (bpow radix2 31)
  then Ztrunc (RN32 (val p + (if Rlt_bool (val p) 0 then - / 2 else / 2)))
  else (- 2 ^ 31)%Z.
(** NEON: nearest integer, halfway cases away from zero, saturated to int32; NaN becomes 0. *)
Definition neon_integer (p : f32) : Z :=
  if is_nan 24 128 p then 0%Z
  else if is_finite 24 128 p then clamp (- 2 ^ 31) (2 ^ 31 - 1) (round_half_away (val p))
  else if Bsign 24 128 p then (- 2 ^ 31)%Z else (2 ^ 31 - 1)%Z.
(** The stored code: the low 32 bits of the zero point are added in wrapping int32 arithmetic, the sum is clamped. *)
Definition vector_result (A : arch) (d : dtype) (scale : f32) (zp : Z) (x : f32) : Z :=
  let p := product scale x in
  clamp 0 (code_max d) (wrap32 ((match A with NEON => neon_integer p | _ => x86_integer p end) + wrap32 zp)).

(** Scalar code: nearest rounding uses int32 and the low 32 bits of the zero point, except f32 to uint2, which, like stochastic rounding, uses int64.
    [None]: the float-to-integer conversion or the addition of the zero point overflows, which is undefined behaviour. *)
Definition int_limit (din dout : dtype) (rm : round_mode_t) : Z :=
  match rm, din, dout with RM_STOCHASTIC, _, _ => 2 ^ 63 | RM_NEAREST, DT_F32, DT_UINT2 => 2 ^ 63 | RM_NEAREST, _, _ => 2 ^ 31 end.
Definition scalar_result (din dout : dtype) (rm : round_mode_t) (thr scale : f32) (zp : Z) (x : f32) : option Z :=
  let p := product scale x in
  let L := int_limit din dout rm in
  let z := if (L =? 2 ^ 31)%Z then wrap32 zp else zp in
  let k := match rm with RM_NEAREST => round_half_away (val p) | RM_STOCHASTIC => stoch_round (val thr) (val p) end in
  if is_finite 24 128 p && ((- L <=? k) && (k <? L))%Z && ((- L <=? k + z) && (k + z <? L))%Z
  then Some (clamp 0 (code_max dout) (k + z)) else None.

(** Element [i] of a call: [None] if its conversion is undefined. *)
Definition quantize_result (A : arch) (nt : nat) (oaddr : Z) (din dout : dtype) (rm : round_mode_t) (thr scale : f32) (zp : Z) (inm : mem) (i : nat) : option Z :=
  let x := elem_at din inm i in
  match rm with
  | RM_NEAREST => if vector_path A din dout oaddr (numel din (length inm)) nt i then Some (vector_result A dout scale zp x)
                  else scalar_result din dout rm thr scale zp x
  | RM_STOCHASTIC => scalar_result din dout rm thr scale zp x
  end.
