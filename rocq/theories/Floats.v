(** Floats.v -- IEEE binary32/binary64 (Flocq) and bf16, with the C/C++ and vector conversions. *)
From Coq Require Import ZArith List Lia Bool Reals.
From Flocq Require Import Core BinarySingleNaN Binary Bits.
From Verif Require Import Base.
Import ListNotations.
Local Open Scope Z_scope.

(** include/piquant.hpp:78 [using fp32_t = float; // IEEE 754 binary 32] *)
Definition f32 := binary32.
(* double, piquant.cpp:240-257 *)
Definition f64 := binary64.
(* object representation of float: std::bit_cast, piquant.hpp:87 and 95 *)
Definition f32_of_bits (z : Z) : f32 := b32_of_bits z.
(* object representation of float: std::bit_cast, piquant.hpp:87 and 95 *)
Definition bits_of_f32 (x : f32) : Z := bits_of_b32 x.

(* float *: quantize.inl:10 and 23, dequantize.inl:10; _mm_mul_ps lanes *)
Definition fmul (a b : f32) : f32 := b32_mult mode_NE a b.
(* float +: quantize.inl:14, dequantize.inl:65; _mm_add_ps lanes *)
Definition fadd (a b : f32) : f32 := b32_plus mode_NE a b.
(* float -: quantize.inl:11, kernels_specialized.inl:1387-1389 *)
Definition fsub (a b : f32) : f32 := b32_minus mode_NE a b.
(* float /: 1.0f / scale, quantize.inl:134, kernels_specialized.inl:42 *)
Definition fdiv (a b : f32) : f32 := b32_div mode_NE a b.
(* _mm512_fmadd_ps lane: kernels_specialized.inl:1236-1243, 1360-1362 *)
Definition ffma (a b c : f32) : f32 := b32_fma mode_NE a b c.

(* 0.0f: quantize.inl:12-13 *)
Definition f_zero  : f32 := b32_of_bits 0x00000000.
(* 1.0f: quantize.inl:12, kernels_specialized.inl:42 *)
Definition f_one   : f32 := b32_of_bits 0x3f800000.
(* 0.5f: kernels_specialized.inl:48, 85, 127 *)
Definition f_half  : f32 := b32_of_bits 0x3f000000.
(* -0.5f: kernels_specialized.inl:49, 86, 128 *)
Definition f_nhalf : f32 := b32_of_bits 0xbf000000.
(* -1.0f: quantize.inl:13 *)
Definition f_neg_one : f32 := b32_of_bits 0xbf800000.

(** Ordered comparisons (false on NaN). *)
Definition flt (a b : f32) : bool := match b32_compare a b with Some Lt => true | _ => false end.
(* >=: _mm256_cmp_ps(_CMP_GE_OQ), kernels_specialized.inl:109-112 *)
Definition fge (a b : f32) : bool := match b32_compare a b with Some Gt => true | Some Eq => true | _ => false end.
(* >: kernels_specialized.inl:1513, 1604 *)
Definition fgt (a b : f32) : bool := match b32_compare a b with Some Gt => true | _ => false end.
(* std::isnan: piquant.cpp:373, 379 *)
Definition fis_nan (a : f32) : bool := is_nan 24 128 a.
(* neither NaN nor infinite (used for the definedness of the float-to-integer conversions) *)
Definition ffinite (a : f32) : bool := is_finite 24 128 a.
(* std::abs(float): quantize.inl:11 *)
Definition fabs (a : f32) : f32 := b32_abs a.

(* the NaN Flocq produces; payloads are not part of any statement (DESIGN.md section 5) *)
Definition nan32 (_ : f32) : { nan : f32 | is_nan 24 128 nan = true } := default_nan_pl32.
Lemma Hprec32 : Prec_gt_0 24. Proof. reflexivity. Qed.
Lemma Hmax32 : Prec_lt_emax 24 128. Proof. reflexivity. Qed.
Lemma Hprec64 : Prec_gt_0 53. Proof. reflexivity. Qed.
Lemma Hmax64 : Prec_lt_emax 53 1024. Proof. reflexivity. Qed.

(** std::round(float): nearest integer, halfway away from zero. *)
Definition fround (x : f32) : f32 := Bnearbyint 24 128 Hmax32 nan32 mode_NA x.
(** std::trunc(float). *)
Definition ftrunc (x : f32) : f32 := Bnearbyint 24 128 Hmax32 nan32 mode_ZR x.

(** Integer part of a finite float (None for NaN and infinities). *)
Definition f_to_Z (x : f32) : option Z :=
  if ffinite x then Some (Btrunc 24 128 x) else None.

(** static_cast<std::int32_t>(float), static_cast<std::int64_t>(float): out of range is UB ([conv.fpint]). *)
Definition f32_to_i32 (x : f32) : res Z :=
  match f_to_Z x with Some z => i32 z | None => UB end.
(* quantize.inl:15 and 24 *)
Definition f32_to_i64 (x : f32) : res Z :=
  match f_to_Z x with Some z => i64 z | None => UB end.

(** x86 cvttps2dq: truncation, "integer indefinite" -2^31 when not representable. *)
Definition cvttps (x : f32) : Z :=
  match f_to_Z x with
  | Some z => if in_i32 z then z else -2147483648
  | None => -2147483648
  end.

(** NEON fcvtas: nearest, ties away from zero, saturating, NaN -> 0. *)
Definition vcvta (x : f32) : Z :=
  match f_to_Z (fround x) with
  | Some z => Z.max (-2147483648) (Z.min 2147483647 z)
  | None => if fis_nan x then 0 else if flt x f_zero then -2147483648 else 2147483647
  end.

(** Conversion of an integer to float (round to nearest even): static_cast<fp32_t>(int32/int64), cvtdq2ps. *)
Definition f32_of_Z (z : Z) : f32 :=
  binary_normalize 24 128 Hprec32 Hmax32 mode_NE z 0 false.

(** ** bf16 (16-bit patterns) *)
Definition bf16 := Z.
(* include/piquant.hpp:95 operator fp32_t *)
Definition f32_of_bf16 (b : bf16) : f32 := f32_of_bits (Z.shiftl b 16).
(* include/piquant.hpp:86-90 bfp16_t(fp32_t); all arithmetic on uint32_t, result cut to uint16_t *)
Definition bf16_of_f32_bits (u : Z) : bf16 :=
  if 0x7f800000 <? Z.land u 0x7fffffff
  then (Z.lor (Z.shiftr u 16) 64) mod 65536
  else (Z.shiftr ((u + (0x7fff + Z.land (Z.shiftr u 16) 1)) mod 4294967296) 16) mod 65536.
(* include/piquant.hpp:86-90 bfp16_t(fp32_t) *)
Definition bf16_of_f32 (x : f32) : bf16 := bf16_of_f32_bits (bits_of_f32 x).

(* include/piquant.hpp:97-124 operators *)
Definition bf16_add (a b : bf16) : bf16 := bf16_of_f32 (fadd (f32_of_bf16 a) (f32_of_bf16 b)).
(* include/piquant.hpp:104-110 operator -, -= *)
Definition bf16_sub (a b : bf16) : bf16 := bf16_of_f32 (fsub (f32_of_bf16 a) (f32_of_bf16 b)).
(* include/piquant.hpp:111-117 operator *, *= *)
Definition bf16_mul (a b : bf16) : bf16 := bf16_of_f32 (fmul (f32_of_bf16 a) (f32_of_bf16 b)).
(* include/piquant.hpp:118-124 operator /, /= *)
Definition bf16_div (a b : bf16) : bf16 := bf16_of_f32 (fdiv (f32_of_bf16 a) (f32_of_bf16 b)).

(** src/kernels/kernels_specialized.inl:19-30, cvt_ps_to_bf16 without AVX512BF16, one lane.
    [_mm512_cvtusepi32_epi16] saturates the 32-bit lane (bf32) to 0xffff, unsigned. *)
Definition cvt_ps_to_bf16_sw_bits (u : Z) : bf16 :=
  let lsb := Z.land (Z.shiftr u 16) 1 in
  let bias := (0x7fff + lsb) mod 4294967296 in
  let r := (u + bias) mod 4294967296 in
  let bf32 := Z.shiftr r 16 in
  let exp_ff := Z.land u 0x7f800000 =? 0x7f800000 in
  let mant_nz := negb (Z.land u 0x007fffff =? 0) in
  let bf32' := if exp_ff && mant_nz then (bf32 + 1) mod 4294967296 else bf32 in
  Z.min bf32' 65535.
(** [_mm512_cvtneps_pbh] (Intel SDM, VCVTNEPS2BF16): RNE, denormal inputs are treated as zero
    (DAZ), denormal results flushed to zero, NaN truncated and quieted. *)
Definition cvtneps_pbh_bits (u : Z) : bf16 :=
  let e := Z.land u 0x7f800000 in
  if e =? 0 then Z.land (Z.shiftr u 16) 0x8000
  else if (e =? 0x7f800000) && negb (Z.land u 0x007fffff =? 0)
  then Z.lor (Z.shiftr u 16) 64
  else Z.shiftr ((u + (0x7fff + Z.land (Z.shiftr u 16) 1)) mod 4294967296) 16.
