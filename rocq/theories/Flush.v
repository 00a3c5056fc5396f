(** Flush.v -- the library as it runs when the floating-point unit flushes denormals (x86 MXCSR.DAZ / MXCSR.FTZ, Arm FPCR.FZ).
    The library never touches these bits: they are whatever the host process set (torch.set_flush_denormal, a library linked with
    -ffast-math), per thread; the workers of the pool inherit them from the thread that created the context.
    Everything below is the text of QuantKernels.v, DequantKernels.v, Context.v and MinMax.v with each floating-point operation replaced by
    its flushing version; [m] is the mode of the executing thread. *)
From Coq Require Import ZArith List Lia Bool.
From Flocq Require Import BinarySingleNaN Binary Bits.
From Verif Require Import Base Floats Simd Dtypes QuantKernels DequantKernels Context MinMax.
Import ListNotations.
Local Open Scope Z_scope.

(** ** Modes and operations (Intel SDM vol. 1, 10.2.3 and 11.5.2.3; Arm ARM, FPCR.FZ) *)
(** When a result is too small: keep it, flush it if it is subnormal after rounding (x86), or if the exact result is below the smallest
    normal number (Arm). *)
Inductive ftz_t := FTZ_OFF | FTZ_AFTER | FTZ_BEFORE.
(* the flush bits of MXCSR / FPCR; the library never writes them (no line of /repo), a host may *)
Record fmode := mk_fmode { daz : bool; ftz : ftz_t }.
(* the default state of the control register, which the rest of the model assumes *)
Definition ieee_mode : fmode := mk_fmode false FTZ_OFF.
(* the smallest normal binary32 and binary64 *)
Definition subnormal32 (x : f32) : bool :=
  match x with B754_finite _ _ _ mm _ _ => Z.ltb (Zpos mm) 8388608 | _ => false end.
(* double operand below the normal range, piquant.cpp:222-259 *)
Definition subnormal64 (x : f64) : bool :=
  match x with B754_finite _ _ _ mm _ _ => Z.ltb (Zpos mm) 4503599627370496 | _ => false end.
(* a subnormal number becomes a zero of the same sign *)
Definition fl32 (x : f32) : f32 := if subnormal32 x then B754_zero 24 128 (Bsign 24 128 x) else x.
(* flush of a double, piquant.cpp:222-259 under the mode *)
Definition fl64 (x : f64) : f64 := if subnormal64 x then B754_zero 53 1024 (Bsign 53 1024 x) else x.
(* the result is a zero (test used by FTZ before rounding) *)
Definition is_zero32 (x : f32) : bool := match x with B754_zero _ _ _ => true | _ => false end.
(* the result is a zero (test used by FTZ before rounding) *)
Definition is_zero64 (x : f64) : bool := match x with B754_zero _ _ _ => true | _ => false end.
(* operands *)
Definition fin32 (m : fmode) (x : f32) : f32 := if daz m then fl32 x else x.
(* DAZ on the double operands of piquant.cpp:222-259 *)
Definition fin64 (m : fmode) (x : f64) : f64 := if daz m then fl64 x else x.
(* results: [r] rounded to nearest, [rz] rounded towards zero (subnormal or zero iff the exact result is below the smallest normal) *)
Definition fout32 (m : fmode) (rz r : f32) : f32 :=
  match ftz m with
  | FTZ_OFF => r
  | FTZ_AFTER => fl32 r
  | FTZ_BEFORE => if subnormal32 rz || is_zero32 rz then B754_zero 24 128 (Bsign 24 128 r) else r
  end.
(* FTZ on the double results of piquant.cpp:222-259 *)
Definition fout64 (m : fmode) (rz r : f64) : f64 :=
  match ftz m with
  | FTZ_OFF => r
  | FTZ_AFTER => fl64 r
  | FTZ_BEFORE => if subnormal64 rz || is_zero64 rz then B754_zero 53 1024 (Bsign 53 1024 r) else r
  end.
(* a binary float instruction under the mode *)
Definition op32 (op : mode -> f32 -> f32 -> f32) (m : fmode) (a b : f32) : f32 :=
  let a' := fin32 m a in let b' := fin32 m b in fout32 m (op mode_ZR a' b') (op mode_NE a' b').
(* a binary double instruction under the mode *)
Definition op64 (op : mode -> f64 -> f64 -> f64) (m : fmode) (a b : f64) : f64 :=
  let a' := fin64 m a in let b' := fin64 m b in fout64 m (op mode_ZR a' b') (op mode_NE a' b').
(* float *: quantize.inl:10 and 23, dequantize.inl:10; _mm_mul_ps lanes; under the mode [m] *)
Definition fmul_z := op32 b32_mult.
(* float +: quantize.inl:14, dequantize.inl:65; _mm_add_ps lanes; under the mode [m] *)
Definition fadd_z := op32 b32_plus.
(* float -: quantize.inl:11, kernels_specialized.inl:1387-1389; under the mode [m] *)
Definition fsub_z := op32 b32_minus.
(* float /: 1.0f / scale, quantize.inl:134, kernels_specialized.inl:42; under the mode [m] *)
Definition fdiv_z := op32 b32_div.
(* _mm512_fmadd_ps lane: kernels_specialized.inl:1236-1243, 1360-1362; under the mode [m] *)
Definition ffma_z (m : fmode) (a b c : f32) : f32 :=
  let a' := fin32 m a in let b' := fin32 m b in let c' := fin32 m c in
  fout32 m (b32_fma mode_ZR a' b' c') (b32_fma mode_NE a' b' c').
(* comparisons see the flushed operands *)
Definition flt_z (m : fmode) (a b : f32) : bool := flt (fin32 m a) (fin32 m b).
(* >=: _mm256_cmp_ps(_CMP_GE_OQ), kernels_specialized.inl:109-112; under the mode [m] *)
Definition fge_z (m : fmode) (a b : f32) : bool := fge (fin32 m a) (fin32 m b).
(* >: kernels_specialized.inl:1513, 1604; under the mode [m] *)
Definition fgt_z (m : fmode) (a b : f32) : bool := fgt (fin32 m a) (fin32 m b).
(* std::round, std::trunc, the conversions to integer: a subnormal operand gives a zero in every mode; |x| is a bit operation *)

(** bf16 operators: include/piquant.hpp:97-124 (the conversions are integer code; VCVTNEPS2BF16 ignores MXCSR) *)
Definition bf16_add_z (m : fmode) (a b : bf16) : bf16 := bf16_of_f32 (fadd_z m (f32_of_bf16 a) (f32_of_bf16 b)).
(* include/piquant.hpp:111-117 operator *, *=; under the mode [m] *)
Definition bf16_mul_z (m : fmode) (a b : bf16) : bf16 := bf16_of_f32 (fmul_z m (f32_of_bf16 a) (f32_of_bf16 b)).

(** vector operations *)
Definition mul_ps_z (m : fmode) := map2 (fmul_z m).
(* _mm*_add_ps: kernels_specialized.inl:66-69, 109-112; under the mode [m] *)
Definition add_ps_z (m : fmode) := map2 (fadd_z m).
(* _mm*_cmp_ps(a, b, _CMP_GE_OQ) / _mm_cmpge_ps; under the mode [m] *)
Definition cmpge_ps_z (m : fmode) := map2 (fge_z m).
(* _mm512_fmadd_ps: kernels_specialized.inl:1236-1243, 1360-1362; under the mode [m] *)
Definition fmadd_ps_z (m : fmode) : list f32 -> list f32 -> list f32 -> list f32 :=
  fix fmadd (a b c : list f32) : list f32 :=
  match a, b, c with
  | x :: a', y :: b', z :: c' => ffma_z m x y z :: fmadd a' b' c'
  | _, _, _ => []
  end.

(** ** Quantization kernels *)
(** ** Scalar quantization steps *)
(* kernels_specialized.inl:178-182 (and the peel loops 52-56, 95-99, 133-137, 240-244, 278-282, the tail 315-319, the
   lambdas 467-471, 636-640, 705-711): int32 arithmetic; [inv] = 1.0f / scale *)
Definition q_nearest_i32_z (m : fmode) (mx : Z) (inv : f32) (zp : Z) (x : f32) : res Z :=
  q <- f32_to_i32 (fround (fmul_z m x inv)) ;;
  q32 <- i32 (q + zp) ;;
  Ok (clampZ 0 mx q32).
(* quantize.inl:22-26: int64 arithmetic *)
Definition q_nearest_i64_z (m : fmode) (mx : Z) (inv : f32) (zp : Z) (x : f32) : res Z :=
  q <- f32_to_i64 (fround (fmul_z m x inv)) ;;
  integral <- i64 (q + zp) ;;
  Ok (clampZ 0 mx integral).
(* quantize.inl:9-19 *)
Definition q_stochastic_z (m : fmode) (mx : Z) (thr inv : f32) (zp : Z) (x : f32) : res Z :=
  let rnd := fmul_z m x inv in
  let dec := fabs (fsub_z m rnd (ftrunc rnd)) in
  let adj := if flt_z m thr dec then f_one else f_zero in
  let adj := if flt_z m rnd f_zero then fmul_z m f_neg_one adj else adj in
  let rnd := fadd_z m (ftrunc rnd) adj in
  q <- f32_to_i64 rnd ;;
  integral <- i64 (q + zp) ;;
  Ok (clampZ 0 mx integral).
(* quantize.inl:28-34 *)
Definition quant_step_scalar_z (m : fmode) (rm : round_mode_t) (mx : Z) (thr inv : f32) (zp : Z) (x : f32) : res Z :=
  match rm with
  | RM_STOCHASTIC => q_stochastic_z m mx thr inv zp x
  | RM_NEAREST => q_nearest_i64_z m mx inv zp x
  end.
(** ** x86 vector lanes *)
(* kernels_specialized.inl:62-77 etc.: product, blend of -0.5/+0.5 on prod >= 0, add, cvttps, add zp *)
Definition vround_z (m : fmode) (n : nat) (inv : f32) (zp : Z) (xf : list f32) : list Z :=
  let prod := mul_ps_z m xf (set1 n inv) in
  let adj := add_ps_z m prod (blendv (set1 n f_nhalf) (set1 n f_half) (cmpge_ps_z m prod (set1 n f_zero))) in
  add_epi32 (cvttps_epi32 adj) (set1 n zp).
(** ** uint8 blocks *)
(* kernels_specialized.inl:57-82: four groups of 16 lanes, streamed *)
Definition blk_u8_avx512_groups_z (m : fmode) (inv : f32) (zp : Z) (groups : list (list f32)) : mem :=
  flat_map (fun xf => cvtusepi32_epi8 (vclamp_maxmin 16 255 (vround_z m 16 inv zp xf))) groups.
(* kernels_specialized.inl:57-82, the loads 58-61; under the mode [m] *)
Definition blk_f32_u8_avx512_z (m : fmode) (inv : f32) (zp : Z) (b : mem) : mem :=
  blk_u8_avx512_groups_z m inv zp (map (fun k => loadu_ps (sub (4 * (16 * k)) 64 b)) [0; 1; 2; 3]%nat).
(* 202-227 *)
Definition blk_bf16_u8_avx512_z (m : fmode) (inv : f32) (zp : Z) (b : mem) : mem :=
  blk_u8_avx512_groups_z m inv zp (map (fun k => widen 16 (sub (2 * (16 * k)) 32 b)) [0; 1; 2; 3]%nat).
(* 100-124 / 245-269 *)
Definition blk_u8_avx2_z (m : fmode) (inv : f32) (zp : Z) (xf0 xf1 xf2 xf3 : list f32) : mem :=
  let q xf := vclamp_maxmin 8 255 (vround_z m 8 inv zp xf) in
  let packed := permute4x64 (packus_epi16_256 (packus_epi32_256 (q xf0) (q xf1)) (packus_epi32_256 (q xf2) (q xf3))) 0xd8 in
  shuffle_epi8_256 packed shuffle_matrix.
(* kernels_specialized.inl:100-124, the loads 101-104; under the mode [m] *)
Definition blk_f32_u8_avx2_z (m : fmode) (inv : f32) (zp : Z) (b : mem) : mem :=
  let l k := loadu_ps (sub (4 * (8 * k)) 32 b) in blk_u8_avx2_z m inv zp (l 0%nat) (l 1%nat) (l 2%nat) (l 3%nat).
(* kernels_specialized.inl:245-269, the loads 246-253; under the mode [m] *)
Definition blk_bf16_u8_avx2_z (m : fmode) (inv : f32) (zp : Z) (b : mem) : mem :=
  let l k := widen 8 (sub (2 * (8 * k)) 16 b) in blk_u8_avx2_z m inv zp (l 0%nat) (l 1%nat) (l 2%nat) (l 3%nat).
(* 138-159: SSE, 16 elements *)
Definition blk_u8_sse_z (m : fmode) (inv : f32) (zp : Z) (xf0 xf1 xf2 xf3 : list f32) : mem :=
  let q xf := vclamp_maxmin 4 255 (vround_z m 4 inv zp xf) in
  packus_epi16 (packus_epi32 (q xf0) (q xf1)) (packus_epi32 (q xf2) (q xf3)).
(* kernels_specialized.inl:138-159, the loads 139-142; under the mode [m] *)
Definition blk_f32_u8_sse_z (m : fmode) (inv : f32) (zp : Z) (b : mem) : mem :=
  let l k := loadu_ps (sub (4 * (4 * k)) 16 b) in blk_u8_sse_z m inv zp (l 0%nat) (l 1%nat) (l 2%nat) (l 3%nat).
(* kernels_specialized.inl:283-311; under the mode [m] *)
Definition blk_bf16_u8_sse_z (m : fmode) (inv : f32) (zp : Z) (b : mem) : mem :=
  let v k := load_u16 (sub (2 * (8 * k)) 16 b) in
  blk_u8_sse_z m inv zp (bf16lo (v 0%nat)) (bf16hi (v 0%nat)) (bf16lo (v 1%nat)) (bf16hi (v 1%nat)) ++
  blk_u8_sse_z m inv zp (bf16lo (v 2%nat)) (bf16hi (v 2%nat)) (bf16lo (v 3%nat)) (bf16hi (v 3%nat)).
(* kernels_specialized.inl:163-176; under the mode [m] *)
Definition blk_f32_u8_neon_z (m : fmode) (inv : f32) (zp : Z) (b : mem) : mem :=
  let xi k := map (fun x => wrap32 (x + zp)) (map vcvta (mul_ps_z m (loadu_ps (sub (4 * (4 * k)) 16 b)) (set1 4 inv))) in
  let pack16_00 := map sat_i16 (xi 0%nat) ++ map sat_i16 (xi 1%nat) in
  let pack16_01 := map sat_i16 (xi 2%nat) ++ map sat_i16 (xi 3%nat) in
  map sat_u8 pack16_00 ++ map sat_u8 pack16_01.
(* 342-362 *)
Definition blk_u4_avx512_z (m : fmode) (inv : f32) (zp : Z) (xf : list f32) : mem :=
  nibble_pack shuf_even512 shuf_odd512 (cvtusepi32_epi8 (vclamp_minmax 16 15 (vround_z m 16 inv zp xf))).
(* 381-409 *)
Definition blk_u4_avx2_z (m : fmode) (inv : f32) (zp : Z) (xf0 xf1 : list f32) : mem :=
  let q xf := vclamp_minmax 8 15 (vround_z m 8 inv zp xf) in
  let qi0 := q xf0 in let qi1 := q xf1 in
  let q16_0 := packs_epi32 (firstn 4 qi0) (skipn 4 qi0) in
  let q16_1 := packs_epi32 (firstn 4 qi1) (skipn 4 qi1) in
  nibble_pack shuf_even shuf_odd (packus_epi16 q16_0 q16_1).
(* 429-465 *)
Definition blk_u4_sse_z (m : fmode) (inv : f32) (zp : Z) (xf0 xf1 xf2 xf3 : list f32) : mem :=
  let q xf := vclamp_maxmin 4 15 (vround_z m 4 inv zp xf) in
  nibble_pack shuf_even shuf_odd (packus_epi16 (packs_epi32 (q xf0) (q xf1)) (packs_epi32 (q xf2) (q xf3))).
(* kernels_specialized.inl:342-362; under the mode [m] *)
Definition blk_f32_u4_avx512_z (m : fmode) (inv : f32) (zp : Z) (b : mem) : mem := blk_u4_avx512_z m inv zp (loadu_ps b).
(* kernels_specialized.inl:381-409; under the mode [m] *)
Definition blk_f32_u4_avx2_z (m : fmode) (inv : f32) (zp : Z) (b : mem) : mem :=
  blk_u4_avx2_z m inv zp (loadu_ps (sub 0 32 b)) (loadu_ps (sub 32 32 b)).
(* kernels_specialized.inl:429-465; under the mode [m] *)
Definition blk_f32_u4_sse_z (m : fmode) (inv : f32) (zp : Z) (b : mem) : mem :=
  let l k := loadu_ps (sub (4 * (4 * k)) 16 b) in blk_u4_sse_z m inv zp (l 0%nat) (l 1%nat) (l 2%nat) (l 3%nat).
(* 505-529, 548-576, 595-634 (two 8-byte stores) *)
Definition blk_bf16_u4_avx512_z (m : fmode) (inv : f32) (zp : Z) (b : mem) : mem := blk_u4_avx512_z m inv zp (widen 16 b).
(* kernels_specialized.inl:548-576; under the mode [m] *)
Definition blk_bf16_u4_avx2_z (m : fmode) (inv : f32) (zp : Z) (b : mem) : mem :=
  blk_u4_avx2_z m inv zp (widen 8 (sub 0 16 b)) (widen 8 (sub 16 16 b)).
(* kernels_specialized.inl:595-634; under the mode [m] *)
Definition blk_bf16_u4_sse_z (m : fmode) (inv : f32) (zp : Z) (b : mem) : mem :=
  let v k := load_u16 (sub (2 * (8 * k)) 16 b) in
  blk_u4_sse_z m inv zp (bf16lo (v 0%nat)) (bf16hi (v 0%nat)) (bf16lo (v 1%nat)) (bf16hi (v 1%nat)) ++
  blk_u4_sse_z m inv zp (bf16lo (v 2%nat)) (bf16hi (v 2%nat)) (bf16lo (v 3%nat)) (bf16hi (v 3%nat)).
(* kernels_specialized.inl:672-701; under the mode [m] *)
Definition blk_bf16_u2_avx512_z (m : fmode) (inv : f32) (zp : Z) (b : mem) : mem :=
  let qi32 := vclamp_minmax 16 3 (vround_z m 16 inv zp (widen 16 b)) in
  let u8 := and_si (cvtusepi32_epi8 qi32) (set1 16 3) in
  let pair_sums := maddubs_epi16 u8 w0146 in
  let bytes16 := hadd_epi16 pair_sums (repeat 0 8) in
  firstn 4 (packus_epi16 bytes16 (repeat 0 8)).
(** ** Kernels *)
(* kernels_specialized.inl:35-183 *)
Definition quant_f32_to_uint8_nearest_z (m : fmode) (A : arch) (oaddr : Z) (numel : nat) (scale : f32) (zp : Z) : list action :=
  let inv := fdiv_z m f_one scale in
  let sc := act_u8 DT_F32 (q_nearest_i32_z m 255 inv zp) in
  fst (seq_loops numel (
    match A with
    | AVX512F | AVX512BF16 =>
        [ (peel_cond oaddr 15 numel, 1%nat, sc);
          (blk_cond numel 64, 64%nat, act_block_stream oaddr 16 DT_F32 64 64 (blk_f32_u8_avx512_z m inv zp)) ]
    | AVX2 =>
        [ (peel_cond oaddr 31 numel, 1%nat, sc);
          (blk_cond numel 32, 32%nat, act_block_stream oaddr 32 DT_F32 32 32 (blk_f32_u8_avx2_z m inv zp)) ]
    | SSE42 =>
        [ (peel_cond oaddr 15 numel, 1%nat, sc);
          (blk_cond numel 16, 16%nat, act_block_stream oaddr 16 DT_F32 16 16 (blk_f32_u8_sse_z m inv zp)) ]
    | NEON =>
        [ (blk_cond numel 16, 16%nat, act_block DT_F32 16 16 id_idx (blk_f32_u8_neon_z m inv zp)) ]
    | GENERIC => []
    end ++ [ (blk_cond numel 1, 1%nat, sc) ])).
(* 185-320 *)
Definition quant_bf16_to_uint8_nearest_z (m : fmode) (A : arch) (oaddr : Z) (numel : nat) (scale : f32) (zp : Z) : list action :=
  let inv := fdiv_z m f_one scale in
  let sc := act_u8 DT_BF16 (q_nearest_i32_z m 255 inv zp) in
  fst (seq_loops numel (
    match A with
    | AVX512F | AVX512BF16 =>
        [ (blk_cond numel 64, 64%nat, act_block DT_BF16 64 64 id_idx (blk_bf16_u8_avx512_z m inv zp)) ]
    | AVX2 =>
        [ (peel_cond oaddr 31 numel, 1%nat, sc);
          (blk_cond numel 32, 32%nat, act_block_stream oaddr 32 DT_BF16 32 32 (blk_bf16_u8_avx2_z m inv zp)) ]
    | SSE42 =>
        [ (peel_cond oaddr 15 numel, 1%nat, sc);
          (blk_cond numel 32, 32%nat, act_block DT_BF16 32 32 id_idx (blk_bf16_u8_sse_z m inv zp)) ]
    | NEON | GENERIC => []
    end ++ [ (blk_cond numel 1, 1%nat, sc) ])).
(* 322-483 *)
Definition quant_f32_to_uint4_nearest_z (m : fmode) (A : arch) (numel : nat) (scale : f32) (zp : Z) : list action :=
  let inv := fdiv_z m f_one scale in
  let q := q_nearest_i32_z m 15 inv zp in
  u4_finish DT_F32 q numel (seq_loops numel (
    match A with
    | AVX512F | AVX512BF16 => [ (blk_cond numel 16, 16%nat, act_block DT_F32 16 8 half_idx (blk_f32_u4_avx512_z m inv zp)) ]
    | AVX2 => [ (blk_cond numel 16, 16%nat, act_block DT_F32 16 8 half_idx (blk_f32_u4_avx2_z m inv zp)) ]
    | SSE42 => [ (blk_cond numel 16, 16%nat, act_block DT_F32 16 8 half_idx (blk_f32_u4_sse_z m inv zp)) ]
    | NEON | GENERIC => []
    end ++ [ (blk_cond numel 2, 2%nat, act_u4_pair DT_F32 q) ])).
(* 485-652 *)
Definition quant_bf16_to_uint4_nearest_z (m : fmode) (A : arch) (numel : nat) (scale : f32) (zp : Z) : list action :=
  let inv := fdiv_z m f_one scale in
  let q := q_nearest_i32_z m 15 inv zp in
  u4_finish DT_BF16 q numel (seq_loops numel (
    match A with
    | AVX512F | AVX512BF16 => [ (blk_cond numel 16, 16%nat, act_block DT_BF16 16 8 half_idx (blk_bf16_u4_avx512_z m inv zp)) ]
    | AVX2 => [ (blk_cond numel 16, 16%nat, act_block DT_BF16 16 8 half_idx (blk_bf16_u4_avx2_z m inv zp)) ]
    | SSE42 => [ (blk_cond numel 32, 32%nat, act_block DT_BF16 32 16 half_idx (blk_bf16_u4_sse_z m inv zp)) ]
    | NEON | GENERIC => []
    end ++ [ (blk_cond numel 2, 2%nat, act_u4_pair DT_BF16 q) ])).
(* 654-727 *)
Definition quant_bf16_to_uint2_nearest_z (m : fmode) (A : arch) (numel : nat) (scale : f32) (zp : Z) : list action :=
  let inv := fdiv_z m f_one scale in
  let q := q_nearest_i32_z m 3 inv zp in
  u2_finish DT_BF16 q (q f_zero) numel (seq_loops numel (
    match A with
    | AVX512F | AVX512BF16 => [ (blk_cond numel 16, 16%nat, act_block DT_BF16 16 4 quarter_idx (blk_bf16_u2_avx512_z m inv zp)) ]
    | _ => []
    end ++ [ (blk_cond numel 4, 4%nat, act_u2_quad DT_BF16 q) ])).
(** quantize.inl:101-149 quant_generic<In, Out, RoundMode>: specialised kernels take the zero point as int32
    (implicit conversion from int64). *)
Definition quant_generic_z (m : fmode) (A : arch) (din dout : dtype) (rm : round_mode_t)
  (oaddr : Z) (numel : nat) (scale thr : f32) (zp : Z) : list action :=
  let generic :=
    let q := quant_step_scalar_z m rm (limit_max dout) thr (fdiv_z m f_one scale) zp in
    match dout with
    | DT_UINT4 => quant_uint4 din q numel
    | DT_UINT2 => quant_uint2 din q numel
    | _ => quant_plain din q numel
    end in
  match din, dout, rm with
  | DT_F32, DT_UINT8, RM_NEAREST => quant_f32_to_uint8_nearest_z m A oaddr numel scale (wrap32 zp)
  | DT_F32, DT_UINT4, RM_NEAREST => quant_f32_to_uint4_nearest_z m A numel scale (wrap32 zp)
  | DT_BF16, DT_UINT8, RM_NEAREST => quant_bf16_to_uint8_nearest_z m A oaddr numel scale (wrap32 zp)
  | DT_BF16, DT_UINT4, RM_NEAREST => quant_bf16_to_uint4_nearest_z m A numel scale (wrap32 zp)
  | DT_BF16, DT_UINT2, RM_NEAREST => quant_bf16_to_uint2_nearest_z m A numel scale (wrap32 zp)
  | _, _, _ => generic
  end.

(** ** Dequantization kernels *)
(** ** Scalar steps: code -> float *)
(* kernels_specialized.inl:922, 978, 1168-1170, 1290-1292:
   static_cast<fp32_t>(static_cast<std::int32_t>(x) - zp)*scale *)
Definition dq_i32_z (m : fmode) (scale : f32) (zp : Z) (q : Z) : res f32 :=
  d <- i32 (q - zp) ;; Ok (fmul_z m (f32_of_Z d) scale).
(* dequantize.inl:8-11 with Out = fp32_t: static_cast<fp32_t>(static_cast<std::int64_t>(x) - zp)*scale *)
Definition dq_i64_z (m : fmode) (scale : f32) (zp : Z) (q : Z) : res f32 :=
  d <- i64 (q - zp) ;; Ok (fmul_z m (f32_of_Z d) scale).
(* kernels_specialized.inl:1387-1389: (static_cast<fp32_t>(q) - zp) * scale *)
Definition dq_sub_z (m : fmode) (scale : f32) (zp : Z) (q : Z) : res f32 :=
  Ok (fmul_z m (fsub_z m (f32_of_Z q) (f32_of_Z zp)) scale).
(* dequantize.inl:8-11 with Out = bfp16_t: bfp16_t(static_cast<fp32_t>(int64)) * bfp16_t(scale), a bf16 product *)
Definition dq_i64_bf16_z (m : fmode) (scale : f32) (zp : Z) (q : Z) : res bf16 :=
  d <- i64 (q - zp) ;; Ok (bf16_mul_z m (bf16_of_f32 (f32_of_Z d)) (bf16_of_f32 scale)).
(** ** Storing one element: o[i] = v, o[i] += v ; [old] are the bytes of o[i] *)
Definition put_f32_z (m : fmode) (op : reduce_op) (v : f32) (old : mem) : mem :=
  le_bytes 4 (bits_of_f32 (match op with RO_SET => v | RO_ADD => fadd_z m (ld_f32 old) v end)).
(* o[i] = dq converts to bfp16_t; o[i] += dq is bfp16_t::operator+= on bfp16_t(dq): piquant.hpp:97-103 *)
Definition put_bf16v_z (m : fmode) (op : reduce_op) (v : bf16) (old : mem) : mem :=
  le_bytes 2 (match op with RO_SET => v | RO_ADD => bf16_add_z m (le_val old) v end).
(* dequantize.inl and kernels_specialized.inl:977-981: o[i] = / += a float, converted by bfp16_t(fp32_t), piquant.hpp:86-90; under the mode [m] *)
Definition put_bf16_z (m : fmode) (op : reduce_op) (v : f32) (old : mem) : mem := put_bf16v_z m op (bf16_of_f32 v) old.
(* mul_ps(cvtepi32_ps(sub_epi32(q, vzp)), vscale): 746-753, 782-797, 839-854, 905-908, 1028-1043, 1090-1105, 1133-1143 *)
Definition lanes_mul_z (m : fmode) (n : nat) (scale : f32) (zp : Z) (q : list Z) : list f32 :=
  mul_ps_z m (cvtepi32_ps (sub_epi32 q (set1 n zp))) (set1 n scale).
(* kernels_specialized.inl:1204, 1324; under the mode [m] *)
Definition vbias_z (m : fmode) (scale : f32) (zp : Z) : f32 := fmul_z m (fneg (f32_of_Z zp)) scale.
(* kernels_specialized.inl:1236-1243, 1360-1362; under the mode [m] *)
Definition lanes_fma_z (m : fmode) (n : nat) (scale : f32) (zp : Z) (q : list Z) : list f32 :=
  fmadd_ps_z m (cvtepi32_ps q) (set1 n scale) (set1 n (vbias_z m scale zp)).
(* ADD: add_ps(f, loadu_ps(o)), then storeu_ps *)
Definition reg_f32_z (m : fmode) (op : reduce_op) (lanes : list Z -> list f32) (q : list Z) (o : mem) : mem :=
  store_ps (match op with RO_SET => lanes q | RO_ADD => add_ps_z m (lanes q) (loadu_ps o) end).
(* ADD: add_ps(f, castps(slli(cvtepu16(o), 16))) or cvtpbh_ps: 954-966, 1244-1264, 1328-1343 *)
Definition reg_bf16_z (m : fmode) (A : arch) (op : reduce_op) (lanes : list Z -> list f32) (q : list Z) (o : mem) : mem :=
  store_u16 (map (cvt_ps_to_bf16 A)
    (match op with RO_SET => lanes q | RO_ADD => add_ps_z m (lanes q) (slli16_castps (load_u16 o)) end)).
(** ** Kernels *)
(* kernels_specialized.inl:729-926 *)
Definition dequant_uint8_to_f32_z (m : fmode) (A : arch) (op : reduce_op) (numel : nat) (scale : f32) (zp : Z) : list action :=
  let blk n ln regs := (blk_cond numel n, n, dact_block 4 n n id_idx (fun b o => emit (4 * ln) (reg_f32_z m op (lanes_mul_z m ln scale zp)) (regs b) o)) in
  fst (seq_loops numel (
    match A with
    | AVX512F | AVX512BF16 => [ blk 64%nat 16%nat regs_u8_avx512 ]
    | AVX2 => [ blk 64%nat 8%nat regs_u8_avx2 ]
    | SSE42 => [ blk 64%nat 4%nat regs_u8_sse ]
    | NEON => [ blk 16%nat 4%nat regs_u8_neon ]
    | GENERIC => []
    end ++ [ (blk_cond numel 1, 1%nat, dact_u8 4 (dq_i32_z m scale zp) (put_f32_z m op)) ])).
(* 928-982 *)
Definition dequant_uint8_to_bf16_z (m : fmode) (A : arch) (op : reduce_op) (numel : nat) (scale : f32) (zp : Z) : list action :=
  fst (seq_loops numel (
    match A with
    | AVX512F | AVX512BF16 =>
        [ (blk_cond numel 64, 64%nat, dact_block 2 64 64 id_idx (fun b o => emit 32 (reg_bf16_z m A op (lanes_mul_z m 16 scale zp)) (regs_u8_avx512 b) o)) ]
    | _ => []
    end ++ [ (blk_cond numel 1, 1%nat, dact_u8 2 (dq_i32_z m scale zp) (put_bf16_z m op)) ])).
(* 984-1189 *)
Definition dequant_uint4_to_f32_z (m : fmode) (A : arch) (op : reduce_op) (numel : nat) (scale : f32) (zp : Z) : list action :=
  let blk n hn ln regs := (blk_cond numel n, n, dact_block 4 hn n half_idx (fun b o => emit (4 * ln) (reg_f32_z m op (lanes_mul_z m ln scale zp)) (regs b) o)) in
  du4_finish 4 (dq_i32_z m scale zp) (put_f32_z m op) numel (seq_loops numel (
    match A with
    | AVX512F | AVX512BF16 => [ blk 128%nat 64%nat 16%nat regs_u4_avx512 ]
    | AVX2 => [ blk 64%nat 32%nat 8%nat regs_u4_avx2 ]
    | SSE42 => [ blk 32%nat 16%nat 4%nat regs_u4_sse ]
    | NEON | GENERIC => []
    end ++ [ (blk_cond numel 2, 2%nat, dact_u4_pair 4 (dq_i32_z m scale zp) (put_f32_z m op)) ])).
(* 1191-1311 *)
Definition dequant_uint4_to_bf16_z (m : fmode) (A : arch) (op : reduce_op) (numel : nat) (scale : f32) (zp : Z) : list action :=
  du4_finish 2 (dq_i32_z m scale zp) (put_bf16_z m op) numel (seq_loops numel (
    match A with
    | AVX512F | AVX512BF16 =>
        [ (blk_cond numel 128, 128%nat, dact_block 2 64 128 half_idx (fun b o => emit 32 (reg_bf16_z m A op (lanes_fma_z m 16 scale zp)) (regs_u4_avx512 b) o)) ]
    | _ => []
    end ++ [ (blk_cond numel 2, 2%nat, dact_u4_pair 2 (dq_i32_z m scale zp) (put_bf16_z m op)) ])).
(* 1313-1416: the tail runs only if (i < numel) *)
Definition dequant_uint2_to_bf16_z (m : fmode) (A : arch) (op : reduce_op) (numel : nat) (scale : f32) (zp : Z) : list action :=
  let st := seq_loops numel (
    match A with
    | AVX512F | AVX512BF16 =>
        [ (blk_cond numel 256, 256%nat, dact_block 2 64 256 quarter_idx (fun b o => emit 32 (reg_bf16_z m A op (lanes_fma_z m 16 scale zp)) (regs_u2_avx512 b) o)) ]
    | _ => []
    end ++ [ (blk_cond numel 4, 4%nat, dact_u2 2 (dq_sub_z m scale zp) (put_bf16_z m op) 4) ]) in
  fst st ++ (if Nat.ltb (snd st) numel then [dact_u2 2 (dq_sub_z m scale zp) (put_bf16_z m op) (numel - snd st) (snd st)] else []).
(* dequantize.inl:42-87 with Out = fp32_t (the only instantiation that reaches it): after the loop the byte
   x[i>>2] is read unconditionally and the tail always stores (the ReduceOp is ignored there) *)
Definition dequant_uint2_f32_z (m : fmode) (op : reduce_op) (numel : nat) (scale : f32) (zp : Z) : list action :=
  let st := seq_loops numel [ (blk_cond numel 4, 4%nat, dact_u2 4 (dq_i64_z m scale zp) (put_f32_z m op) 4) ] in
  fst st ++ [dact_u2 4 (dq_i64_z m scale zp) (put_f32_z m RO_SET) (Nat.modulo numel 4) (snd st)].
(** dequantize.inl:89-140 dequant_generic<In, Out, ReduceOp>.  The generic uint4 loop (13-40) and the generic loop
    (132-139) are never reached: all their (In, Out) pairs go to the specialised kernels above. *)
Definition dequant_generic_z (m : fmode) (A : arch) (din dout : dtype) (op : reduce_op) (numel : nat) (scale : f32) (zp : Z) : list action :=
  match din, dout with
  | DT_UINT8, DT_F32 => dequant_uint8_to_f32_z m A op numel scale (wrap32 zp)
  | DT_UINT4, DT_F32 => dequant_uint4_to_f32_z m A op numel scale (wrap32 zp)
  | DT_UINT8, DT_BF16 => dequant_uint8_to_bf16_z m A op numel scale (wrap32 zp)
  | DT_UINT4, DT_BF16 => dequant_uint4_to_bf16_z m A op numel scale (wrap32 zp)
  | DT_UINT2, DT_BF16 => dequant_uint2_to_bf16_z m A op numel scale (wrap32 zp)
  | DT_UINT2, DT_F32 => dequant_uint2_f32_z m op numel scale zp
  | _, _ => []  (* not instantiated *)
  end.
(** ** kernels.inl:30-52 requant_generic<In, Out, RoundMode, ReduceOp>: [d] = In (float type), [dq] = Out (quantized type) *)
Definition requant_elem_z (m : fmode) (d dq : dtype) (rm : round_mode_t) (op : reduce_op) (scale thr : f32) (zp : Z) (b old : mem) : res mem :=
  q <- quant_step_scalar_z m rm (limit_max dq) thr (fdiv_z m f_one scale) zp (ld d b) ;;
  match d with
  | DT_BF16 => v <- dq_i64_bf16_z m scale zp q ;; Ok (put_bf16v_z m op v old)
  | _ => v <- dq_i64_z m scale zp q ;; Ok (put_f32_z m op v old)
  end.
(* kernels.inl:30-52, one iteration of the loop; under the mode [m] *)
Definition ract_z (m : fmode) (d dq : dtype) (rm : round_mode_t) (op : reduce_op) (scale thr : f32) (zp : Z) (i : nat) : action :=
  mk_action (esize d * i) (esize d) (esize d * i) (esize d) (requant_elem_z m d dq rm op scale thr zp).
(* kernels.inl:30-52, the loop; under the mode [m] *)
Definition requant_generic_z (m : fmode) (d dq : dtype) (rm : round_mode_t) (op : reduce_op) (numel : nat) (scale thr : f32) (zp : Z) : list action :=
  fst (seq_loops numel [ (blk_cond numel 1, 1%nat, ract_z m d dq rm op scale thr zp) ]).

(** ** The calls; [md ti] is the mode of the worker that runs job [ti] *)
(* kernels.inl:151-196 *)
Definition call_kernel_z (m : fmode) (A : arch) (k : kernel_id) (oaddr : Z) (range : nat) (d : descriptor) : list action :=
  match k with
  | K_quant src dst rm => quant_generic_z m A src dst rm oaddr range (d_scale d) (d_threshold d) (d_zp d)
  | K_dequant inn outt op => dequant_generic_z m A inn outt op range (d_scale d) (d_zp d)
  | K_requant src dst rm op => requant_generic_z m src dst rm op range (d_scale d) (d_threshold d) (d_zp d)
  end.
(* piquant.cpp:159-176 *)
Definition job_entry_z (m : fmode) (A : arch) (oaddr : Z) (d : descriptor) (ti tc : Z) : res (list action) :=
  p <- partition_row d ti tc ;;
  match p with
  | None => Ok []
  | Some (o, n) =>
      let si := bit_size (d_in d) in
      let so := match d_type d with CMD_QUANT_DEQUANT => si | _ => bit_size (d_out d) end in
      let di := byte_off si o in let do := byte_off so o in
      k <- select_kernel d ;;
      Ok (map (shift_action (Z.to_nat di) (Z.to_nat do)) (call_kernel_z m A k (oaddr + do) (Z.to_nat n) d))
  end.
(* piquant.cpp:197-211; the threshold was drawn by the calling thread: any float *)
Definition run_command_z (md : nat -> fmode) (A : arch) (num_threads : nat) (oaddr : Z) (d : descriptor) (thr : f32) : res (list (list action)) :=
  let d' := match d_rounding d with
            | RM_STOCHASTIC => mk_desc (d_type d) (d_numel d) (d_scale d) (d_zp d) (d_in d) (d_out d) (d_rounding d) (d_reducing d) thr
            | RM_NEAREST => d
            end in
  sequence (map (fun ti => job_entry_z (md ti) A oaddr d' (Z.of_nat ti) (Z.of_nat num_threads)) (seq 0 num_threads)).
(* piquant.cpp:277-308 *)
Definition quantize_z (md : nat -> fmode) (A : arch) (num_threads : nat) (oaddr : Z) (in_size : Z) (dt_in : dtype) (out_size : Z) (dt_out : dtype)
    (scale : f32) (zp : Z) (rm : round_mode_t) (thr : f32) : res (list (list action)) :=
  _a <- assert (negb (is_quant dt_in)) ;;
  _b <- assert (is_quant dt_out) ;;
  let ne := in_size / Z.of_nat (stride dt_in) in
  expected <- (if Nat.eqb (bit_size dt_out) 8 then Ok (wrap_u64 (ne * Z.of_nat (stride dt_out)))
               else p <- packed_numel ne dt_out ;; Ok (wrap_u64 (p * Z.of_nat (stride dt_out)))) ;;
  _c <- assert (out_size =? expected) ;;
  run_command_z md A num_threads oaddr (mk_desc CMD_QUANT (to_i64 ne) scale zp dt_in dt_out rm RO_SET f_zero) thr.
(* piquant.cpp:310-340 *)
Definition dequantize_z (md : nat -> fmode) (A : arch) (num_threads : nat) (oaddr : Z) (in_size : Z) (dt_in : dtype) (out_size : Z) (dt_out : dtype)
    (scale : f32) (zp : Z) (op : reduce_op) : res (list (list action)) :=
  _a <- assert (is_quant dt_in) ;;
  _b <- assert (negb (is_quant dt_out)) ;;
  let ne := out_size / Z.of_nat (stride dt_out) in
  p <- packed_numel ne dt_in ;;
  _c <- assert (in_size =? wrap_u64 (p * Z.of_nat (stride dt_in))) ;;
  run_command_z md A num_threads oaddr (mk_desc CMD_DEQUANT (to_i64 ne) scale zp dt_in dt_out RM_NEAREST op f_zero) f_zero.
(* piquant.cpp:342-369 *)
Definition quantize_dequantize_fused_z (md : nat -> fmode) (A : arch) (num_threads : nat) (oaddr : Z) (in_size : Z) (dt_in_out : dtype) (out_size : Z)
    (quant_type : dtype) (scale : f32) (zp : Z) (rm : round_mode_t) (op : reduce_op) (thr : f32) : res (list (list action)) :=
  _a <- assert (negb (is_quant dt_in_out)) ;;
  _b <- assert (is_quant quant_type) ;;
  _c <- assert (in_size =? out_size) ;;
  run_command_z md A num_threads oaddr
    (mk_desc CMD_QUANT_DEQUANT (to_i64 (in_size / Z.of_nat (stride dt_in_out))) scale zp dt_in_out quant_type rm op f_zero) thr.

(** ** compute_quant_config_from_data *)
Local Open Scope nat_scope.
(* minps/maxps, FMIN/FMAX: the selected operand, flushed like any operand *)
Definition minps_z (m : fmode) (a b : f32) : f32 := minps (fin32 m a) (fin32 m b).
(* _mm*_max_ps: kernels_specialized.inl:1418-1500, 1518-1600; under the mode [m] *)
Definition maxps_z (m : fmode) (a b : f32) : f32 := maxps (fin32 m a) (fin32 m b).
(* Arm FMIN/FMAX (vminq_f32/vmaxq_f32): a NaN operand gives a NaN, and -0 < +0.; under the mode [m] *)
Definition neon_min_z (m : fmode) (a b : f32) : f32 := neon_min (fin32 m a) (fin32 m b).
(* vmaxq_f32: kernels_specialized.inl:1499-1506; under the mode [m] *)
Definition neon_max_z (m : fmode) (a b : f32) : f32 := neon_max (fin32 m a) (fin32 m b).
(* kernels_specialized.inl:1508-1509 *)
Definition std_min4_z (m : fmode) (v : list f32) : f32 := fold_left (fun r x => if flt_z m x r then x else r) (tl v) (hd f_zero v).
(* kernels_specialized.inl:1509; under the mode [m] *)
Definition std_max4_z (m : fmode) (v : list f32) : f32 := fold_left (fun r x => if flt_z m r x then x else r) (tl v) (hd f_zero v).
(* kernels_specialized.inl:1511-1514, 1601-1605 *)
Definition sloop_z (m : fmode) : dtype -> nat -> mem -> nat -> nat -> f32 -> f32 -> res (f32 * f32) :=
  fix sloop (d : dtype) (fuel : nat) (x : mem) (numel i : nat) (mn mx : f32) : res (f32 * f32) :=
  match fuel with
  | O => UB
  | S f =>
    if i <? numel then
      xi <- ld_elem d x i ;;
      sloop d f x numel (i + 1) (if flt_z m xi mn then xi else mn) (if fgt_z m xi mx then xi else mx)
    else Ok (mn, mx)
  end.
(* kernels_specialized.inl:1418-1607: the loops of [vscan_of] *)
Definition vscan_of_z (m : fmode) (a : arch) (d : dtype) : option vscan :=
  match d, a with
  | DT_F32, (AVX512F | AVX512BF16) => Some (mk_vscan 63 63 16 16 (load_f32 16) (minps_z m) (maxps_z m) (reduce512 (minps_z m)) (reduce512 (maxps_z m)))
  | DT_F32, AVX2 => Some (mk_vscan 31 32 8 8 (load_f32 8) (minps_z m) (maxps_z m) (reduce256 (minps_z m)) (reduce256 (maxps_z m)))
  | DT_F32, SSE42 => Some (mk_vscan 15 16 4 4 (load_f32 4) (minps_z m) (maxps_z m) (reduce128 (minps_z m)) (reduce128 (maxps_z m)))
  | DT_F32, NEON => Some (mk_vscan 15 16 4 4 (load_f32 4) (neon_min_z m) (neon_max_z m) (std_min4_z m) (std_max4_z m))
  | DT_BF16, (AVX512F | AVX512BF16) => Some (mk_vscan 63 63 16 16 (load_bf16 16 16) (minps_z m) (maxps_z m) (reduce512 (minps_z m)) (reduce512 (maxps_z m)))
  | DT_BF16, AVX2 => Some (mk_vscan 31 32 8 8 (load_bf16 8 8) (minps_z m) (maxps_z m) (reduce256 (minps_z m)) (reduce256 (maxps_z m)))
  | DT_BF16, SSE42 => Some (mk_vscan 31 32 8 4 (load_bf16 8 4) (minps_z m) (maxps_z m) (reduce128 (minps_z m)) (reduce128 (maxps_z m)))
  | _, _ => None
  end.
(* find_min_max_f32 (1418-1516) and find_min_max_bf16 (1518-1607): [x] is the span, [numel] = in.size().; under the mode [m] *)
Definition find_min_max_z (m : fmode) (a : arch) (d : dtype) (x : mem) (numel : nat) : res (f32 * f32) :=
  match vscan_of_z m a d with
  | Some k =>
      r <- vloop k (S numel) x numel 0 (set1 (vs_lanes k) flt_max) (set1 (vs_lanes k) flt_lowest) ;;
      let '(i, (vmin, vmax)) := r in
      sloop_z m d (S numel) x numel i (vs_redmin k vmin) (vs_redmax k vmax)
  | None => sloop_z m d (S numel) x numel 0 flt_max flt_lowest
  end.
(* piquant.cpp:230-235 *)
Definition block_range_z (m : fmode) (a : arch) (d : dtype) (inm : mem) (blk : nat * nat) : res (f32 * f32) :=
  let '(start, stop) := blk in
  if stop - start =? 0 then Ok (f_zero, f_zero)
  else find_min_max_z m a d (slice (stride d * start) (stride d * (stop - start)) inm) (stop - start).
(* the rest runs in the calling thread: piquant.cpp:238-259.  cvtss2sd and cvtsd2ss flush their operand, the latter also its
   result (here: if it is subnormal after rounding, in both variants) *)
Definition f64_of_f32_z (m : fmode) (x : f32) : f64 := f64_of_f32 (fin32 m x).
(* a single narrowing: flushed when the rounded result is subnormal in both flushing modes (simplified for Arm; the two differ only for an
   exact result within half an ulp below 2^-126) *)
Definition f32_of_f64_z (m : fmode) (x : f64) : f32 := let r := f32_of_f64 (fin64 m x) in fout32 m r r.
(* double <, inside std::min, std::max: piquant.cpp:222-259 compute_quant_config; under the mode [m] *)
Definition dlt_z (m : fmode) (a b : f64) : bool := dlt (fin64 m a) (fin64 m b).
(* double ==: piquant.cpp:222-259 compute_quant_config; under the mode [m] *)
Definition deq_z (m : fmode) (a b : f64) : bool := deq (fin64 m a) (fin64 m b).
(* std::min(a, b) = (b < a) ? b : a;  std::max(a, b) = (a < b) ? b : a; under the mode [m] *)
Definition dmin_z (m : fmode) (a b : f64) : f64 := if dlt_z m b a then b else a.
(* std::max(double, double): piquant.cpp:222-259 compute_quant_config; under the mode [m] *)
Definition dmax_z (m : fmode) (a b : f64) : f64 := if dlt_z m a b then b else a.
(* double -: piquant.cpp:222-259 compute_quant_config; under the mode [m] *)
Definition dsub_z := op64 b64_minus.
(* double /: piquant.cpp:222-259 compute_quant_config; under the mode [m] *)
Definition ddiv_z := op64 b64_div.
(* piquant.cpp:238-244: the fold over the block results; under the mode [m] *)
Definition fold_range_z (m : fmode) (l : list (f32 * f32)) : f64 * f64 :=
  fold_left (fun r mm => (dmin_z m (fst r) (f64_of_f32_z m (fst mm)), dmax_z m (snd r) (f64_of_f32_z m (snd mm)))) l (dbl_max, dbl_lowest).
(* piquant.cpp:245-259, from the range to (scale, zero point).  [static_cast<std::int64_t>(zero_point)] on return is exact: the value is an integer already.; under the mode [m] *)
Definition params_of_range_z (m : fmode) (dq : dtype) (r_min r_max : f64) : res (f32 * Z) :=
  type_max <- compute_type_max dq ;;
  (let type_min := (if is_signed dq then - type_max - 1 else 0)%Z in
   if deq_z m r_max r_min then Ok (f_one, Z.shiftr (type_max + type_min) 1)
   else
     let q_min := f64_of_Z type_min in
     let q_max := f64_of_Z type_max in
     let scale := ddiv_z m (dsub_z m r_max r_min) (dsub_z m q_max q_min) in
     let zp := dsub_z m q_min (ddiv_z m r_min scale) in
     r <- f64_to_i64 (dround zp) ;;
     let zp' := dmax_z m (dmin_z m (f64_of_Z r) q_max) q_min in
     z <- f64_to_i64 zp' ;;
     Ok (f32_of_f64_z m scale, z)).
(* piquant.cpp:222-259; [mb] is the mode of the worker that scans a block, [mc] that of the calling thread *)
Definition compute_quant_config_z (mb : nat * nat -> fmode) (mc : fmode) (a : arch) (d dq : dtype) (inm : mem) (blocks : list (nat * nat)) : res (f32 * Z) :=
  rs <- sequence (map (fun b => block_range_z (mb b) a d inm b) blocks) ;;
  let r := fold_range_z mc rs in
  params_of_range_z mc dq (fst r) (snd r).
(* piquant.cpp:371-381 *)
Definition compute_quant_config_from_data_z (mb : nat * nat -> fmode) (mc : fmode) (a : arch) (d dq : dtype) (inm : mem) (blocks : list (nat * nat)) : res (f32 * Z) :=
  r <- compute_quant_config_z mb mc a d dq inm blocks ;;
  (_ <- assert (negb (fis_nan (fst r)) && fge_z mc (fst r) f_zero) ;; Ok r).
