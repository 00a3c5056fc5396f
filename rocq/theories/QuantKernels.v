(** QuantKernels.v -- the quantization kernels (src/kernels/quantize.inl and the quant_* functions of
    src/kernels/kernels_specialized.inl) as action lists. *)
From Coq Require Import ZArith List Lia Bool.
From Verif Require Import Base Floats Simd Dtypes.
Import ListNotations.
Local Open Scope Z_scope.

(** ** Element loads *)
Definition ld_f32 (b : mem) : f32 := f32_of_bits (le_val b).
(* static_cast<fp32_t>(bfp16_t), include/piquant.hpp:95 *)
Definition ld_bf16 (b : mem) : f32 := f32_of_bf16 (le_val b).
(* sizeof of the element type behind the pointers x, o of a kernel (quantize.inl:132-133) *)
Definition esize (d : dtype) : nat := stride d.
(* x[i] read as the type In and converted to float (quantize.inl:10, 23) *)
Definition ld (d : dtype) : mem -> f32 := match d with DT_BF16 => ld_bf16 | _ => ld_f32 end.

(** ** Scalar quantization steps *)
(* kernels_specialized.inl:178-182 (and the peel loops 52-56, 95-99, 133-137, 240-244, 278-282, the tail 315-319, the
   lambdas 467-471, 636-640, 705-711): int32 arithmetic; [inv] = 1.0f / scale *)
Definition q_nearest_i32 (mx : Z) (inv : f32) (zp : Z) (x : f32) : res Z :=
  q <- f32_to_i32 (fround (fmul x inv)) ;;
  q32 <- i32 (q + zp) ;;
  Ok (clampZ 0 mx q32).
(* quantize.inl:22-26: int64 arithmetic *)
Definition q_nearest_i64 (mx : Z) (inv : f32) (zp : Z) (x : f32) : res Z :=
  q <- f32_to_i64 (fround (fmul x inv)) ;;
  integral <- i64 (q + zp) ;;
  Ok (clampZ 0 mx integral).
(* quantize.inl:9-19 *)
Definition q_stochastic (mx : Z) (thr inv : f32) (zp : Z) (x : f32) : res Z :=
  let rnd := fmul x inv in
  let dec := fabs (fsub rnd (ftrunc rnd)) in
  let adj := if flt thr dec then f_one else f_zero in
  let adj := if flt rnd f_zero then fmul f_neg_one adj else adj in
  let rnd := fadd (ftrunc rnd) adj in
  q <- f32_to_i64 rnd ;;
  integral <- i64 (q + zp) ;;
  Ok (clampZ 0 mx integral).
(* quantize.inl:28-34 *)
Definition quant_step_scalar (rm : round_mode_t) (mx : Z) (thr inv : f32) (zp : Z) (x : f32) : res Z :=
  match rm with
  | RM_STOCHASTIC => q_stochastic mx thr inv zp x
  | RM_NEAREST => q_nearest_i64 mx inv zp x
  end.

(** ** One scalar loop iteration, for an element quantizer [q] *)
(* o[i] = q(x[i]) : quantize.inl:147-148, kernels_specialized.inl:178-182, 315-319 *)
Definition act_u8 (d : dtype) (q : f32 -> res Z) (i : nat) : action :=
  mk_action (esize d * i) (esize d) i 1 (fun b _ => v <- q (ld d b) ;; Ok [v]).
(* quantize.inl:36-41 quant_step_packed(a, b); kernels_specialized.inl:468-472, 638-642 *)
Definition pack2 (qa qb : Z) : Z := Z.lor (Z.land qa 15) (Z.shiftl (Z.land qb 15) 4).
(* quantize.inl:43-50; kernels_specialized.inl:704-710 *)
Definition pack4 (qa qb qc qd : Z) : Z :=
  Z.lor (Z.lor (Z.lor (Z.land qa 3) (Z.shiftl (Z.land qb 3) 2)) (Z.shiftl (Z.land qc 3) 4)) (Z.shiftl (Z.land qd 3) 6).
(* quantize.inl:62-66; kernels_specialized.inl:474-478, 643-647 : o[i>>1] from x[i], x[i+1] *)
Definition act_u4_pair (d : dtype) (q : f32 -> res Z) (i : nat) : action :=
  mk_action (esize d * i) (2 * esize d) (Nat.div2 i) 1
    (fun b _ => qa <- q (ld d (sub 0 (esize d) b)) ;;
                qb <- q (ld d (sub (esize d) (esize d) b)) ;;
                Ok [pack2 qa qb]).
(* quantize.inl:67-70; kernels_specialized.inl:479-482, 648-651 : the odd element, paired with the constant 0, then &= 15 *)
Definition act_u4_odd (d : dtype) (q : f32 -> res Z) (numel i : nat) : action :=
  mk_action (esize d * (numel - 1)) (esize d) (Nat.div2 i) 1
    (fun b _ => qa <- q (ld d b) ;; qb <- q f_zero ;; Ok [Z.land (pack2 qa qb) 15]).
(* quantize.inl:83-89; kernels_specialized.inl:711-717 *)
Definition act_u2_quad (d : dtype) (q : f32 -> res Z) (i : nat) : action :=
  mk_action (esize d * i) (4 * esize d) (Nat.div2 (Nat.div2 i)) 1
    (fun b _ => qa <- q (ld d (sub 0 (esize d) b)) ;;
                qb <- q (ld d (sub (esize d) (esize d) b)) ;;
                qc <- q (ld d (sub (2 * esize d) (esize d) b)) ;;
                qd <- q (ld d (sub (3 * esize d) (esize d) b)) ;;
                Ok [pack4 qa qb qc qd]).
(* the tail switch: quantize.inl:90-98 (quantizer [q], one value at a time);
   kernels_specialized.inl:718-726 calls quant_step_packed(v, 0, 0, 0) & 3, which also quantizes the constant 0
   three times: [zq] is that extra work. *)
Definition u2_tail_one (q : f32 -> res Z) (zq : res Z) (x : f32) : res Z :=
  v <- q x ;; _z <- zq ;; Ok (Z.land v 3).
(* quantize.inl:90-98, kernels_specialized.inl:718-726 *)
Definition act_u2_tail (d : dtype) (q : f32 -> res Z) (zq : res Z) (numel i : nat) : action :=
  let r := Nat.modulo numel 4 in
  mk_action (esize d * i) (r * esize d) (Nat.div2 (Nat.div2 i)) 1
    (fun b _ =>
       let x k := ld d (sub (k * esize d) (esize d) b) in
       p <- (if Nat.leb 3 r then (v <- u2_tail_one q zq (x 2%nat) ;; Ok (Z.shiftl v 4)) else Ok 0) ;;
       p <- (if Nat.leb 2 r then (v <- u2_tail_one q zq (x 1%nat) ;; Ok (Z.lor p (Z.shiftl v 2))) else Ok p) ;;
       v <- u2_tail_one q zq (x 0%nat) ;;
       Ok [Z.lor p v]).

(** ** x86 vector lanes *)
(* kernels_specialized.inl:62-77 etc.: product, blend of -0.5/+0.5 on prod >= 0, add, cvttps, add zp *)
Definition vround (n : nat) (inv : f32) (zp : Z) (xf : list f32) : list Z :=
  let prod := mul_ps xf (set1 n inv) in
  let adj := add_ps prod (blendv (set1 n f_nhalf) (set1 n f_half) (cmpge_ps prod (set1 n f_zero))) in
  add_epi32 (cvttps_epi32 adj) (set1 n zp).
(* max(vmin, min(vmax, xi)) -- uint8 kernels, SSE uint4 kernels *)
Definition vclamp_maxmin (n : nat) (mx : Z) (xi : list Z) : list Z :=
  max_epi32 (set1 n 0) (min_epi32 (set1 n mx) xi).
(* min(max(xi, vmin), vmax) -- AVX2/AVX-512 uint4, uint2 kernels *)
Definition vclamp_minmax (n : nat) (mx : Z) (xi : list Z) : list Z :=
  min_epi32 (max_epi32 xi (set1 n 0)) (set1 n mx).
(* widening of bf16 lanes: kernels_specialized.inl:203-206, 246-249, 288-289, 506-510, 677-685 (cvtpbh_ps = the same shift) *)
Definition widen (n : nat) (b : mem) : list f32 := slli16_castps (cvtepu16_epi32 n (load_u16 b)).

(** ** uint8 blocks *)
(* kernels_specialized.inl:57-82: four groups of 16 lanes, streamed *)
Definition blk_u8_avx512_groups (inv : f32) (zp : Z) (groups : list (list f32)) : mem :=
  flat_map (fun xf => cvtusepi32_epi8 (vclamp_maxmin 16 255 (vround 16 inv zp xf))) groups.
(* kernels_specialized.inl:57-82, the loads 58-61 *)
Definition blk_f32_u8_avx512 (inv : f32) (zp : Z) (b : mem) : mem :=
  blk_u8_avx512_groups inv zp (map (fun k => loadu_ps (sub (4 * (16 * k)) 64 b)) [0; 1; 2; 3]%nat).
(* 202-227 *)
Definition blk_bf16_u8_avx512 (inv : f32) (zp : Z) (b : mem) : mem :=
  blk_u8_avx512_groups inv zp (map (fun k => widen 16 (sub (2 * (16 * k)) 32 b)) [0; 1; 2; 3]%nat).
(* 91-94, 236-239 shuffle_matrix *)
Definition shuffle_matrix : list Z :=
  [0;1;2;3; 8;9;10;11; 4;5;6;7; 12;13;14;15;  0;1;2;3; 8;9;10;11; 4;5;6;7; 12;13;14;15].
(* 100-124 / 245-269 *)
Definition blk_u8_avx2 (inv : f32) (zp : Z) (xf0 xf1 xf2 xf3 : list f32) : mem :=
  let q xf := vclamp_maxmin 8 255 (vround 8 inv zp xf) in
  let packed := permute4x64 (packus_epi16_256 (packus_epi32_256 (q xf0) (q xf1)) (packus_epi32_256 (q xf2) (q xf3))) 0xd8 in
  shuffle_epi8_256 packed shuffle_matrix.
(* kernels_specialized.inl:100-124, the loads 101-104 *)
Definition blk_f32_u8_avx2 (inv : f32) (zp : Z) (b : mem) : mem :=
  let l k := loadu_ps (sub (4 * (8 * k)) 32 b) in blk_u8_avx2 inv zp (l 0%nat) (l 1%nat) (l 2%nat) (l 3%nat).
(* kernels_specialized.inl:245-269, the loads 246-253 *)
Definition blk_bf16_u8_avx2 (inv : f32) (zp : Z) (b : mem) : mem :=
  let l k := widen 8 (sub (2 * (8 * k)) 16 b) in blk_u8_avx2 inv zp (l 0%nat) (l 1%nat) (l 2%nat) (l 3%nat).
(* 138-159: SSE, 16 elements *)
Definition blk_u8_sse (inv : f32) (zp : Z) (xf0 xf1 xf2 xf3 : list f32) : mem :=
  let q xf := vclamp_maxmin 4 255 (vround 4 inv zp xf) in
  packus_epi16 (packus_epi32 (q xf0) (q xf1)) (packus_epi32 (q xf2) (q xf3)).
(* kernels_specialized.inl:138-159, the loads 139-142 *)
Definition blk_f32_u8_sse (inv : f32) (zp : Z) (b : mem) : mem :=
  let l k := loadu_ps (sub (4 * (4 * k)) 16 b) in blk_u8_sse inv zp (l 0%nat) (l 1%nat) (l 2%nat) (l 3%nat).
(* 283-311: SSE bf16, 32 elements, two 16-byte stores *)
Definition bf16lo (v : list Z) : list f32 := slli16_castps (cvtepu16_epi32 4 v).
(* kernels_specialized.inl:289, upper half by _mm_srli_si128(v, 8) *)
Definition bf16hi (v : list Z) : list f32 := bf16lo (srli_si128_8_u16 v).
(* kernels_specialized.inl:283-311 *)
Definition blk_bf16_u8_sse (inv : f32) (zp : Z) (b : mem) : mem :=
  let v k := load_u16 (sub (2 * (8 * k)) 16 b) in
  blk_u8_sse inv zp (bf16lo (v 0%nat)) (bf16hi (v 0%nat)) (bf16lo (v 1%nat)) (bf16hi (v 1%nat)) ++
  blk_u8_sse inv zp (bf16lo (v 2%nat)) (bf16hi (v 2%nat)) (bf16lo (v 3%nat)) (bf16hi (v 3%nat)).
(* 163-176: NEON; vqmovn_s32 = sat_i16, vqmovun_s16 = sat_u8 *)
Definition neon_lane (inv : f32) (zp : Z) (x : f32) : Z := wrap32 (vcvta (fmul x inv) + zp).
(* kernels_specialized.inl:163-176 *)
Definition blk_f32_u8_neon (inv : f32) (zp : Z) (b : mem) : mem :=
  let xi k := map (fun x => wrap32 (x + zp)) (map vcvta (mul_ps (loadu_ps (sub (4 * (4 * k)) 16 b)) (set1 4 inv))) in
  let pack16_00 := map sat_i16 (xi 0%nat) ++ map sat_i16 (xi 1%nat) in
  let pack16_01 := map sat_i16 (xi 2%nat) ++ map sat_i16 (xi 3%nat) in
  map sat_u8 pack16_00 ++ map sat_u8 pack16_01.

(** ** uint4 blocks *)
(* 340-341, 503-504: -1 = 0xff; 371-380, 418-427, 538-547, 585-594: 0x80; both have the top bit set *)
Definition shuf_even : list Z := [0;2;4;6;8;10;12;14; 128;128;128;128;128;128;128;128].
(* kernels_specialized.inl:376-380 (odd bytes), and the same mask in the other uint4 kernels *)
Definition shuf_odd  : list Z := [1;3;5;7;9;11;13;15; 128;128;128;128;128;128;128;128].
(* kernels_specialized.inl:340, 503 (even bytes) *)
Definition shuf_even512 : list Z := [0;2;4;6;8;10;12;14; 255;255;255;255;255;255;255;255].
(* kernels_specialized.inl:341, 504 (odd bytes) *)
Definition shuf_odd512  : list Z := [1;3;5;7;9;11;13;15; 255;255;255;255;255;255;255;255].
(* 361, 528 / 405-408, 572-575 / 461-464, 626-633: even bytes | odd bytes << 4, low 8 bytes stored *)
Definition nibble_pack (se so u8 : list Z) : mem :=
  firstn 8 (or_si (shuffle_epi8 u8 se) (slli_epi16 (shuffle_epi8 u8 so) 4)).
(* 342-362 *)
Definition blk_u4_avx512 (inv : f32) (zp : Z) (xf : list f32) : mem :=
  nibble_pack shuf_even512 shuf_odd512 (cvtusepi32_epi8 (vclamp_minmax 16 15 (vround 16 inv zp xf))).
(* 381-409 *)
Definition blk_u4_avx2 (inv : f32) (zp : Z) (xf0 xf1 : list f32) : mem :=
  let q xf := vclamp_minmax 8 15 (vround 8 inv zp xf) in
  let qi0 := q xf0 in let qi1 := q xf1 in
  let q16_0 := packs_epi32 (firstn 4 qi0) (skipn 4 qi0) in
  let q16_1 := packs_epi32 (firstn 4 qi1) (skipn 4 qi1) in
  nibble_pack shuf_even shuf_odd (packus_epi16 q16_0 q16_1).
(* 429-465 *)
Definition blk_u4_sse (inv : f32) (zp : Z) (xf0 xf1 xf2 xf3 : list f32) : mem :=
  let q xf := vclamp_maxmin 4 15 (vround 4 inv zp xf) in
  nibble_pack shuf_even shuf_odd (packus_epi16 (packs_epi32 (q xf0) (q xf1)) (packs_epi32 (q xf2) (q xf3))).
(* kernels_specialized.inl:342-362 *)
Definition blk_f32_u4_avx512 (inv : f32) (zp : Z) (b : mem) : mem := blk_u4_avx512 inv zp (loadu_ps b).
(* kernels_specialized.inl:381-409 *)
Definition blk_f32_u4_avx2 (inv : f32) (zp : Z) (b : mem) : mem :=
  blk_u4_avx2 inv zp (loadu_ps (sub 0 32 b)) (loadu_ps (sub 32 32 b)).
(* kernels_specialized.inl:429-465 *)
Definition blk_f32_u4_sse (inv : f32) (zp : Z) (b : mem) : mem :=
  let l k := loadu_ps (sub (4 * (4 * k)) 16 b) in blk_u4_sse inv zp (l 0%nat) (l 1%nat) (l 2%nat) (l 3%nat).
(* 505-529, 548-576, 595-634 (two 8-byte stores) *)
Definition blk_bf16_u4_avx512 (inv : f32) (zp : Z) (b : mem) : mem := blk_u4_avx512 inv zp (widen 16 b).
(* kernels_specialized.inl:548-576 *)
Definition blk_bf16_u4_avx2 (inv : f32) (zp : Z) (b : mem) : mem :=
  blk_u4_avx2 inv zp (widen 8 (sub 0 16 b)) (widen 8 (sub 16 16 b)).
(* kernels_specialized.inl:595-634 *)
Definition blk_bf16_u4_sse (inv : f32) (zp : Z) (b : mem) : mem :=
  let v k := load_u16 (sub (2 * (8 * k)) 16 b) in
  blk_u4_sse inv zp (bf16lo (v 0%nat)) (bf16hi (v 0%nat)) (bf16lo (v 1%nat)) (bf16hi (v 1%nat)) ++
  blk_u4_sse inv zp (bf16lo (v 2%nat)) (bf16hi (v 2%nat)) (bf16lo (v 3%nat)) (bf16hi (v 3%nat)).

(** ** uint2 block (AVX-512 only): 672-701 *)
Definition w0146 : list Z := [1;4;16;64; 1;4;16;64; 1;4;16;64; 1;4;16;64].
(* kernels_specialized.inl:672-701 *)
Definition blk_bf16_u2_avx512 (inv : f32) (zp : Z) (b : mem) : mem :=
  let qi32 := vclamp_minmax 16 3 (vround 16 inv zp (widen 16 b)) in
  let u8 := and_si (cvtusepi32_epi8 qi32) (set1 16 3) in
  let pair_sums := maddubs_epi16 u8 w0146 in
  let bytes16 := hadd_epi16 pair_sums (repeat 0 8) in
  firstn 4 (packus_epi16 bytes16 (repeat 0 8)).

(** ** Vector-loop actions *)
(* a block of [n] elements at index [i] producing [n*bits/8] bytes with unaligned stores *)
Definition act_block (d : dtype) (n olen : nat) (o_of : nat -> nat) (f : mem -> mem) (i : nat) : action :=
  mk_action (esize d * i) (esize d * n) (o_of i) olen (fun b _ => Ok (f b)).
(* the same with streaming stores: the address must be a multiple of [al] *)
Definition act_block_stream (oaddr al : Z) (d : dtype) (n olen : nat) (f : mem -> mem) (i : nat) : action :=
  mk_action (esize d * i) (esize d * n) i olen
    (fun b _ => if (oaddr + Z.of_nat i) mod al =? 0 then Ok (f b) else UB).
(* o[i>>1]: kernels_specialized.inl:361, 467-483, quantize.inl:52-71 *)
Definition half_idx (i : nat) : nat := Nat.div2 i.
(* o[i>>2]: kernels_specialized.inl:699-727, quantize.inl:73-99 *)
Definition quarter_idx (i : nat) : nat := Nat.div2 (Nat.div2 i).
(* o[i]: kernels_specialized.inl:52-56, 178-182 *)
Definition id_idx (i : nat) : nat := i.

(* consecutive loops sharing the index variable [i] *)
Definition run_loop (numel : nat) (st : list action * nat) (c : (nat -> bool) * nat * (nat -> action)) : list action * nat :=
  let '(acts, i) := st in let '(cond, stride, body) := c in
  let '(l, j) := loop numel cond stride body i in (acts ++ l, j).
(* the loops of one kernel in textual order, e.g. kernels_specialized.inl:51-182 *)
Definition seq_loops (numel : nat) (ls : list ((nat -> bool) * nat * (nat -> action))) : list action * nat :=
  fold_left (run_loop numel) ls ([], 0%nat).

(* for (; i < numel && (uintptr(o+i) & mask) != 0; ++i) *)
Definition peel_cond (oaddr mask : Z) (numel : nat) (i : nat) : bool :=
  Nat.ltb i numel && negb (Z.land (oaddr + Z.of_nat i) mask =? 0).
(* for (; i+(n-1) < numel; i += n) *)
Definition blk_cond (numel n : nat) (i : nat) : bool := Nat.ltb (i + (n - 1)) numel.

(** ** Kernels *)
(* kernels_specialized.inl:35-183 *)
Definition quant_f32_to_uint8_nearest (A : arch) (oaddr : Z) (numel : nat) (scale : f32) (zp : Z) : list action :=
  let inv := fdiv f_one scale in
  let sc := act_u8 DT_F32 (q_nearest_i32 255 inv zp) in
  fst (seq_loops numel (
    match A with
    | AVX512F | AVX512BF16 =>
        [ (peel_cond oaddr 15 numel, 1%nat, sc);
          (blk_cond numel 64, 64%nat, act_block_stream oaddr 16 DT_F32 64 64 (blk_f32_u8_avx512 inv zp)) ]
    | AVX2 =>
        [ (peel_cond oaddr 31 numel, 1%nat, sc);
          (blk_cond numel 32, 32%nat, act_block_stream oaddr 32 DT_F32 32 32 (blk_f32_u8_avx2 inv zp)) ]
    | SSE42 =>
        [ (peel_cond oaddr 15 numel, 1%nat, sc);
          (blk_cond numel 16, 16%nat, act_block_stream oaddr 16 DT_F32 16 16 (blk_f32_u8_sse inv zp)) ]
    | NEON =>
        [ (blk_cond numel 16, 16%nat, act_block DT_F32 16 16 id_idx (blk_f32_u8_neon inv zp)) ]
    | GENERIC => []
    end ++ [ (blk_cond numel 1, 1%nat, sc) ])).

(* 185-320 *)
Definition quant_bf16_to_uint8_nearest (A : arch) (oaddr : Z) (numel : nat) (scale : f32) (zp : Z) : list action :=
  let inv := fdiv f_one scale in
  let sc := act_u8 DT_BF16 (q_nearest_i32 255 inv zp) in
  fst (seq_loops numel (
    match A with
    | AVX512F | AVX512BF16 =>
        [ (blk_cond numel 64, 64%nat, act_block DT_BF16 64 64 id_idx (blk_bf16_u8_avx512 inv zp)) ]
    | AVX2 =>
        [ (peel_cond oaddr 31 numel, 1%nat, sc);
          (blk_cond numel 32, 32%nat, act_block_stream oaddr 32 DT_BF16 32 32 (blk_bf16_u8_avx2 inv zp)) ]
    | SSE42 =>
        [ (peel_cond oaddr 15 numel, 1%nat, sc);
          (blk_cond numel 32, 32%nat, act_block DT_BF16 32 32 id_idx (blk_bf16_u8_sse inv zp)) ]
    | NEON | GENERIC => []
    end ++ [ (blk_cond numel 1, 1%nat, sc) ])).

(* the scalar part of the uint4 kernels: kernels_specialized.inl:474-482, 643-651; quantize.inl:61-70 *)
Definition u4_finish (d : dtype) (q : f32 -> res Z) (numel : nat) (st : list action * nat) : list action :=
  fst st ++ (if Nat.odd numel then [act_u4_odd d q numel (snd st)] else []).
(* 322-483 *)
Definition quant_f32_to_uint4_nearest (A : arch) (numel : nat) (scale : f32) (zp : Z) : list action :=
  let inv := fdiv f_one scale in
  let q := q_nearest_i32 15 inv zp in
  u4_finish DT_F32 q numel (seq_loops numel (
    match A with
    | AVX512F | AVX512BF16 => [ (blk_cond numel 16, 16%nat, act_block DT_F32 16 8 half_idx (blk_f32_u4_avx512 inv zp)) ]
    | AVX2 => [ (blk_cond numel 16, 16%nat, act_block DT_F32 16 8 half_idx (blk_f32_u4_avx2 inv zp)) ]
    | SSE42 => [ (blk_cond numel 16, 16%nat, act_block DT_F32 16 8 half_idx (blk_f32_u4_sse inv zp)) ]
    | NEON | GENERIC => []
    end ++ [ (blk_cond numel 2, 2%nat, act_u4_pair DT_F32 q) ])).
(* 485-652 *)
Definition quant_bf16_to_uint4_nearest (A : arch) (numel : nat) (scale : f32) (zp : Z) : list action :=
  let inv := fdiv f_one scale in
  let q := q_nearest_i32 15 inv zp in
  u4_finish DT_BF16 q numel (seq_loops numel (
    match A with
    | AVX512F | AVX512BF16 => [ (blk_cond numel 16, 16%nat, act_block DT_BF16 16 8 half_idx (blk_bf16_u4_avx512 inv zp)) ]
    | AVX2 => [ (blk_cond numel 16, 16%nat, act_block DT_BF16 16 8 half_idx (blk_bf16_u4_avx2 inv zp)) ]
    | SSE42 => [ (blk_cond numel 32, 32%nat, act_block DT_BF16 32 16 half_idx (blk_bf16_u4_sse inv zp)) ]
    | NEON | GENERIC => []
    end ++ [ (blk_cond numel 2, 2%nat, act_u4_pair DT_BF16 q) ])).

(* tail of the uint2 kernels *)
Definition u2_finish (d : dtype) (q : f32 -> res Z) (zq : res Z) (numel : nat) (st : list action * nat) : list action :=
  fst st ++ (if Nat.eqb (Nat.modulo numel 4) 0 then [] else [act_u2_tail d q zq numel (snd st)]).
(* 654-727 *)
Definition quant_bf16_to_uint2_nearest (A : arch) (numel : nat) (scale : f32) (zp : Z) : list action :=
  let inv := fdiv f_one scale in
  let q := q_nearest_i32 3 inv zp in
  u2_finish DT_BF16 q (q f_zero) numel (seq_loops numel (
    match A with
    | AVX512F | AVX512BF16 => [ (blk_cond numel 16, 16%nat, act_block DT_BF16 16 4 quarter_idx (blk_bf16_u2_avx512 inv zp)) ]
    | _ => []
    end ++ [ (blk_cond numel 4, 4%nat, act_u2_quad DT_BF16 q) ])).

(* quantize.inl:52-71 *)
Definition quant_uint4 (d : dtype) (q : f32 -> res Z) (numel : nat) : list action :=
  u4_finish d q numel (seq_loops numel [ (blk_cond numel 2, 2%nat, act_u4_pair d q) ]).
(* quantize.inl:73-99 *)
Definition quant_uint2 (d : dtype) (q : f32 -> res Z) (numel : nat) : list action :=
  u2_finish d q (Ok 0) numel (seq_loops numel [ (blk_cond numel 4, 4%nat, act_u2_quad d q) ]).
(* quantize.inl:146-148 *)
Definition quant_plain (d : dtype) (q : f32 -> res Z) (numel : nat) : list action :=
  fst (seq_loops numel [ (blk_cond numel 1, 1%nat, act_u8 d q) ]).

(** quantize.inl:101-149 quant_generic<In, Out, RoundMode>: specialised kernels take the zero point as int32
    (implicit conversion from int64). *)
Definition quant_generic (A : arch) (din dout : dtype) (rm : round_mode_t)
  (oaddr : Z) (numel : nat) (scale thr : f32) (zp : Z) : list action :=
  let generic :=
    let q := quant_step_scalar rm (limit_max dout) thr (fdiv f_one scale) zp in
    match dout with
    | DT_UINT4 => quant_uint4 din q numel
    | DT_UINT2 => quant_uint2 din q numel
    | _ => quant_plain din q numel
    end in
  match din, dout, rm with
  | DT_F32, DT_UINT8, RM_NEAREST => quant_f32_to_uint8_nearest A oaddr numel scale (wrap32 zp)
  | DT_F32, DT_UINT4, RM_NEAREST => quant_f32_to_uint4_nearest A numel scale (wrap32 zp)
  | DT_BF16, DT_UINT8, RM_NEAREST => quant_bf16_to_uint8_nearest A oaddr numel scale (wrap32 zp)
  | DT_BF16, DT_UINT4, RM_NEAREST => quant_bf16_to_uint4_nearest A numel scale (wrap32 zp)
  | DT_BF16, DT_UINT2, RM_NEAREST => quant_bf16_to_uint2_nearest A numel scale (wrap32 zp)
  | _, _, _ => generic
  end.
