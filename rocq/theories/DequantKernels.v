(** DequantKernels.v -- the dequantization kernels (src/kernels/dequantize.inl, the dequant_* functions of
    src/kernels/kernels_specialized.inl) and requant_generic (src/kernels/kernels.inl) as action lists. *)
From Coq Require Import ZArith List Lia Bool.
From Flocq Require Import Binary Bits.
From Verif Require Import Base Floats Simd Dtypes QuantKernels.
Import ListNotations.
Local Open Scope Z_scope.

(** ** Scalar steps: code -> float *)
(* kernels_specialized.inl:922, 978, 1168-1170, 1290-1292:
   static_cast<fp32_t>(static_cast<std::int32_t>(x) - zp)*scale *)
Definition dq_i32 (scale : f32) (zp : Z) (q : Z) : res f32 :=
  d <- i32 (q - zp) ;; Ok (fmul (f32_of_Z d) scale).
(* dequantize.inl:8-11 with Out = fp32_t: static_cast<fp32_t>(static_cast<std::int64_t>(x) - zp)*scale *)
Definition dq_i64 (scale : f32) (zp : Z) (q : Z) : res f32 :=
  d <- i64 (q - zp) ;; Ok (fmul (f32_of_Z d) scale).
(* kernels_specialized.inl:1387-1389: (static_cast<fp32_t>(q) - zp) * scale *)
Definition dq_sub (scale : f32) (zp : Z) (q : Z) : res f32 :=
  Ok (fmul (fsub (f32_of_Z q) (f32_of_Z zp)) scale).
(* dequantize.inl:8-11 with Out = bfp16_t: bfp16_t(static_cast<fp32_t>(int64)) * bfp16_t(scale), a bf16 product *)
Definition dq_i64_bf16 (scale : f32) (zp : Z) (q : Z) : res bf16 :=
  d <- i64 (q - zp) ;; Ok (bf16_mul (bf16_of_f32 (f32_of_Z d)) (bf16_of_f32 scale)).

(** ** Storing one element: o[i] = v, o[i] += v ; [old] are the bytes of o[i] *)
Definition put_f32 (op : reduce_op) (v : f32) (old : mem) : mem :=
  le_bytes 4 (bits_of_f32 (match op with RO_SET => v | RO_ADD => fadd (ld_f32 old) v end)).
(* o[i] = dq converts to bfp16_t; o[i] += dq is bfp16_t::operator+= on bfp16_t(dq): piquant.hpp:97-103 *)
Definition put_bf16v (op : reduce_op) (v : bf16) (old : mem) : mem :=
  le_bytes 2 (match op with RO_SET => v | RO_ADD => bf16_add (le_val old) v end).
(* dequantize.inl and kernels_specialized.inl:977-981: o[i] = / += a float, converted by bfp16_t(fp32_t), piquant.hpp:86-90 *)
Definition put_bf16 (op : reduce_op) (v : f32) (old : mem) : mem := put_bf16v op (bf16_of_f32 v) old.
(* the store for either output type, dequantize.inl:132-139 *)
Definition put (dout : dtype) : reduce_op -> f32 -> mem -> mem :=
  match dout with DT_BF16 => put_bf16 | _ => put_f32 end.

(** ** Scalar actions; [step] computes a float from a code, [pt] stores it, [e] = the byte size of an output element *)
Definition step_put (step : Z -> res f32) (pt : f32 -> mem -> mem) (q : Z) (old : mem) : res mem :=
  v <- step q ;; Ok (pt v old).
(* o[i] from x[i]: kernels_specialized.inl:921-925, 977-981; dequantize.inl:132-139 *)
Definition dact_u8 (e : nat) (step : Z -> res f32) (pt : f32 -> mem -> mem) (i : nat) : action :=
  mk_action i 1 (e * i) e (fun b o => step_put step pt (nth 0 b 0) o).
(* o[i], o[i+1] from x[i>>1]: kernels_specialized.inl:1172-1183, 1294-1305 *)
Definition dact_u4_pair (e : nat) (step : Z -> res f32) (pt : f32 -> mem -> mem) (i : nat) : action :=
  mk_action (Nat.div2 i) 1 (e * i) (e * 2)
    (fun b o => let p := nth 0 b 0 in
                ra <- step_put step pt (Z.land p 15) (sub 0 e o) ;;
                rb <- step_put step pt (Z.shiftr p 4) (sub e e o) ;;
                Ok (ra ++ rb)).
(* o[numel-1] from x[i>>1]: kernels_specialized.inl:1184-1188, 1306-1310 *)
Definition dact_u4_odd (e : nat) (step : Z -> res f32) (pt : f32 -> mem -> mem) (numel i : nat) : action :=
  mk_action (Nat.div2 i) 1 (e * (numel - 1)) e (fun b o => step_put step pt (Z.land (nth 0 b 0) 15) o).
(* the four 2-bit codes of a byte *)
Definition code2 (p : Z) (k : nat) : Z := Z.land (Z.shiftr p (2 * Z.of_nat k)) 3.
(* elements i .. i+n-1 (n <= 4) from x[i>>2]: dequantize.inl:52-71 with n = 4, the tail switch 72-86 with
   n = numel&3; kernels_specialized.inl:1391-1408 and 1409-1415 *)
Fixpoint u2_elems (e : nat) (step : Z -> res f32) (pt : f32 -> mem -> mem) (p : Z) (k n : nat) (o : mem) : res mem :=
  match n with
  | O => Ok []
  | S n' => r <- step_put step pt (code2 p k) (sub (e * k) e o) ;;
            rs <- u2_elems e step pt p (S k) n' o ;; Ok (r ++ rs)
  end.
(* dequantize.inl:52-86, kernels_specialized.inl:1391-1415 *)
Definition dact_u2 (e : nat) (step : Z -> res f32) (pt : f32 -> mem -> mem) (n i : nat) : action :=
  mk_action (Nat.div2 (Nat.div2 i)) 1 (e * i) (e * n) (fun b o => u2_elems e step pt (nth 0 b 0) 0 n o).

(** ** Vector blocks.  A block is a list of code registers (int32 lanes), in store order; register k of n lanes
    is combined with, and stored to, o + i + k*n. *)
Fixpoint emit (nb : nat) (g : list Z -> mem -> mem) (regs : list (list Z)) (o : mem) : mem :=
  match regs with
  | [] => []
  | r :: rs => g r (firstn nb o) ++ emit nb g rs (skipn nb o)
  end.
(* mul_ps(cvtepi32_ps(sub_epi32(q, vzp)), vscale): 746-753, 782-797, 839-854, 905-908, 1028-1043, 1090-1105, 1133-1143 *)
Definition lanes_mul (n : nat) (scale : f32) (zp : Z) (q : list Z) : list f32 :=
  mul_ps (cvtepi32_ps (sub_epi32 q (set1 n zp))) (set1 n scale).
(* fmadd_ps(cvtepi32_ps(q), vscale, vbias): 1236-1243, 1360-1362; vbias: 1204, 1324 *)
Definition fneg (x : f32) : f32 := b32_opp x.
(* kernels_specialized.inl:1204, 1324 *)
Definition vbias (scale : f32) (zp : Z) : f32 := fmul (fneg (f32_of_Z zp)) scale.
(* kernels_specialized.inl:1236-1243, 1360-1362 *)
Definition lanes_fma (n : nat) (scale : f32) (zp : Z) (q : list Z) : list f32 :=
  fmadd_ps (cvtepi32_ps q) (set1 n scale) (set1 n (vbias scale zp)).
(* ADD: add_ps(f, loadu_ps(o)), then storeu_ps *)
Definition reg_f32 (op : reduce_op) (lanes : list Z -> list f32) (q : list Z) (o : mem) : mem :=
  store_ps (match op with RO_SET => lanes q | RO_ADD => add_ps (lanes q) (loadu_ps o) end).
(* cvt_ps_to_bf16, kernels_specialized.inl:14-33 *)
Definition cvt_ps_to_bf16 (A : arch) (x : f32) : bf16 :=
  match A with AVX512BF16 => cvtneps_pbh_bits (bits_of_f32 x) | _ => cvt_ps_to_bf16_sw_bits (bits_of_f32 x) end.
(* ADD: add_ps(f, castps(slli(cvtepu16(o), 16))) or cvtpbh_ps: 954-966, 1244-1264, 1328-1343 *)
Definition reg_bf16 (A : arch) (op : reduce_op) (lanes : list Z -> list f32) (q : list Z) (o : mem) : mem :=
  store_u16 (map (cvt_ps_to_bf16 A)
    (match op with RO_SET => lanes q | RO_ADD => add_ps (lanes q) (slli16_castps (load_u16 o)) end)).

(** code registers *)
Definition cvtepu8_epi32 (n : nat) (v : mem) : list Z := firstn n v.
(* _mm_srli_si128(v, 8): kernels_specialized.inl:772-774 *)
Definition srli_si128_8 (v : mem) : mem := skipn 8 v ++ repeat 0 8.
(* 742-749, 942-949 *)
Definition regs_u8_avx512 (b : mem) : list (list Z) :=
  map (fun k => cvtepu8_epi32 16 (sub (16 * k) 16 b)) [0; 1; 2; 3]%nat.
(* 768-776: expand_u8_to_s32_avx2; also 1067-1075 *)
Definition expand_u8_avx2 (v : mem) : list (list Z) :=
  let lo128 := firstn 16 v in let hi128 := skipn 16 v in
  [cvtepu8_epi32 8 lo128; cvtepu8_epi32 8 (srli_si128_8 lo128); cvtepu8_epi32 8 hi128; cvtepu8_epi32 8 (srli_si128_8 hi128)].
(* 778-781 *)
Definition regs_u8_avx2 (b : mem) : list (list Z) := expand_u8_avx2 (sub 0 32 b) ++ expand_u8_avx2 (sub 32 32 b).
(* _mm_unpacklo_epi16 / _mm_unpackhi_epi16 on 16-byte vectors *)
Fixpoint interleave4 (a b : list Z) : list Z :=
  match a, b with
  | x0 :: x1 :: a', y0 :: y1 :: b' => x0 :: x1 :: y0 :: y1 :: interleave4 a' b'
  | _, _ => []
  end.
(* _mm_unpacklo_epi16: kernels_specialized.inl:829, 831, 1356, 1358 *)
Definition unpacklo_epi16 (a b : list Z) : list Z := interleave4 (firstn 8 a) (firstn 8 b).
(* _mm_unpackhi_epi16: kernels_specialized.inl:830, 832, 1357, 1359 *)
Definition unpackhi_epi16 (a b : list Z) : list Z := interleave4 (skipn 8 a) (skipn 8 b).
(* a byte vector seen as int32 lanes *)
Definition as_epi32 (b : mem) : list Z := map (fun c => wrap32 (le_val c)) (chunks 4 b).
(* 825-834: expand16 *)
Definition expand16_sse (v : mem) : list (list Z) :=
  let zero := repeat 0 16 in
  let w_lo := unpacklo_epi8 v zero in let w_hi := unpackhi_epi8 v zero in
  map as_epi32 [unpacklo_epi16 w_lo zero; unpackhi_epi16 w_lo zero; unpacklo_epi16 w_hi zero; unpackhi_epi16 w_hi zero].
(* 821-824, 835-838 *)
Definition regs_u8_sse (b : mem) : list (list Z) := flat_map (fun k => expand16_sse (sub (16 * k) 16 b)) [0; 1; 2; 3]%nat.
(* 891-899, 903-904: vmovl_u8, then vmovl_s16 of the reinterpreted lanes *)
Definition regs_u8_neon (b : mem) : list (list Z) :=
  map (fun k => map s16 (sub (4 * k) 4 b)) [0; 1; 2; 3]%nat.

(* and_si(v, 0x0f) ; and_si(srli_epi16(v, 4), 0x0f) *)
Definition nib_lo (v : mem) : list Z := and_si v (set1 (length v) 15).
(* kernels_specialized.inl:1010, 1078, 1158, 1218 *)
Definition nib_hi (v : mem) : list Z := and_si (srli_epi16 v 4) (set1 (length v) 15).
(* one 128-bit lane of unpacklo/unpackhi(lo, hi) *)
Definition nib_t0 (v : mem) : list Z := unpacklo_epi8 (nib_lo v) (nib_hi v).
(* kernels_specialized.inl:1012, 1080, 1160, 1220 *)
Definition nib_t1 (v : mem) : list Z := unpackhi_epi8 (nib_lo v) (nib_hi v).
(* 1008-1021 unpack_nibbles (512 bits): t0/t1 per 128-bit lane, re-ordered by extract/insert; 997-1007, 1024-1027 *)
Definition regs_u4_avx512 (b : mem) : list (list Z) :=
  let l k := sub (16 * k) 16 b in
  let v0 := nib_t0 (l 0%nat) ++ nib_t1 (l 0%nat) ++ nib_t0 (l 1%nat) ++ nib_t1 (l 1%nat) in
  let v1 := nib_t0 (l 2%nat) ++ nib_t1 (l 2%nat) ++ nib_t0 (l 3%nat) ++ nib_t1 (l 3%nat) in
  map (fun k => cvtepu8_epi32 16 (sub (16 * k) 16 v0)) [0; 1; 2; 3]%nat ++
  map (fun k => cvtepu8_epi32 16 (sub (16 * k) 16 v1)) [0; 1; 2; 3]%nat.
(* _mm256_permute2x128_si256(a, b, 0x20 / 0x31) *)
Definition permute2x128_20 (a b : list Z) : list Z := firstn 16 a ++ firstn 16 b.
(* kernels_specialized.inl:1082 *)
Definition permute2x128_31 (a b : list Z) : list Z := skipn 16 a ++ skipn 16 b.
(* 1076-1084, 1086-1089 *)
Definition regs_u4_avx2 (b : mem) : list (list Z) :=
  let t0 := nib_t0 (sub 0 16 b) ++ nib_t0 (sub 16 16 b) in
  let t1 := nib_t1 (sub 0 16 b) ++ nib_t1 (sub 16 16 b) in
  expand_u8_avx2 (permute2x128_20 t0 t1) ++ expand_u8_avx2 (permute2x128_31 t0 t1).
(* 1129-1143 process16: cvtepu8_epi16, cvtepi16_epi32 (sign extension), srli_si128 *)
Definition process16_sse (v : mem) : list (list Z) :=
  let w0 := firstn 8 v in let w1 := firstn 8 (srli_si128_8 v) in
  [map s16 (firstn 4 w0); map s16 (firstn 4 (srli_si128_8_u16 w0)); map s16 (firstn 4 w1); map s16 (firstn 4 (srli_si128_8_u16 w1))].
(* 1156-1162 *)
Definition regs_u4_sse (b : mem) : list (list Z) := process16_sse (nib_t0 b) ++ process16_sse (nib_t1 b).

(* 1325-1326 *)
Definition LUT0 : list Z := [0;1;2;3; 0;1;2;3; 0;1;2;3; 0;1;2;3].
(* kernels_specialized.inl:1326 *)
Definition LUT1 : list Z := [0;0;0;0; 1;1;1;1; 2;2;2;2; 3;3;3;3].
(* 1344-1359, 1363-1366 do_16bytes *)
Definition u2_16bytes (b : mem) : list (list Z) :=
  let lo := nib_lo b in let hi := nib_hi b in
  let q0 := shuffle_epi8 LUT0 lo in let q1 := shuffle_epi8 LUT1 lo in
  let q2 := shuffle_epi8 LUT0 hi in let q3 := shuffle_epi8 LUT1 hi in
  let ab_lo := unpacklo_epi8 q0 q1 in let ab_hi := unpackhi_epi8 q0 q1 in
  let cd_lo := unpacklo_epi8 q2 q3 in let cd_hi := unpackhi_epi8 q2 q3 in
  map (cvtepu8_epi32 16) [unpacklo_epi16 ab_lo cd_lo; unpackhi_epi16 ab_lo cd_lo; unpacklo_epi16 ab_hi cd_hi; unpackhi_epi16 ab_hi cd_hi].
(* 1378-1384 *)
Definition regs_u2_avx512 (b : mem) : list (list Z) := flat_map (fun k => u2_16bytes (sub (16 * k) 16 b)) [0; 1; 2; 3]%nat.

(** a vector-loop action: [n] elements at [i]; the packed input starts at [ioff i] and has [ilen] bytes *)
Definition dact_block (e ilen n : nat) (ioff : nat -> nat) (f : mem -> mem -> mem) (i : nat) : action :=
  mk_action (ioff i) ilen (e * i) (e * n) (fun b o => Ok (f b o)).

(** ** Kernels *)
(* kernels_specialized.inl:729-926 *)
Definition dequant_uint8_to_f32 (A : arch) (op : reduce_op) (numel : nat) (scale : f32) (zp : Z) : list action :=
  let blk n ln regs := (blk_cond numel n, n, dact_block 4 n n id_idx (fun b o => emit (4 * ln) (reg_f32 op (lanes_mul ln scale zp)) (regs b) o)) in
  fst (seq_loops numel (
    match A with
    | AVX512F | AVX512BF16 => [ blk 64%nat 16%nat regs_u8_avx512 ]
    | AVX2 => [ blk 64%nat 8%nat regs_u8_avx2 ]
    | SSE42 => [ blk 64%nat 4%nat regs_u8_sse ]
    | NEON => [ blk 16%nat 4%nat regs_u8_neon ]
    | GENERIC => []
    end ++ [ (blk_cond numel 1, 1%nat, dact_u8 4 (dq_i32 scale zp) (put_f32 op)) ])).
(* 928-982 *)
Definition dequant_uint8_to_bf16 (A : arch) (op : reduce_op) (numel : nat) (scale : f32) (zp : Z) : list action :=
  fst (seq_loops numel (
    match A with
    | AVX512F | AVX512BF16 =>
        [ (blk_cond numel 64, 64%nat, dact_block 2 64 64 id_idx (fun b o => emit 32 (reg_bf16 A op (lanes_mul 16 scale zp)) (regs_u8_avx512 b) o)) ]
    | _ => []
    end ++ [ (blk_cond numel 1, 1%nat, dact_u8 2 (dq_i32 scale zp) (put_bf16 op)) ])).
(* scalar end of the uint4 kernels: 1168-1188, 1290-1310; dequantize.inl:22-39 *)
Definition du4_finish (e : nat) (step : Z -> res f32) (pt : f32 -> mem -> mem) (numel : nat) (st : list action * nat) : list action :=
  fst st ++ (if Nat.odd numel then [dact_u4_odd e step pt numel (snd st)] else []).
(* 984-1189 *)
Definition dequant_uint4_to_f32 (A : arch) (op : reduce_op) (numel : nat) (scale : f32) (zp : Z) : list action :=
  let blk n hn ln regs := (blk_cond numel n, n, dact_block 4 hn n half_idx (fun b o => emit (4 * ln) (reg_f32 op (lanes_mul ln scale zp)) (regs b) o)) in
  du4_finish 4 (dq_i32 scale zp) (put_f32 op) numel (seq_loops numel (
    match A with
    | AVX512F | AVX512BF16 => [ blk 128%nat 64%nat 16%nat regs_u4_avx512 ]
    | AVX2 => [ blk 64%nat 32%nat 8%nat regs_u4_avx2 ]
    | SSE42 => [ blk 32%nat 16%nat 4%nat regs_u4_sse ]
    | NEON | GENERIC => []
    end ++ [ (blk_cond numel 2, 2%nat, dact_u4_pair 4 (dq_i32 scale zp) (put_f32 op)) ])).
(* 1191-1311 *)
Definition dequant_uint4_to_bf16 (A : arch) (op : reduce_op) (numel : nat) (scale : f32) (zp : Z) : list action :=
  du4_finish 2 (dq_i32 scale zp) (put_bf16 op) numel (seq_loops numel (
    match A with
    | AVX512F | AVX512BF16 =>
        [ (blk_cond numel 128, 128%nat, dact_block 2 64 128 half_idx (fun b o => emit 32 (reg_bf16 A op (lanes_fma 16 scale zp)) (regs_u4_avx512 b) o)) ]
    | _ => []
    end ++ [ (blk_cond numel 2, 2%nat, dact_u4_pair 2 (dq_i32 scale zp) (put_bf16 op)) ])).
(* 1313-1416: the tail runs only if (i < numel) *)
Definition dequant_uint2_to_bf16 (A : arch) (op : reduce_op) (numel : nat) (scale : f32) (zp : Z) : list action :=
  let st := seq_loops numel (
    match A with
    | AVX512F | AVX512BF16 =>
        [ (blk_cond numel 256, 256%nat, dact_block 2 64 256 quarter_idx (fun b o => emit 32 (reg_bf16 A op (lanes_fma 16 scale zp)) (regs_u2_avx512 b) o)) ]
    | _ => []
    end ++ [ (blk_cond numel 4, 4%nat, dact_u2 2 (dq_sub scale zp) (put_bf16 op) 4) ]) in
  fst st ++ (if Nat.ltb (snd st) numel then [dact_u2 2 (dq_sub scale zp) (put_bf16 op) (numel - snd st) (snd st)] else []).
(* dequantize.inl:42-87 with Out = fp32_t (the only instantiation that reaches it): after the loop the byte
   x[i>>2] is read unconditionally and the tail always stores (the ReduceOp is ignored there) *)
Definition dequant_uint2_f32 (op : reduce_op) (numel : nat) (scale : f32) (zp : Z) : list action :=
  let st := seq_loops numel [ (blk_cond numel 4, 4%nat, dact_u2 4 (dq_i64 scale zp) (put_f32 op) 4) ] in
  fst st ++ [dact_u2 4 (dq_i64 scale zp) (put_f32 RO_SET) (Nat.modulo numel 4) (snd st)].

(** dequantize.inl:89-140 dequant_generic<In, Out, ReduceOp>.  The generic uint4 loop (13-40) and the generic loop
    (132-139) are never reached: all their (In, Out) pairs go to the specialised kernels above. *)
Definition dequant_generic (A : arch) (din dout : dtype) (op : reduce_op) (numel : nat) (scale : f32) (zp : Z) : list action :=
  match din, dout with
  | DT_UINT8, DT_F32 => dequant_uint8_to_f32 A op numel scale (wrap32 zp)
  | DT_UINT4, DT_F32 => dequant_uint4_to_f32 A op numel scale (wrap32 zp)
  | DT_UINT8, DT_BF16 => dequant_uint8_to_bf16 A op numel scale (wrap32 zp)
  | DT_UINT4, DT_BF16 => dequant_uint4_to_bf16 A op numel scale (wrap32 zp)
  | DT_UINT2, DT_BF16 => dequant_uint2_to_bf16 A op numel scale (wrap32 zp)
  | DT_UINT2, DT_F32 => dequant_uint2_f32 op numel scale zp
  | _, _ => []  (* not instantiated *)
  end.

(** ** kernels.inl:30-52 requant_generic<In, Out, RoundMode, ReduceOp>: [d] = In (float type), [dq] = Out (quantized type) *)
Definition requant_elem (d dq : dtype) (rm : round_mode_t) (op : reduce_op) (scale thr : f32) (zp : Z) (b old : mem) : res mem :=
  q <- quant_step_scalar rm (limit_max dq) thr (fdiv f_one scale) zp (ld d b) ;;
  match d with
  | DT_BF16 => v <- dq_i64_bf16 scale zp q ;; Ok (put_bf16v op v old)
  | _ => v <- dq_i64 scale zp q ;; Ok (put_f32 op v old)
  end.
(* kernels.inl:30-52, one iteration of the loop *)
Definition ract (d dq : dtype) (rm : round_mode_t) (op : reduce_op) (scale thr : f32) (zp : Z) (i : nat) : action :=
  mk_action (esize d * i) (esize d) (esize d * i) (esize d) (requant_elem d dq rm op scale thr zp).
(* kernels.inl:30-52, the loop *)
Definition requant_generic (d dq : dtype) (rm : round_mode_t) (op : reduce_op) (numel : nat) (scale thr : f32) (zp : Z) : list action :=
  fst (seq_loops numel [ (blk_cond numel 1, 1%nat, ract d dq rm op scale thr zp) ]).
