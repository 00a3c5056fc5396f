(** Contract.v -- the dequantization kernels as a compiler that contracts floating-point expressions builds them.
    CMakeLists.txt:43-46 compiles the AVX2 and AVX-512 kernel files with -mfma and no -ffp-contract option, so GCC (default: fast) may turn
    a product that is only added to something else into one fused multiply-add with a single rounding; aarch64 always has fma.  The only such
    sites of the library are the ReduceOp::add stores [o[i] += (float)(q - zp)*scale].  (In the quantization kernels every product is also
    compared, truncated or rounded; in compute_quant_config there is no product; in the bf16 scalar loops the product is first
    rounded to bf16; the uint4/uint2 -> bf16 vector loops already use fma.)
    [cv] = the compiler contracts the vector loops, [cs] = it contracts the scalar loops; both [false] = the kernels of DequantKernels.v. *)
From Coq Require Import ZArith List Lia Bool.
From Flocq Require Import Binary Bits.
From Verif Require Import Base Floats Simd Dtypes QuantKernels DequantKernels Context.
Import ListNotations.
Local Open Scope Z_scope.

(** ** Scalar sites *)
(* static_cast<fp32_t>(static_cast<std::int32_t>(x) - zp): kernels_specialized.inl:922, 1168-1170; the product with scale is part of the store *)
Definition diff_i32 (zp : Z) (q : Z) : res f32 := d <- i32 (q - zp) ;; Ok (f32_of_Z d).
(* static_cast<fp32_t>(static_cast<std::int64_t>(x) - zp): dequantize.inl:8-11 *)
Definition diff_i64 (zp : Z) (q : Z) : res f32 := d <- i64 (q - zp) ;; Ok (f32_of_Z d).
(* o[i] = a*scale; o[i] += a*scale: kernels_specialized.inl:921-925, 1172-1188; dequantize.inl:52-86; kernels.inl:43-50 *)
Definition put_f32_c (cs : bool) (op : reduce_op) (scale a : f32) (old : mem) : mem :=
  le_bytes 4 (bits_of_f32 (match op with
    | RO_SET => fmul a scale
    | RO_ADD => if cs then ffma a scale (ld_f32 old) else fadd (ld_f32 old) (fmul a scale)
    end)).

(** ** Vector sites: add_ps(mul_ps(a, vscale), loadu_ps(o)) *)
(* kernels_specialized.inl:750-758, 790-806, 839-871, 905-913, 1036-1061, 1098-1123, 1133-1154 *)
Definition lanes_diff (n : nat) (zp : Z) (q : list Z) : list f32 := cvtepi32_ps (sub_epi32 q (set1 n zp)).
(* kernels_specialized.inl:754-758, 798-806 (add_ps of a product), contracted or not *)
Definition accum_ps (cv : bool) (n : nat) (scale : f32) (a o : list f32) : list f32 :=
  if cv then fmadd_ps a (set1 n scale) o else add_ps (mul_ps a (set1 n scale)) o.
(* kernels_specialized.inl:750-763, 790-815, 839-879, 905-917, 1036-1070, 1098-1130, 1133-1164 *)
Definition reg_f32_c (cv : bool) (op : reduce_op) (n : nat) (scale : f32) (zp : Z) (q : list Z) (o : mem) : mem :=
  store_ps (match op with
    | RO_SET => mul_ps (lanes_diff n zp q) (set1 n scale)
    | RO_ADD => accum_ps cv n scale (lanes_diff n zp q) (loadu_ps o)
    end).
(* kernels_specialized.inl:950-970 *)
Definition reg_bf16_c (A : arch) (cv : bool) (op : reduce_op) (n : nat) (scale : f32) (zp : Z) (q : list Z) (o : mem) : mem :=
  store_u16 (map (cvt_ps_to_bf16 A) (match op with
    | RO_SET => mul_ps (lanes_diff n zp q) (set1 n scale)
    | RO_ADD => accum_ps cv n scale (lanes_diff n zp q) (slli16_castps (load_u16 o))
    end)).

(** ** Kernels; the loops are those of DequantKernels.v *)
(* kernels_specialized.inl:729-926 *)
Definition dequant_uint8_to_f32_c (cv cs : bool) (A : arch) (op : reduce_op) (numel : nat) (scale : f32) (zp : Z) : list action :=
  let blk n ln regs := (blk_cond numel n, n, dact_block 4 n n id_idx (fun b o => emit (4 * ln) (reg_f32_c cv op ln scale zp) (regs b) o)) in
  fst (seq_loops numel (
    match A with
    | AVX512F | AVX512BF16 => [ blk 64%nat 16%nat regs_u8_avx512 ]
    | AVX2 => [ blk 64%nat 8%nat regs_u8_avx2 ]
    | SSE42 => [ blk 64%nat 4%nat regs_u8_sse ]
    | NEON => [ blk 16%nat 4%nat regs_u8_neon ]
    | GENERIC => []
    end ++ [ (blk_cond numel 1, 1%nat, dact_u8 4 (diff_i32 zp) (put_f32_c cs op scale)) ])).
(* 928-982; the scalar loop rounds the product to bf16 before it adds *)
Definition dequant_uint8_to_bf16_c (cv : bool) (A : arch) (op : reduce_op) (numel : nat) (scale : f32) (zp : Z) : list action :=
  fst (seq_loops numel (
    match A with
    | AVX512F | AVX512BF16 =>
        [ (blk_cond numel 64, 64%nat, dact_block 2 64 64 id_idx (fun b o => emit 32 (reg_bf16_c A cv op 16 scale zp) (regs_u8_avx512 b) o)) ]
    | _ => []
    end ++ [ (blk_cond numel 1, 1%nat, dact_u8 2 (dq_i32 scale zp) (put_bf16 op)) ])).
(* 984-1189 *)
Definition dequant_uint4_to_f32_c (cv cs : bool) (A : arch) (op : reduce_op) (numel : nat) (scale : f32) (zp : Z) : list action :=
  let blk n hn ln regs := (blk_cond numel n, n, dact_block 4 hn n half_idx (fun b o => emit (4 * ln) (reg_f32_c cv op ln scale zp) (regs b) o)) in
  du4_finish 4 (diff_i32 zp) (put_f32_c cs op scale) numel (seq_loops numel (
    match A with
    | AVX512F | AVX512BF16 => [ blk 128%nat 64%nat 16%nat regs_u4_avx512 ]
    | AVX2 => [ blk 64%nat 32%nat 8%nat regs_u4_avx2 ]
    | SSE42 => [ blk 32%nat 16%nat 4%nat regs_u4_sse ]
    | NEON | GENERIC => []
    end ++ [ (blk_cond numel 2, 2%nat, dact_u4_pair 4 (diff_i32 zp) (put_f32_c cs op scale)) ])).
(* dequantize.inl:42-87 *)
Definition dequant_uint2_f32_c (cs : bool) (op : reduce_op) (numel : nat) (scale : f32) (zp : Z) : list action :=
  let st := seq_loops numel [ (blk_cond numel 4, 4%nat, dact_u2 4 (diff_i64 zp) (put_f32_c cs op scale) 4) ] in
  fst st ++ [dact_u2 4 (diff_i64 zp) (put_f32_c cs RO_SET scale) (Nat.modulo numel 4) (snd st)].
(* dequantize.inl:89-140 *)
Definition dequant_generic_c (cv cs : bool) (A : arch) (din dout : dtype) (op : reduce_op) (numel : nat) (scale : f32) (zp : Z) : list action :=
  match din, dout with
  | DT_UINT8, DT_F32 => dequant_uint8_to_f32_c cv cs A op numel scale (wrap32 zp)
  | DT_UINT4, DT_F32 => dequant_uint4_to_f32_c cv cs A op numel scale (wrap32 zp)
  | DT_UINT8, DT_BF16 => dequant_uint8_to_bf16_c cv A op numel scale (wrap32 zp)
  | DT_UINT4, DT_BF16 => dequant_uint4_to_bf16 A op numel scale (wrap32 zp)
  | DT_UINT2, DT_BF16 => dequant_uint2_to_bf16 A op numel scale (wrap32 zp)
  | DT_UINT2, DT_F32 => dequant_uint2_f32_c cs op numel scale zp
  | _, _ => []
  end.

(* kernels.inl:30-52 *)
Definition requant_elem_c (cs : bool) (d dq : dtype) (rm : round_mode_t) (op : reduce_op) (scale thr : f32) (zp : Z) (b old : mem) : res mem :=
  q <- quant_step_scalar rm (limit_max dq) thr (fdiv f_one scale) zp (ld d b) ;;
  match d with
  | DT_BF16 => v <- dq_i64_bf16 scale zp q ;; Ok (put_bf16v op v old)
  | _ => a <- diff_i64 zp q ;; Ok (put_f32_c cs op scale a old)
  end.
(* kernels.inl:30-52, the loop *)
Definition requant_generic_c (cs : bool) (d dq : dtype) (rm : round_mode_t) (op : reduce_op) (numel : nat) (scale thr : f32) (zp : Z) : list action :=
  fst (seq_loops numel [ (blk_cond numel 1, 1%nat, fun i =>
    mk_action (esize d * i) (esize d) (esize d * i) (esize d) (requant_elem_c cs d dq rm op scale thr zp)) ]).

(** ** The calls, with these kernels *)
(* kernels.inl:151-196 *)
Definition call_kernel_c (cv cs : bool) (A : arch) (k : kernel_id) (oaddr : Z) (range : nat) (d : descriptor) : list action :=
  match k with
  | K_quant src dst rm => quant_generic A src dst rm oaddr range (d_scale d) (d_threshold d) (d_zp d)
  | K_dequant inn outt op => dequant_generic_c cv cs A inn outt op range (d_scale d) (d_zp d)
  | K_requant src dst rm op => requant_generic_c cs src dst rm op range (d_scale d) (d_threshold d) (d_zp d)
  end.
(* piquant.cpp:159-176 *)
Definition job_entry_c (cv cs : bool) (A : arch) (oaddr : Z) (d : descriptor) (ti tc : Z) : res (list action) :=
  p <- partition_row d ti tc ;;
  match p with
  | None => Ok []
  | Some (o, n) =>
      let si := bit_size (d_in d) in
      let so := match d_type d with CMD_QUANT_DEQUANT => si | _ => bit_size (d_out d) end in
      let di := byte_off si o in let do := byte_off so o in
      k <- select_kernel d ;;
      Ok (map (shift_action (Z.to_nat di) (Z.to_nat do)) (call_kernel_c cv cs A k (oaddr + do) (Z.to_nat n) d))
  end.
(* piquant.cpp:197-211 *)
Definition run_command_c (cv cs : bool) (A : arch) (num_threads : nat) (oaddr : Z) (d : descriptor) (thr : f32) : res (list (list action)) :=
  let d' := match d_rounding d with
            | RM_STOCHASTIC => mk_desc (d_type d) (d_numel d) (d_scale d) (d_zp d) (d_in d) (d_out d) (d_rounding d) (d_reducing d) thr
            | RM_NEAREST => d
            end in
  sequence (map (fun ti => job_entry_c cv cs A oaddr d' (Z.of_nat ti) (Z.of_nat num_threads)) (seq 0 num_threads)).
(* piquant.cpp:310-340 *)
Definition dequantize_c (cv cs : bool) (A : arch) (num_threads : nat) (oaddr : Z) (in_size : Z) (dt_in : dtype) (out_size : Z) (dt_out : dtype)
    (scale : f32) (zp : Z) (op : reduce_op) : res (list (list action)) :=
  _a <- assert (is_quant dt_in) ;;
  _b <- assert (negb (is_quant dt_out)) ;;
  let ne := out_size / Z.of_nat (stride dt_out) in
  p <- packed_numel ne dt_in ;;
  _c <- assert (in_size =? wrap_u64 (p * Z.of_nat (stride dt_in))) ;;
  run_command_c cv cs A num_threads oaddr (mk_desc CMD_DEQUANT (to_i64 ne) scale zp dt_in dt_out RM_NEAREST op f_zero) f_zero.
(* piquant.cpp:342-369 *)
Definition quantize_dequantize_fused_c (cv cs : bool) (A : arch) (num_threads : nat) (oaddr : Z) (in_size : Z) (dt_in_out : dtype) (out_size : Z)
    (quant_type : dtype) (scale : f32) (zp : Z) (rm : round_mode_t) (op : reduce_op) (thr : f32) : res (list (list action)) :=
  _a <- assert (negb (is_quant dt_in_out)) ;;
  _b <- assert (is_quant quant_type) ;;
  _c <- assert (in_size =? out_size) ;;
  run_command_c cv cs A num_threads oaddr
    (mk_desc CMD_QUANT_DEQUANT (to_i64 (in_size / Z.of_nat (stride dt_in_out))) scale zp dt_in_out quant_type rm op f_zero) thr.
