(** Context.v -- the dispatch tables (src/kernels/kernels.inl), the work partition and the public entry points
    quantize / dequantize / quantize_dequantize_fused (src/piquant.cpp). *)
From Coq Require Import ZArith List Lia Bool.
From Verif Require Import Base Floats Dtypes QuantKernels DequantKernels.
Import ListNotations.
Local Open Scope Z_scope.

(** ** Enum values (include/piquant.hpp:20-45) *)
Definition dtype_index (d : dtype) : nat :=
  match d with DT_F32 => 0 | DT_BF16 => 1 | DT_UINT2 => 2 | DT_UINT4 => 3 | DT_UINT8 => 4 end%nat.
(* include/piquant.hpp:20-25 round_mode *)
Definition rm_index (r : round_mode_t) : nat := match r with RM_NEAREST => 0 | RM_STOCHASTIC => 1 end%nat.
(* include/piquant.hpp:27-32 reduce_op *)
Definition ro_index (r : reduce_op) : nat := match r with RO_SET => 0 | RO_ADD => 1 end%nat.

(** ** Dispatch tables.  A table entry is the template instance whose address it holds (or nullptr). *)
Inductive kernel_id :=
| K_quant (src dst : dtype) (rm : round_mode_t)
| K_dequant (inn outt : dtype) (op : reduce_op)
| K_requant (src dst : dtype) (rm : round_mode_t) (op : reduce_op).
(* kernels.inl:73-75 quant_types, fp_types *)
Definition quant_types : list dtype := [DT_UINT2; DT_UINT4; DT_UINT8].
(* kernels.inl:73-75 fp_types *)
Definition fp_types : list dtype := [DT_F32; DT_BF16].
(* kernels.inl:59-66: dequant_entry<Src, Dst, R> is dequant_generic<Dst, Src, R> *)
Definition dequant_entry (src dst : dtype) (r : reduce_op) : kernel_id := K_dequant dst src r.
(* kernels.inl:77-105: two null entries, then one entry per quantized type *)
Definition make_quant_row (src : dtype) (m : round_mode_t) : list (option kernel_id) :=
  [None; None] ++ map (fun dst => Some (K_quant src dst m)) quant_types.
(* kernels.inl:84-89 *)
Definition make_dequant_row (src : dtype) (r : reduce_op) : list (option kernel_id) :=
  [None; None] ++ map (fun dst => Some (dequant_entry src dst r)) quant_types.
(* kernels.inl:91-96 *)
Definition make_requant_row (src : dtype) (m : round_mode_t) (r : reduce_op) : list (option kernel_id) :=
  [None; None] ++ map (fun dst => Some (K_requant src dst m r)) quant_types.
(* kernels.inl:107-121, 123-137, 139-149 *)
Definition quant_functions : list (list (list (option kernel_id))) :=
  [ [make_quant_row DT_F32 RM_NEAREST; make_quant_row DT_BF16 RM_NEAREST];
    [make_quant_row DT_F32 RM_STOCHASTIC; make_quant_row DT_BF16 RM_STOCHASTIC] ].
(* kernels.inl:123-137 *)
Definition dequant_functions : list (list (list (option kernel_id))) :=
  [ [make_dequant_row DT_F32 RO_SET; make_dequant_row DT_BF16 RO_SET];
    [make_dequant_row DT_F32 RO_ADD; make_dequant_row DT_BF16 RO_ADD] ].
(* kernels.inl:98-105 *)
Definition make_requant_block (m : round_mode_t) (r : reduce_op) := map (fun src => make_requant_row src m r) fp_types.
(* kernels.inl:139-149 *)
Definition requant_functions : list (list (list (list (option kernel_id)))) :=
  [ [make_requant_block RM_NEAREST RO_SET; make_requant_block RM_NEAREST RO_ADD];
    [make_requant_block RM_STOCHASTIC RO_SET; make_requant_block RM_STOCHASTIC RO_ADD] ].

(** array indexing: out of range is UB *)
Definition at_ {T} (l : list T) (k : nat) : res T := match nth_error l k with Some v => Ok v | None => UB end.
(* piquant_assert(kernel != nullptr, ...) *)
Definition non_null {T} (k : option T) : res T := match k with Some v => Ok v | None => Abort end.

(** include/piquant.hpp:323-335 quant_descriptor, without the pointers *)
Record descriptor := mk_desc {
  d_type : command_type;
  d_numel : Z;
  d_scale : f32;
  d_zp : Z;
  d_in : dtype;
  d_out : dtype;
  d_rounding : round_mode_t;
  d_reducing : reduce_op;
  d_threshold : f32
}.

(** kernels.inl:151-187: which kernel instance a descriptor selects *)
Definition select_kernel (d : descriptor) : res kernel_id :=
  match d_type d with
  | CMD_QUANT =>
      _a <- assert (negb (is_quant (d_in d))) ;; _b <- assert (is_quant (d_out d)) ;;
      t <- at_ quant_functions (rm_index (d_rounding d)) ;; r <- at_ t (dtype_index (d_in d)) ;;
      k <- at_ r (dtype_index (d_out d)) ;; non_null k
  | CMD_DEQUANT =>
      _a <- assert (is_quant (d_in d)) ;; _b <- assert (negb (is_quant (d_out d))) ;;
      t <- at_ dequant_functions (ro_index (d_reducing d)) ;; r <- at_ t (dtype_index (d_out d)) ;;
      k <- at_ r (dtype_index (d_in d)) ;; non_null k
  | CMD_QUANT_DEQUANT =>
      _a <- assert (negb (is_quant (d_in d))) ;; _b <- assert (is_quant (d_out d)) ;;
      t <- at_ requant_functions (rm_index (d_rounding d)) ;; t2 <- at_ t (ro_index (d_reducing d)) ;;
      r <- at_ t2 (dtype_index (d_in d)) ;; k <- at_ r (dtype_index (d_out d)) ;; non_null k
  end.
(** calling the instance; [oaddr] is the address of the output pointer it receives.  kernels.inl:160-161, 172-173, 186-187 *)
Definition call_kernel (A : arch) (k : kernel_id) (oaddr : Z) (range : nat) (d : descriptor) : list action :=
  match k with
  | K_quant src dst rm => quant_generic A src dst rm oaddr range (d_scale d) (d_threshold d) (d_zp d)
  | K_dequant inn outt op => dequant_generic A inn outt op range (d_scale d) (d_zp d)
  | K_requant src dst rm op => requant_generic src dst rm op range (d_scale d) (d_threshold d) (d_zp d)
  end.
(* kernels.inl:189-196 quantize_dispatch *)
Definition quantize_dispatch (A : arch) (oaddr : Z) (range : nat) (d : descriptor) : res (list action) :=
  k <- select_kernel d ;; Ok (call_kernel A k oaddr range d).

(** ** Partition: piquant.cpp:132-158 (partition_row); int64 arithmetic, overflow is UB; / and % truncate *)
Definition packed_bits (d : descriptor) : Z :=
  let bs_in := Z.of_nat (bit_size (d_in d)) in let bs_out := Z.of_nat (bit_size (d_out d)) in
  match d_type d with CMD_QUANT => bs_out | CMD_DEQUANT => bs_in | CMD_QUANT_DEQUANT => Z.max bs_in bs_out end.
(* piquant.cpp:136-146: elements per packed byte *)
Definition pack_elems (d : descriptor) : Z := if packed_bits d <? 8 then Z.quot 8 (packed_bits d) else 1.
(* piquant.cpp:135-158 *)
Definition partition_row (d : descriptor) (ti tc : Z) : res (option (Z * Z)) :=
  let pe := pack_elems d in
  let n := d_numel d in
  let tcm := Z.max 1 tc in
  nt <- i64 (n * ti) ;;
  t1 <- i64 (ti + 1) ;;
  nt1 <- i64 (n * t1) ;;
  let raw_begin := Z.quot nt tcm in
  let raw_end := Z.quot nt1 tcm in
  let align_down v := if pe =? 1 then v else v - Z.rem v pe in
  let begin := if pe =? 1 then raw_begin else align_down raw_begin in
  let ende := if (t1 =? tcm) || (pe =? 1) then raw_end else align_down raw_end in
  if ende <=? begin then Ok None else Ok (Some (begin, ende - begin)).

(* piquant.cpp:159-176: byte offsets in size_t arithmetic *)
Definition byte_off (bits : nat) (o : Z) : Z := wrap_u64 (Z.of_nat bits * o) / 8.
(* piquant.cpp:159-176 *)
Definition job_entry (A : arch) (oaddr : Z) (d : descriptor) (ti tc : Z) : res (list action) :=
  p <- partition_row d ti tc ;;
  match p with
  | None => Ok []
  | Some (o, n) =>
      let si := bit_size (d_in d) in
      let so := match d_type d with CMD_QUANT_DEQUANT => si | _ => bit_size (d_out d) end in
      let di := byte_off si o in let do := byte_off so o in
      acts <- quantize_dispatch A (oaddr + do) (Z.to_nat n) d ;;
      Ok (map (shift_action (Z.to_nat di) (Z.to_nat do)) acts)
  end.

(** piquant.cpp:197-211: one job per thread index 0 .. num_threads-1.  The random threshold is a parameter: it is
    drawn once per call for stochastic rounding and is 0 otherwise. *)
Definition run_command (A : arch) (num_threads : nat) (oaddr : Z) (d : descriptor) (thr : f32) : res (list (list action)) :=
  let d' := match d_rounding d with
            | RM_STOCHASTIC => mk_desc (d_type d) (d_numel d) (d_scale d) (d_zp d) (d_in d) (d_out d) (d_rounding d) (d_reducing d) thr
            | RM_NEAREST => d
            end in
  sequence (map (fun ti => job_entry A oaddr d' (Z.of_nat ti) (Z.of_nat num_threads)) (seq 0 num_threads)).

(** ** Entry points *)
(* piquant_internal.hpp:41-44; 8u / bit_size is 0 for the float types: division by zero *)
Definition packed_numel (ne : Z) (d : dtype) : res Z :=
  let per_byte := 8 / Z.of_nat (bit_size d) in
  if per_byte =? 0 then UB else Ok (wrap_u64 (ne + per_byte - 1) / per_byte).
(* static_cast<std::int64_t>(std::size_t) *)
Definition to_i64 (z : Z) : Z := (z + 9223372036854775808) mod 18446744073709551616 - 9223372036854775808.

(* piquant.cpp:277-308 *)
Definition quantize (A : arch) (num_threads : nat) (oaddr : Z) (in_size : Z) (dt_in : dtype) (out_size : Z) (dt_out : dtype)
    (scale : f32) (zp : Z) (rm : round_mode_t) (thr : f32) : res (list (list action)) :=
  _a <- assert (negb (is_quant dt_in)) ;;
  _b <- assert (is_quant dt_out) ;;
  let ne := in_size / Z.of_nat (stride dt_in) in
  expected <- (if Nat.eqb (bit_size dt_out) 8 then Ok (wrap_u64 (ne * Z.of_nat (stride dt_out)))
               else p <- packed_numel ne dt_out ;; Ok (wrap_u64 (p * Z.of_nat (stride dt_out)))) ;;
  _c <- assert (out_size =? expected) ;;
  run_command A num_threads oaddr (mk_desc CMD_QUANT (to_i64 ne) scale zp dt_in dt_out rm RO_SET f_zero) thr.
(* piquant.cpp:310-340 *)
Definition dequantize (A : arch) (num_threads : nat) (oaddr : Z) (in_size : Z) (dt_in : dtype) (out_size : Z) (dt_out : dtype)
    (scale : f32) (zp : Z) (op : reduce_op) : res (list (list action)) :=
  _a <- assert (is_quant dt_in) ;;
  _b <- assert (negb (is_quant dt_out)) ;;
  let ne := out_size / Z.of_nat (stride dt_out) in
  p <- packed_numel ne dt_in ;;
  _c <- assert (in_size =? wrap_u64 (p * Z.of_nat (stride dt_in))) ;;
  run_command A num_threads oaddr (mk_desc CMD_DEQUANT (to_i64 ne) scale zp dt_in dt_out RM_NEAREST op f_zero) f_zero.
(* piquant.cpp:342-369 *)
Definition quantize_dequantize_fused (A : arch) (num_threads : nat) (oaddr : Z) (in_size : Z) (dt_in_out : dtype) (out_size : Z)
    (quant_type : dtype) (scale : f32) (zp : Z) (rm : round_mode_t) (op : reduce_op) (thr : f32) : res (list (list action)) :=
  _a <- assert (negb (is_quant dt_in_out)) ;;
  _b <- assert (is_quant quant_type) ;;
  _c <- assert (in_size =? out_size) ;;
  run_command A num_threads oaddr
    (mk_desc CMD_QUANT_DEQUANT (to_i64 (in_size / Z.of_nat (stride dt_in_out))) scale zp dt_in_out quant_type rm op f_zero) thr.
