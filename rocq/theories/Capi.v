(** Capi.v -- the C API (src/capi.cpp).  Models src/capi.cpp:9-104.  Enum arguments arrive as arbitrary 32-bit values. *)
From Coq Require Import ZArith List Lia Bool.
From Verif Require Import Base Floats Dtypes QuantKernels DequantKernels Context MinMax.
Import ListNotations.
Local Open Scope Z_scope.

(** dtype_infos[static_cast<std::size_t>(dtype)] (include/piquant.hpp:149-163) for the C enum value [v] (static_asserts of capi.cpp:9-13: the C and
    C++ enumerators agree); an index outside the five-element array is undefined behaviour. *)
Definition dtype_of_enum (v : Z) : res dtype :=
  if v =? 0 then Ok DT_F32 else if v =? 1 then Ok DT_BF16 else if v =? 2 then Ok DT_UINT2
  else if v =? 3 then Ok DT_UINT4 else if v =? 4 then Ok DT_UINT8 else UB.

(** static_cast<round_mode>(mode) / static_cast<reduce_op>(op): the value is used as an array index when (and only when) a kernel is dispatched
    (kernels.inl:151-187), so a wrong value matters only if some job has work. *)
Definition round_mode_of_enum (v : Z) : option round_mode_t :=
  if v =? 0 then Some RM_NEAREST else if v =? 1 then Some RM_STOCHASTIC else None.
(* capi.cpp:80 static_cast<reduce_op>(op), piquant.h enum values *)
Definition reduce_op_of_enum (v : Z) : option reduce_op :=
  if v =? 0 then Some RO_SET else if v =? 1 then Some RO_ADD else None.
(* no job has an element to process (piquant.cpp:160-163: the kernel is looked up only for a non-empty range) *)
Definition no_work (jobs : list (list action)) : bool := forallb (fun j => match j with [] => true | _ => false end) jobs.
(* kernels.inl:151-187: a table indexed with a value outside the enum *)
Definition bad_index (r : res (list (list action))) : res (list (list action)) :=
  jobs <- r ;; if no_work jobs then Ok jobs else UB.

(** [bit_size == 8 ? numel*stride : packed_numel(numel, info)*stride] in size_t arithmetic (capi.cpp:42, 69) *)
Definition packed_bytes (numel : Z) (d : dtype) : res Z :=
  if Nat.eqb (bit_size d) 8 then Ok (wrap_u64 (numel * Z.of_nat (stride d)))
  else p <- packed_numel numel d ;; Ok (wrap_u64 (p * Z.of_nat (stride d))).

(** The byte counts of the two spans a call makes of its pointers. *)
Definition c_quantize_sizes (numel : Z) (dt_in dt_out : dtype) : res (Z * Z) :=
  out_bytes <- packed_bytes numel dt_out ;; Ok (wrap_u64 (numel * Z.of_nat (stride dt_in)), out_bytes).
(* capi.cpp:67-70 *)
Definition c_dequantize_sizes (numel : Z) (dt_in dt_out : dtype) : res (Z * Z) :=
  in_bytes <- packed_bytes numel dt_in ;; Ok (in_bytes, wrap_u64 (numel * Z.of_nat (stride dt_out))).

(** capi.cpp:28-54 piquant_quantize.  [A], [nt] are the context's kernel set and thread count; [oaddr] the address [out]; pointers are otherwise
    not modelled (they must address buffers of the computed sizes). *)
Definition c_quantize (A : arch) (nt : nat) (oaddr : Z) (dtype_in dtype_out numel : Z) (scale : f32) (zp : Z) (mode : Z) (thr : f32)
  : res (list (list action)) :=
  dti <- dtype_of_enum dtype_in ;;
  dto <- dtype_of_enum dtype_out ;;
  sz <- c_quantize_sizes numel dti dto ;;
  match round_mode_of_enum mode with
  | Some rm => quantize A nt oaddr (fst sz) dti (snd sz) dto scale zp rm thr
  | None => bad_index (quantize A nt oaddr (fst sz) dti (snd sz) dto scale zp RM_NEAREST thr)
  end.
(** capi.cpp:56-82 piquant_dequantize *)
Definition c_dequantize (A : arch) (nt : nat) (oaddr : Z) (dtype_in dtype_out numel : Z) (scale : f32) (zp : Z) (op : Z)
  : res (list (list action)) :=
  dti <- dtype_of_enum dtype_in ;;
  dto <- dtype_of_enum dtype_out ;;
  sz <- c_dequantize_sizes numel dti dto ;;
  match reduce_op_of_enum op with
  | Some ro => dequantize A nt oaddr (fst sz) dti (snd sz) dto scale zp ro
  | None => bad_index (dequantize A nt oaddr (fst sz) dti (snd sz) dto scale zp RO_SET)
  end.
(** capi.cpp:84-104 piquant_compute_quant_params_float32 / _bfloat16: the result is stored through out_scale and out_zero_point.
    [d] is DT_F32 for the first and DT_BF16 (reinterpret_cast of the uint16 pointer) for the second.  An out-of-range target dtype
    indexes past the table in compute_type_max, after the scan. *)
Definition c_compute_quant_params (a : arch) (d : dtype) (inm : mem) (blocks : list (nat * nat)) (target : Z) : res (f32 * Z) :=
  match dtype_of_enum target with
  | Ok dq => compute_quant_config_from_data a d dq inm blocks
  | _ => UB
  end.
