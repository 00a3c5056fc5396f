(** Dtypes.v -- dtype table, rounding/reduce enums, kernel sets. *)
From Coq Require Import ZArith List Bool.
From Verif Require Import Base Floats.
Import ListNotations.
Local Open Scope Z_scope.

(** include/piquant.hpp:36-45 *)
Inductive dtype := DT_F32 | DT_BF16 | DT_UINT2 | DT_UINT4 | DT_UINT8.
(** include/piquant.hpp:20-33 *)
Inductive round_mode_t := RM_NEAREST | RM_STOCHASTIC.
(* include/piquant.hpp:27-32 reduce_op *)
Inductive reduce_op := RO_SET | RO_ADD.
(** include/piquant.hpp:317-321 *)
Inductive command_type := CMD_QUANT | CMD_DEQUANT | CMD_QUANT_DEQUANT.

(** Which copy of kernels.inl is active (src/kernel_generic.cpp, src/amd64/ *.cpp): the generic x86-64 build has
    no vector code; on aarch64 the generic copy is compiled with NEON. *)
Inductive arch := GENERIC | SSE42 | AVX2 | AVX512F | AVX512BF16 | NEON.

(** include/piquant.hpp:149-155 dtype_infos *)
Definition stride (d : dtype) : nat :=
  match d with DT_F32 => 4 | DT_BF16 => 2 | DT_UINT2 => 1 | DT_UINT4 => 1 | DT_UINT8 => 1 end.
(* include/piquant.hpp:149-155 dtype_infos, bit_size *)
Definition bit_size (d : dtype) : nat :=
  match d with DT_F32 => 32 | DT_BF16 => 16 | DT_UINT2 => 2 | DT_UINT4 => 4 | DT_UINT8 => 8 end.
(** include/piquant.hpp:131-140: is_quant = 1, is_float = 2, is_int = 4, is_signed = 8, is_packed = 16 *)
Definition flags (d : dtype) : Z :=
  match d with
  | DT_F32 => 2 + 8 | DT_BF16 => 2 + 8
  | DT_UINT2 => 1 + 4 + 16 | DT_UINT4 => 1 + 4 + 16 | DT_UINT8 => 1 + 4
  end.
(* (info.flags & flag) as a condition, e.g. piquant.cpp:288-289 *)
Definition has_flag (f : Z) (d : dtype) : bool := negb (Z.land (flags d) f =? 0).
(* include/piquant.hpp:131-140 dtype_flags::is_quant *)
Definition is_quant := has_flag 1.
(* include/piquant.hpp:131-140 dtype_flags::is_float *)
Definition is_float := has_flag 2.
(* include/piquant.hpp:131-140 dtype_flags::is_int *)
Definition is_int := has_flag 4.
(* include/piquant.hpp:131-140 dtype_flags::is_signed *)
Definition is_signed := has_flag 8.
(* include/piquant.hpp:131-140 dtype_flags::is_packed *)
Definition is_packed := has_flag 16.

(** include/piquant.hpp:175-186 dtype_limits of the quantized types *)
Definition limit_min (d : dtype) : Z := 0.
(* include/piquant.hpp:175-186 dtype_limits<uint2_t, uint4_t, std::uint8_t>::max *)
Definition limit_max (d : dtype) : Z :=
  match d with DT_UINT2 => 3 | DT_UINT4 => 15 | DT_UINT8 => 255 | _ => 0 end.
