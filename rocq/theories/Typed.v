(** Typed.v -- the typed member templates of piquant::context (include/piquant.hpp:218-310) and the element types' equality operators
    (include/piquant.hpp:50-95). *)
From Coq Require Import ZArith List Bool.
From Verif Require Import Base Floats Dtypes QuantKernels DequantKernels Context.
Local Open Scope Z_scope.

(** include/piquant.hpp:193-197: the five types with a dtype_traits specialisation that has a type_code.  The [requires] clauses of the three templates
    (include/piquant.hpp:218-223, 252-257, 287-291) test is_dtype and otherwise only that an expression is well formed (a simple requirement), not its
    value: they accept every combination of these five types and reject all others. *)
Inductive ctype := T_float | T_bfp16 | T_uint2 | T_uint4 | T_uint8.
(* include/piquant.hpp:193-197 dtype_traits<T>::type_code *)
Definition type_code (T : ctype) : dtype :=
  match T with T_float => DT_F32 | T_bfp16 => DT_BF16 | T_uint2 => DT_UINT2 | T_uint4 => DT_UINT4 | T_uint8 => DT_UINT8 end.
(** include/piquant.hpp:78 (float), 127-129 (static_asserts on sizeof) *)
Definition sizeof (T : ctype) : Z := match T with T_float => 4 | T_bfp16 => 2 | T_uint2 => 1 | T_uint4 => 1 | T_uint8 => 1 end.
(** std::span<T>::size_bytes() of a span of [count] elements *)
Definition size_bytes (T : ctype) (count : nat) : Z := Z.of_nat count * sizeof T.

(** include/piquant.hpp:218-240 quantize_generic<IN, OUT>; [in_count], [out_count] are in.size() and out.size() *)
Definition quantize_generic (A : arch) (nt : nat) (oaddr : Z) (IN OUT : ctype) (in_count out_count : nat)
    (scale : f32) (zp : Z) (rm : round_mode_t) (thr : f32) : res (list (list action)) :=
  quantize A nt oaddr (size_bytes IN in_count) (type_code IN) (size_bytes OUT out_count) (type_code OUT) scale zp rm thr.
(** include/piquant.hpp:252-274 dequantize_generic<IN, OUT> *)
Definition dequantize_generic (A : arch) (nt : nat) (oaddr : Z) (IN OUT : ctype) (in_count out_count : nat)
    (scale : f32) (zp : Z) (op : reduce_op) : res (list (list action)) :=
  dequantize A nt oaddr (size_bytes IN in_count) (type_code IN) (size_bytes OUT out_count) (type_code OUT) scale zp op.
(** include/piquant.hpp:287-310 quantize_dequantize_fused_generic<INOUT, QUANT> *)
Definition quantize_dequantize_fused_generic (A : arch) (nt : nat) (oaddr : Z) (INOUT QUANT : ctype) (in_count out_count : nat)
    (scale : f32) (zp : Z) (rm : round_mode_t) (op : reduce_op) (thr : f32) : res (list (list action)) :=
  quantize_dequantize_fused A nt oaddr (size_bytes INOUT in_count) (type_code INOUT) (size_bytes INOUT out_count) (type_code QUANT) scale zp rm op thr.

(** include/piquant.hpp:91-92 bfp16_t::operator== / != : comparison of the stored bits.  A bfp16_t is its 16-bit pattern. *)
Definition bfp16_eqb (a b : Z) : bool := a =? b.
(* include/piquant.hpp:92 bfp16_t::operator != *)
Definition bfp16_neqb (a b : Z) : bool := negb (bfp16_eqb a b).
