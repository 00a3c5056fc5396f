(** Python.v -- the Python package (python/src/piquant/__init__.py, _bootstrap.py, torch.py).
    Models the pure-Python logic: dtype helpers, argument checks, the conversions cffi performs on the arguments (_bootstrap.py:15-81) and the
    calls into the C API.  [opt] says that the interpreter runs with -O (assert statements are skipped).
    Simplified: enum members accessed through [self] resolve to the members (all CPython versions but 3.11); PyTorch itself is represented by
    tensors with a shape, a data pointer and contiguous contents; strided views and [.contiguous()] are in PyViews.v. *)
From Coq Require Import ZArith List Lia Bool String.
From Verif Require Import Base Floats Dtypes QuantKernels DequantKernels Context MinMax Capi.
Import ListNotations.
Local Open Scope Z_scope.

(** A Python call either raises, or gets through to the C library with outcome [r]. *)
Inductive exn := AssertionError | ValueError | KeyError | OverflowError.
(* outcome of a Python call; models no line of its own *)
Inductive pyres (A : Type) := Raise (e : exn) | Ret (r : res A).
Arguments Raise {A} e.
Arguments Ret {A} r.
(* assert statement (__init__.py:93-96, 114-117, torch.py:59, 79); [opt] = python -O, which drops it *)
Definition py_assert {A} (opt b : bool) (k : pyres A) : pyres A := if opt || b then k else Raise AssertionError.

(** __init__.py:33-39 DataType: the members' values are the C enumerators (_bootstrap.py:29-36). *)
Definition py_value (d : dtype) : Z := match d with DT_F32 => 0 | DT_BF16 => 1 | DT_UINT2 => 2 | DT_UINT4 => 3 | DT_UINT8 => 4 end.
(** __init__.py:21-30 RoundMode, ReduceOp (_bootstrap.py:19-27) *)
Definition py_mode_value (m : round_mode_t) : Z := match m with RM_NEAREST => 0 | RM_STOCHASTIC => 1 end.
(* __init__.py:26-29 ReduceOp, _bootstrap.py:24-27 *)
Definition py_op_value (o : reduce_op) : Z := match o with RO_SET => 0 | RO_ADD => 1 end.
(** __init__.py:40-49 DataType.bit_size *)
Definition py_bit_size (d : dtype) : Z := match d with DT_F32 => 32 | DT_BF16 => 16 | DT_UINT2 => 2 | DT_UINT4 => 4 | DT_UINT8 => 8 end.
(** __init__.py:51-53 DataType.is_quantized *)
Definition py_is_quantized (d : dtype) : bool := match d with DT_UINT2 | DT_UINT4 | DT_UINT8 => true | _ => false end.
(** __init__.py:55-57 DataType.is_dequantized *)
Definition py_is_dequantized (d : dtype) : bool := match d with DT_F32 | DT_BF16 => true | _ => false end.
(** __init__.py:59-61 DataType.stride *)
Definition py_stride (d : dtype) : Z := Z.shiftr (Z.min 8 (py_bit_size d)) 3.

(** __init__.py:65-71 Context.__init__: the number of threads it asks for *)
Definition py_num_threads (num_threads : option Z) (cpu_count : Z) : Z :=
  match num_threads with Some n => n | None => Z.max (cpu_count - 1) 1 end.

(** cffi: an int passed for size_t / int64_t must be in range (OverflowError otherwise); a Python float passed for float is rounded. *)
Definition cffi_size_t {A} (n : Z) (k : pyres A) : pyres A := if (0 <=? n) && (n <? 2 ^ 64) then k else Raise OverflowError.
(* int64_t zero_point: _bootstrap.py:41-63, cdef of piquant_quantize, piquant_dequantize *)
Definition cffi_int64 {A} (n : Z) (k : pyres A) : pyres A := if in_i64 n then k else Raise OverflowError.
(* float scale: _bootstrap.py:41-63, cdef of piquant_quantize, piquant_dequantize *)
Definition cffi_float (x : f64) : f32 := f32_of_f64 x.

(** __init__.py:82-101 Context.quantize_ptr *)
Definition quantize_ptr (opt : bool) (A : arch) (nt : nat) (ptr_in : Z) (dtype_in : dtype) (ptr_out : Z) (dtype_out : dtype) (numel : Z) (scale : f64)
  (zp : Z) (rm : round_mode_t) (thr : f32) : pyres (list (list action)) :=
  py_assert opt (py_is_dequantized dtype_in)
  (py_assert opt (py_is_quantized dtype_out)
  (py_assert opt (negb (ptr_in =? 0))
  (py_assert opt (negb (ptr_out =? 0))
  (cffi_size_t numel (cffi_int64 zp
  (Ret (c_quantize A nt (wrap_u64 ptr_out) (py_value dtype_in) (py_value dtype_out) numel (cffi_float scale) zp (py_mode_value rm) thr))))))).
(** __init__.py:103-122 Context.dequantize_ptr *)
Definition dequantize_ptr (opt : bool) (A : arch) (nt : nat) (ptr_in : Z) (dtype_in : dtype) (ptr_out : Z) (dtype_out : dtype) (numel : Z) (scale : f64)
  (zp : Z) (op : reduce_op) : pyres (list (list action)) :=
  py_assert opt (py_is_quantized dtype_in)
  (py_assert opt (py_is_dequantized dtype_out)
  (py_assert opt (negb (ptr_in =? 0))
  (py_assert opt (negb (ptr_out =? 0))
  (cffi_size_t numel (cffi_int64 zp
  (Ret (c_dequantize A nt (wrap_u64 ptr_out) (py_value dtype_in) (py_value dtype_out) numel (cffi_float scale) zp (py_op_value op)))))))).
(** __init__.py:124-142 Context.compute_quant_params_ptr_float32 ([d] = DT_F32) / _bfloat16 ([d] = DT_BF16).  [inm] is the memory at [ptr],
    [blocks] the cut of 0..numel made by the pool. *)
Definition compute_quant_params_ptr (opt : bool) (a : arch) (d : dtype) (ptr : Z) (target : dtype) (numel : Z) (inm : mem) (blocks : list (nat * nat))
  : pyres (f32 * Z) :=
  py_assert opt (py_is_quantized target)
  (py_assert opt (negb (ptr =? 0))
  (cffi_size_t numel (Ret (c_compute_quant_params a d inm blocks (py_value target))))).

(** ** torch.py.  The torch dtypes in its tables, and two of the many others. *)
Inductive torch_dtype := T_float32 | T_bfloat16 | T_quint2x4 | T_quint4x2 | T_quint8 | T_uint8 | T_float16 | T_float64.
(* == of torch dtypes (dictionary lookup in torch.py:9-28) *)
Definition torch_dtype_eqb (a b : torch_dtype) : bool :=
  match a, b with
  | T_float32, T_float32 | T_bfloat16, T_bfloat16 | T_quint2x4, T_quint2x4 | T_quint4x2, T_quint4x2 | T_quint8, T_quint8 | T_uint8, T_uint8
  | T_float16, T_float16 | T_float64, T_float64 => true
  | _, _ => false
  end.
(** torch.py:9-16 *)
Definition TORCH_DTYPE_MAP : list (torch_dtype * dtype) :=
  [(T_float32, DT_F32); (T_bfloat16, DT_BF16); (T_quint2x4, DT_UINT2); (T_quint4x2, DT_UINT4); (T_quint8, DT_UINT8); (T_uint8, DT_UINT8)].
(** torch.py:18-28 *)
Definition QUANT_TYPES : list torch_dtype := [T_quint2x4; T_quint4x2; T_quint8; T_uint8].
(* torch.py:25-28 *)
Definition DEQUANT_TYPES : list torch_dtype := [T_float32; T_bfloat16].
(* "in" on the sets of torch.py:18-28 *)
Definition in_set (d : torch_dtype) (l : list torch_dtype) : bool := existsb (torch_dtype_eqb d) l.
(** torch.py:30-38 *)
Definition ROUND_MODES (s : string) : option round_mode_t :=
  if String.eqb s "nearest" then Some RM_NEAREST else if String.eqb s "stochastic" then Some RM_STOCHASTIC else None.
(* torch.py:35-38 *)
Definition REDUCE_OPS (s : string) : option reduce_op :=
  if String.eqb s "set" then Some RO_SET else if String.eqb s "add" then Some RO_ADD else None.

(** torch.py:40-43 *)
Definition torch_to_piquant_dtype (d : torch_dtype) : option dtype :=
  option_map snd (find (fun e => torch_dtype_eqb (fst e) d) TORCH_DTYPE_MAP).

(** torch.py:46-50: the loop variable shadows the argument, so the comparison is between a DataType and a torch.dtype ([py_eq]: values of
    unrelated classes are never equal). *)
Inductive pyobj := PyTorch (t : torch_dtype) | PyData (d : dtype).
(* == between Python objects of the two enum classes, torch.py:46-50 *)
Definition py_eq (a b : pyobj) : bool :=
  match a, b with
  | PyTorch x, PyTorch y => torch_dtype_eqb x y
  | PyData x, PyData y => py_value x =? py_value y
  | _, _ => false
  end.
(* torch.py:46-50, the loop *)
Fixpoint piquant_to_torch_loop (dtype : pyobj) (items : list (torch_dtype * Dtypes.dtype)) : option torch_dtype :=
  match items with
  | [] => None (* raise ValueError *)
  | (k, v) :: rest =>
      let dtype := PyTorch k in (* for dtype, piquant_dtype in items *)
      if py_eq (PyData v) dtype then Some k else piquant_to_torch_loop dtype rest
  end.
(* torch.py:46-50 *)
Definition piquant_to_torch_dtype (d : dtype) : option torch_dtype := piquant_to_torch_loop (PyData d) TORCH_DTYPE_MAP.

(** Tensors. *)
Record tensor := mk_tensor { t_dtype : torch_dtype; t_shape : list nat; t_ptr : Z; t_data : mem }.
(* torch.Tensor.numel(): torch.py:65-67, 94, 124 *)
Definition t_numel (t : tensor) : nat := fold_right Nat.mul 1%nat (t_shape t).

(** torch.py:53-67 compute_quant_params *)
Definition torch_compute_quant_params (opt : bool) (a : arch) (t : tensor) (dtype : torch_dtype) (blocks : list (nat * nat)) : pyres (f32 * Z) :=
  py_assert opt (in_set dtype QUANT_TYPES)
  (match torch_to_piquant_dtype dtype with
   | None => Raise ValueError
   | Some dq =>
     if torch_dtype_eqb (t_dtype t) T_bfloat16
     then compute_quant_params_ptr opt a DT_BF16 (t_ptr t) dq (Z.of_nat (t_numel t)) (t_data t) blocks
     else compute_quant_params_ptr opt a DT_F32 (t_ptr t) dq (Z.of_nat (t_numel t)) (t_data t) blocks
   end).

(** torch.py:70-99 quantize.  [out] is the tensor made by torch.empty(tensor.shape, dtype): its shape and dtype are given, pointer and
    contents are whatever the allocator provides. *)
Definition torch_quantize (opt : bool) (A : arch) (nt : nat) (t : tensor) (scale : f64) (zp : Z) (dtype : torch_dtype) (round_mode : string)
  (out : tensor) (thr : f32) : pyres (list (list action)) :=
  py_assert opt (in_set dtype QUANT_TYPES)
  (match torch_to_piquant_dtype (t_dtype t), torch_to_piquant_dtype dtype with
   | Some dtype_in, Some dtype_out =>
     match ROUND_MODES round_mode with
     | None => Raise KeyError
     | Some rm => quantize_ptr opt A nt (t_ptr t) dtype_in (t_ptr out) dtype_out (Z.of_nat (t_numel t)) scale zp rm thr
     end
   | _, _ => Raise ValueError
   end).
(** torch.py:102-129 dequantize *)
Definition torch_dequantize (opt : bool) (A : arch) (nt : nat) (t : tensor) (scale : f64) (zp : Z) (dtype : torch_dtype) (reduce_op : string)
  (out : tensor) : pyres (list (list action)) :=
  if negb (in_set dtype DEQUANT_TYPES) then Raise ValueError
  else match torch_to_piquant_dtype (t_dtype t), torch_to_piquant_dtype (t_dtype out) with
   | Some dtype_in, Some dtype_out =>
     match REDUCE_OPS reduce_op with
     | None => Raise KeyError
     | Some op => dequantize_ptr opt A nt (t_ptr t) dtype_in (t_ptr out) dtype_out (Z.of_nat (t_numel t)) scale zp op
     end
   | _, _ => Raise ValueError
   end.
