(** PyViews.v -- torch tensors as strided views, and the [.contiguous()] calls of the torch module (torch.py:61-62, 81-82, 114-115).
    PyTorch itself is outside the repository; this is its documented data model: a view has a shape, one stride per dimension (in elements, never
    negative), an offset into a storage and the storage's address.  Simplified: one dense CPU storage, element sizes of whole bytes (PyTorch has no
    strided copies of quint2x4 / quint4x2). *)
From Coq Require Import ZArith List Bool Arith String.
From Verif Require Import Base Floats Dtypes QuantKernels DequantKernels Context MinMax Capi Python.
Import ListNotations.
Local Open Scope nat_scope.

(* a torch tensor as torch.py:53-129 receives it *)
Record view := mk_view { v_dtype : torch_dtype; v_shape : list nat; v_strides : list nat; v_offset : nat; v_base : Z; v_store : mem }.
(** torch.Tensor.element_size() *)
Definition element_size (t : torch_dtype) : nat :=
  match t with T_float32 => 4 | T_bfloat16 => 2 | T_float16 => 2 | T_float64 => 8 | T_quint2x4 | T_quint4x2 | T_quint8 | T_uint8 => 1 end.
(** torch.Tensor.numel() *)
Definition v_numel (v : view) : nat := fold_right Nat.mul 1 (v_shape v).

(** Positions of the elements in the storage, relative to the offset, last index fastest. *)
Fixpoint positions (shape strides : list nat) : list nat :=
  match shape, strides with
  | d :: shape', s :: strides' => flat_map (fun i => map (Nat.add (i * s)) (positions shape' strides')) (seq 0 d)
  | _, _ => [0]
  end.
(** torch.Tensor.is_contiguous(): from the last dimension outwards every stride is the number of elements inside it; dimensions of size 1 do not
    count, and a tensor without elements is contiguous. *)
Fixpoint dense_block (shape strides : list nat) : option nat :=
  match shape, strides with
  | d :: shape', s :: strides' =>
      match dense_block shape' strides' with
      | Some z => if d =? 1 then Some z else if s =? z then Some (z * d) else None
      | None => None
      end
  | _, _ => Some 1
  end.
(* torch.Tensor.is_contiguous(): torch.py:61, 81, 114 *)
Definition is_contiguous (v : view) : bool :=
  (v_numel v =? 0) || match dense_block (v_shape v) (v_strides v) with Some _ => true | None => false end.

(** What [data_ptr()] of a contiguous view points at. *)
Definition as_tensor (v : view) : tensor :=
  let w := element_size (v_dtype v) in
  mk_tensor (v_dtype v) (v_shape v) (if v_numel v =? 0 then 0 else v_base v + Z.of_nat (v_offset v * w)) (slice (v_offset v * w) (v_numel v * w) (v_store v)).
(** [.contiguous()]: a fresh tensor at [fresh] with the elements in order. *)
Definition contiguous (v : view) (fresh : Z) : tensor :=
  let w := element_size (v_dtype v) in
  mk_tensor (v_dtype v) (v_shape v) fresh
    (flat_map (fun p => slice ((v_offset v + p) * w) w (v_store v)) (positions (v_shape v) (v_strides v))).
(** torch.py:61-62, 81-82, 114-115: if not tensor.is_contiguous(): tensor = tensor.contiguous() *)
Definition view_arg (v : view) (fresh : Z) : tensor := if is_contiguous v then as_tensor v else contiguous v fresh.

(** torch.py:53-67, 70-99, 102-129 on views. *)
Definition view_compute_quant_params (opt : bool) (a : arch) (v : view) (fresh : Z) (dtype : torch_dtype) (blocks : list (nat * nat)) : pyres (f32 * Z) :=
  torch_compute_quant_params opt a (view_arg v fresh) dtype blocks.
(* torch.py:70-99 *)
Definition view_quantize (opt : bool) (A : arch) (nt : nat) (v : view) (fresh : Z) (scale : f64) (zp : Z) (dtype : torch_dtype) (round_mode : string)
  (out : tensor) (thr : f32) : pyres (list (list action)) :=
  torch_quantize opt A nt (view_arg v fresh) scale zp dtype round_mode out thr.
(* torch.py:102-129 *)
Definition view_dequantize (opt : bool) (A : arch) (nt : nat) (v : view) (fresh : Z) (scale : f64) (zp : Z) (dtype : torch_dtype) (reduce_op : string)
  (out : tensor) : pyres (list (list action)) :=
  torch_dequantize opt A nt (view_arg v fresh) scale zp dtype reduce_op out.
