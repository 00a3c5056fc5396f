(** Naive.v -- model of the reference quantizer that the project tests itself against (/repo/test/naive.hpp). *)
From Coq Require Import ZArith List Bool.
From Verif Require Import Base Floats Dtypes Spec.
Import ListNotations.
Local Open Scope Z_scope.

(** test/naive.hpp:18-40 xs128p_state: two 64-bit words; operator() (24-31) *)
Definition xs_state : Type := Z * Z.
(* test/naive.hpp:24-31 *)
Definition xs_next (s : xs_state) : Z * xs_state :=
  let s1 := fst s in let s0 := snd s in
  let s1 := Z.lxor s1 (wrap_u64 (Z.shiftl s1 23)) in
  let p2 := Z.lxor (Z.lxor (Z.lxor s1 s0) (Z.shiftr s1 18)) (Z.shiftr s0 5) in
  (wrap_u64 (p2 + s0), (s0, p2)).
(** test/naive.hpp:33-37 canonical(): [~0u & (...)] keeps the low 32 bits; the product with 1.0f/0x800000 *)
Definition xs_canonical (s : xs_state) : f32 :=
  let y := Z.land 0xffffffff (fst (xs_next s)) in
  fmul (fdiv f_one (f32_of_Z 0x800000)) (fadd (f32_of_Z (Z.shiftr y 9)) f_half).

(** test/naive.hpp:46-50 pack_nibbles *)
Definition naive_pack (x y : Z) : Z := Z.lor (Z.land x 15) (Z.shiftl (Z.land y 15) 4).

(** test/naive.hpp:62-79, the lambda Q for one element.  [b]: the raw element (its f32 value [elem] for the conversions).
    nearest: std::round(float(x) * inv_scale), int64, + zero_point, clamp to the limits of OUT. *)
Definition naive_nearest (dq : dtype) (scale : f32) (zp : Z) (x : f32) : res Z :=
  let inv := fdiv f_one scale in
  q <- f32_to_i64 (fround (fmul x inv)) ;;
  integral <- i64 (q + zp) ;;
  Ok (clampZ (limit_min dq) (limit_max dq) integral).
(** stochastic: [rnd] is x * inv_scale.  For IN = float that is a float product; for IN = bfp16_t the operator of piquant.hpp:109 converts inv_scale
    to bfp16_t and returns bfp16_t. *)
Definition naive_product (din : dtype) (scale : f32) (x : f32) : f32 :=
  let inv := fdiv f_one scale in
  match din with
  | DT_BF16 => f32_of_bf16 (bf16_mul (bf16_of_f32 x) (bf16_of_f32 inv))
  | _ => fmul x inv
  end.
(* test/naive.hpp:68-77, the stochastic branch *)
Definition naive_stochastic (din dq : dtype) (scale : f32) (zp : Z) (xi x : f32) : res Z :=
  let rnd := naive_product din scale x in
  let dec := fabs (fsub rnd (ftrunc rnd)) in
  let adj := if flt xi dec then f_one else f_zero in
  let adj := if flt rnd f_zero then fmul f_neg_one adj else adj in
  let rnd := fadd (ftrunc rnd) adj in
  q <- f32_to_i64 rnd ;;
  integral <- i64 (q + zp) ;;
  Ok (clampZ (limit_min dq) (limit_max dq) integral).
(** [xi i]: the random number drawn for element i (the order of the two draws of a pair is unspecified in C++, so it is not fixed here). *)
Definition naive_Q (rm : round_mode_t) (din dq : dtype) (scale : f32) (zp : Z) (xi : nat -> f32) (i : nat) (x : f32) : res Z :=
  match rm with
  | RM_NEAREST => naive_nearest dq scale zp x
  | RM_STOCHASTIC => naive_stochastic din dq scale zp (xi i) x
  end.

(** test/naive.hpp:80-92: uint4, pairs and the odd last element *)
Fixpoint naive_pairs (q : nat -> f32 -> res Z) (i : nat) (xs : list f32) : res (list Z) :=
  match xs with
  | a :: b :: t => qa <- q i a ;; qb <- q (S i) b ;; r <- naive_pairs q (S (S i)) t ;; Ok (naive_pack qa qb :: r)
  | [a] => qa <- q i a ;; Ok [Z.land (naive_pack qa 0) 15]
  | [] => Ok []
  end.
(** test/naive.hpp:93-97: every other type, one byte per element *)
Fixpoint naive_bytes (q : nat -> f32 -> res Z) (i : nat) (xs : list f32) : res (list Z) :=
  match xs with
  | a :: t => qa <- q i a ;; r <- naive_bytes q (S i) t ;; Ok (qa :: r)
  | [] => Ok []
  end.
(** test/naive.hpp:52-98 quantize_naive.  A store outside the span [o] is undefined behaviour.
    Simplification: the bytes are computed first and stored afterwards; the spans do not overlap. *)
Definition quantize_naive (rm : round_mode_t) (din dq : dtype) (scale : f32) (zp : Z) (xi : nat -> f32) (x : list f32) (o : mem) : res mem :=
  let q := naive_Q rm din dq scale zp xi in
  bs <- match dq with DT_UINT4 => naive_pairs q 0 x | _ => naive_bytes q 0 x end ;;
  if (length bs <=? length o)%nat then Ok (bs ++ skipn (length bs) o) else UB.
