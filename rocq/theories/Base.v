(** Base.v -- outcomes, bytes, memory slices, actions, loops, interleavings.
    This file fixes the execution model used by all kernels; it contains no
    arithmetic of the library itself. *)
From Coq Require Import ZArith List Lia Bool.
Import ListNotations.
Local Open Scope Z_scope.

(** Outcome of running a piece of the program.
    [Abort] models src/piquant.cpp:88-98 ([panic] -> std::abort, reached through the
    [piquant_assert] macros, src/piquant_internal.hpp:14-18); [UB] is undefined behaviour of C++. *)
Inductive res (A : Type) : Type :=
| Ok (a : A)
| Abort
| UB.
Arguments Ok {A} a.
Arguments Abort {A}.
Arguments UB {A}.

(* what follows a statement runs only if it neither aborted (piquant.cpp:88-98) nor was undefined *)
Definition bind {A B} (r : res A) (f : A -> res B) : res B :=
  match r with Ok a => f a | Abort => Abort | UB => UB end.
(* sequencing of C++ statements; models no line of its own *)
Notation "x <- r ;; k" := (bind r (fun x => k)) (at level 61, r at next level, right associativity).

(** All results of a list of computations, first failure wins. *)
Fixpoint sequence {A} (l : list (res A)) : res (list A) :=
  match l with
  | [] => Ok []
  | r :: l' => a <- r ;; (l'' <- sequence l' ;; Ok (a :: l''))
  end.

(** [piquant_assert(e, msg)]: src/piquant_internal.hpp:14-18. *)
Definition assert (b : bool) : res unit := if b then Ok tt else Abort.

(** ** Memory: a buffer is a list of bytes (each meant to be in 0..255). *)
Definition mem := list Z.
(* std::byte, std::uint8_t (piquant.hpp:208-216 spans of bytes) *)
Definition is_byte (z : Z) : Prop := 0 <= z < 256.

(* bytes off .. off+len of a span (piquant.cpp:280-283 in, out) *)
Definition slice (off len : nat) (m : mem) : mem := firstn len (skipn off m).
(* is the range inside the buffer; an access that is not is undefined behaviour of C++ *)
Definition in_bounds (off len : nat) (m : mem) : bool := Nat.leb (off + len) (length m).
(* a store of the bytes [new] at offset [off] *)
Definition splice (off : nat) (new m : mem) : mem :=
  firstn off m ++ new ++ skipn (off + length new) m.

(** One atomic step of a kernel: it reads bytes [a_ioff, a_ioff+a_ilen) of the input and
    bytes [a_ooff, a_ooff+a_olen) of the output, and replaces the latter.
    One iteration of a scalar loop or of a vector loop is one action. *)
Record action := mk_action {
  a_ioff : nat;
  a_ilen : nat;
  a_ooff : nat;
  a_olen : nat;
  a_fn : mem -> mem -> res mem
}.

(** Any access outside the buffers is undefined behaviour. *)
Definition run_action (inm : mem) (a : action) (outm : mem) : res mem :=
  if in_bounds (a_ioff a) (a_ilen a) inm && in_bounds (a_ooff a) (a_olen a) outm
  then r <- a_fn a (slice (a_ioff a) (a_ilen a) inm) (slice (a_ooff a) (a_olen a) outm) ;;
       (if Nat.eqb (length r) (a_olen a) then Ok (splice (a_ooff a) r outm) else UB)
  else UB.

(* the iterations of one job one after the other (piquant.cpp:159-176 job_entry) *)
Fixpoint run_trace (inm : mem) (tr : list action) (outm : mem) : res mem :=
  match tr with
  | [] => Ok outm
  | a :: tr' => o <- run_action inm a outm ;; run_trace inm tr' o
  end.

(** Pointer arithmetic: the kernel received [in + di] and [out + do]. *)
Definition shift_action (di do : nat) (a : action) : action :=
  mk_action (di + a_ioff a) (a_ilen a) (do + a_ooff a) (a_olen a) (a_fn a).

(** A C loop [for (; cond(i); i += stride) body(i)], as the list of its bodies together with the final
    value of [i].  [fuel] bounds the number of iterations; that it never cuts a loop short
    is the lemma [loop_exit] (the condition is false at the returned index). *)
Fixpoint loop (fuel : nat) (cond : nat -> bool) (stride : nat) (body : nat -> action) (i : nat)
  : list action * nat :=
  match fuel with
  | O => ([], i)
  | S f => if cond i
           then let '(l, j) := loop f cond stride body (i + stride)%nat in (body i :: l, j)
           else ([], i)
  end.

(** ** Threads. [interleave jobs tr]: [tr] is one interleaving of the action lists [jobs]
    (each job's own order is kept). *)
Inductive interleave {A : Type} : list (list A) -> list A -> Prop :=
| il_done : forall ls, Forall (fun l => l = []) ls -> interleave ls []
| il_step : forall pre a l post tr,
    interleave (pre ++ l :: post) tr ->
    interleave (pre ++ (a :: l) :: post) (a :: tr).

(** [returns call inm outm r]: running the call [call] (the jobs it schedules, or its failure)
    on input [inm] and output [outm] can end with [r]. *)
Inductive returns (inm outm : mem) : res (list (list action)) -> res mem -> Prop :=
| ret_ok : forall jobs tr, interleave jobs tr -> returns inm outm (Ok jobs) (run_trace inm tr outm)
| ret_abort : returns inm outm Abort Abort
| ret_ub : returns inm outm UB UB.

(** ** Machine integers *)
(* static_cast to std::int32_t of a wider integer, and 32-bit vector adds: modulo 2^32 *)
Definition wrap32 (z : Z) : Z := (z + 2147483648) mod 4294967296 - 2147483648.
(* range of std::int32_t *)
Definition in_i32 (z : Z) : bool := (-2147483648 <=? z) && (z <=? 2147483647).
(* range of std::int64_t *)
Definition in_i64 (z : Z) : bool := (-9223372036854775808 <=? z) && (z <=? 9223372036854775807).
(* signed int32/int64 arithmetic of C++: overflow is UB *)
Definition i32 (z : Z) : res Z := if in_i32 z then Ok z else UB.
(* std::int64_t arithmetic, e.g. piquant.cpp:138-157, quantize.inl:15 and 24 *)
Definition i64 (z : Z) : res Z := if in_i64 z then Ok z else UB.
(* size_t arithmetic: modulo 2^64 *)
Definition wrap_u64 (z : Z) : Z := z mod 18446744073709551616.
(* std::clamp, <algorithm> *)
Definition clampZ (lo hi v : Z) : Z := if v <? lo then lo else if hi <? v then hi else v.

(** ** Little-endian integers *)
Fixpoint le_val (b : mem) : Z :=
  match b with [] => 0 | x :: b' => x + 256 * le_val b' end.
(* object representation of the integer types on the little-endian targets (x86-64, AArch64) *)
Fixpoint le_bytes (n : nat) (z : Z) : mem :=
  match n with O => [] | S n' => (z mod 256) :: le_bytes n' (z / 256) end.

(** Split a byte list in groups of [n] (fuel = length is enough for n > 0). *)
Fixpoint chunks_aux {A} (fuel : nat) (n : nat) (l : list A) : list (list A) :=
  match fuel with
  | O => []
  | S f => match l with
           | [] => []
           | _ => firstn n l :: chunks_aux f n (skipn n l)
           end
  end.
(* the lanes of a register as groups of bytes (load/store intrinsics of kernels_specialized.inl) *)
Definition chunks {A} (n : nat) (l : list A) : list (list A) := chunks_aux (length l) n l.

(* lane-wise binary operation (intrinsics of kernels_specialized.inl) *)
Fixpoint map2 {A B C} (f : A -> B -> C) (l : list A) (m : list B) : list C :=
  match l, m with
  | a :: l', b :: m' => f a b :: map2 f l' m'
  | _, _ => []
  end.
