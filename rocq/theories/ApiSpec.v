(** ApiSpec.v -- more vocabulary for property statements about the public entry points: spans, element counts,
    argument sizes, footprints.  Nothing here comes from the kernels. *)
From Coq Require Import ZArith List Reals.
From Flocq Require Import Core.
From Verif Require Import Base Floats Dtypes Spec.
Import ListNotations.

(** The data types of floating-point buffers and of quantized buffers. *)
Definition float_type (d : dtype) : Prop := d = DT_F32 \/ d = DT_BF16.
Definition quant_type (d : dtype) : Prop := d = DT_UINT2 \/ d = DT_UINT4 \/ d = DT_UINT8.
(** Codes per byte. *)
Definition codes_per_byte (d : dtype) : nat := 8 / bit_size d.

(** Number of elements of a span of [bytes] bytes. *)
Definition numel (d : dtype) (bytes : nat) : nat := bytes / stride d.

(** Sizes for which none of the library's 64-bit size computations wraps around: a float span of [bytes] bytes
    (below 2^61 because offsets are computed in bits), [n] elements, [nt] >= 1 threads. *)
Definition sizes_ok (bytes n nt : nat) : Prop :=
  1 <= nt /\ (Z.of_nat n * Z.of_nat nt < 2 ^ 63)%Z /\ (Z.of_nat nt < 2 ^ 63)%Z /\ (Z.of_nat bytes < 2 ^ 61)%Z.

(** The kernel sets with x86 vector rounding. *)
Definition x86_vector (A : arch) : Prop := A = SSE42 \/ A = AVX2 \/ A = AVX512F \/ A = AVX512BF16.

(** Byte [k] is among the output bytes that action [a] accesses; the same for input bytes. *)
Definition touches_out (a : action) (k : nat) : Prop := a_ooff a <= k < a_ooff a + a_olen a.
Definition touches_in (a : action) (k : nat) : Prop := a_ioff a <= k < a_ioff a + a_ilen a.

(** Packed byte [k] of a list of codes [C 0 .. C (n-1)], zero padded: the sum of its codes at bit offsets bits*j. *)
Definition packed_byte (d : dtype) (n : nat) (C : nat -> Z) (k : nat) : Z :=
  fold_right Z.add 0%Z
    (map (fun j => let i := (codes_per_byte d * k + j)%nat in
                   2 ^ Z.of_nat (bit_size d * j) * (if Nat.ltb i n then C i else 0))%Z
         (seq 0 (codes_per_byte d))).

(** The float stored in element [i] of a float output buffer: for bf16 the 16-bit pattern, for f32 the float. *)
Definition same_except (m m' : mem) (n : nat) : Prop := length m = length m' /\ forall k, n <= k -> nth k m 0%Z = nth k m' 0%Z.
