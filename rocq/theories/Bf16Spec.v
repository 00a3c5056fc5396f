(** Bf16Spec.v -- vocabulary for statements about bf16: the value of a bf16 pattern and rounding to bf16. *)
From Coq Require Import ZArith Reals.
From Flocq Require Import Core Binary Bits.
From Verif Require Import Base Floats Spec.
Local Open Scope Z_scope.

(** A bf16 pattern is the upper half of a binary32 pattern. *)
Definition bf16_to_f32 (b : Z) : f32 := f32_of_bits (b * 65536).
(** Round a real to 8 significant bits, ties to even, with the exponent range of binary32 (smallest quantum 2^-133). *)
Definition RN16 (r : R) : R := round radix2 (FLT_exp (-133) 8) ZnearestE r.
