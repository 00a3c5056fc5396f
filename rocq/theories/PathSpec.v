(** PathSpec.v -- vocabulary for properties that depend on which elements a vector loop handles. *)
From Coq Require Import ZArith List Bool Reals Arith.
From Flocq Require Import Core Binary Bits.
From Verif Require Import Base Floats Dtypes Spec ApiSpec QuantKernelFacts QuantGenericFacts ContextFacts.
Import ListNotations.

(** Is element [i] of an [n]-element quantize call handled by a vector iteration?  The thread that owns [i] works on
    [lo, hi); its vector loop starts once the output address is aligned (QuantGenericFacts.q_start) and handles whole
    blocks of QuantGenericFacts.q_block elements. *)
Definition vector_path (A : arch) (din dout : dtype) (oaddr : Z) (n nt i : nat) : bool :=
  existsb (fun t =>
    let lo := part_bound (codes_per_byte dout) n nt t in
    let hi := part_bound (codes_per_byte dout) n nt (S t) in
    (lo <=? i) && (i <? hi) &&
    q_vec A din dout RM_NEAREST (oaddr + Z.of_nat (lo / codes_per_byte dout)) (hi - lo) (i - lo)) (seq 0 nt).

Local Open Scope R_scope.
(** The code an x86 vector iteration stores, for every float (NaN and infinities included).
    [wrap32]: the zero point is added in wrapping int32 arithmetic. *)
Definition x86_vector_code (d : dtype) (scale : f32) (zp : Z) (x : f32) : Z :=
  let y := scaled (val scale) (val x) in
  if is_finite 24 128 x && Rlt_bool (Rabs y) (bpow radix2 31) then
    if Req_bool (Rabs y) pred_half then clamp 0 (code_max d) ((if Rlt_bool y 0 then -1 else 1) + zp)
    else clamp 0 (code_max d) (wrap32 (round_half_away y + zp))
  else if Z.ltb zp 0 then code_max d else 0%Z.
(** The code a NEON vector iteration stores (f32 to uint8 only). *)
Definition neon_vector_code (scale : f32) (zp : Z) (x : f32) : Z :=
  let y := scaled (val scale) (val x) in
  if is_nan 24 128 x then clamp 0 255 zp
  else if is_finite 24 128 x && Rlt_bool (Rabs y) (bpow radix2 31) then clamp 0 255 (wrap32 (round_half_away y + zp))
  else if xorb (Bsign 24 128 x) (Bsign 24 128 scale) then (if Z.ltb zp 0 then 255%Z else 0%Z)
  else (if Z.ltb 0 zp then 0%Z else 255%Z).
Definition vector_code (A : arch) (d : dtype) (scale : f32) (zp : Z) (x : f32) : Z :=
  match A with NEON => neon_vector_code scale zp x | _ => x86_vector_code d scale zp x end.

(** NaN, infinite, or a scaled value of at least 2^31. *)
Definition extreme (scale x : f32) : Prop :=
  ~ finite x \/ bpow radix2 31 <= Rabs (scaled (val scale) (val x)).
