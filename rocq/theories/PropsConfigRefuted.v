(** PropsConfigRefuted.v -- inputs on which the computed parameters are not the documented ones: the SSE4.2 scan, NaN, subnormal and infinite
    data, ranges that exclude 0, and empty blocks. *)
From Coq Require Import ZArith List Lia Bool Reals Lra.
From Flocq Require Import Core Binary Bits.
From Verif Require Import Base Floats Simd Dtypes Spec ApiSpec ConfigSpec FloatFacts MinMax Context Api PropsQuantize PropsDequantize.
Import ListNotations.
Local Open Scope Z_scope.

(** A float32 (bfloat16) buffer holding the given bit patterns. *)
Definition f32_buf (bits : list Z) : mem := flat_map (le_bytes 4) bits.
Definition bf16_buf (bits : list Z) : mem := flat_map (le_bytes 2) bits.
(** bit patterns: 1.0f, 5.0f, +infinity, -infinity, a quiet NaN, -1.0f, the smallest subnormal *)
Definition b1 := 0x3f800000. Definition b5 := 0x40a00000. Definition binf := 0x7f800000. Definition bninf := 0xff800000.
Definition bnan := 0x7fc00000. Definition bm1 := 0xbf800000. Definition btiny := 1.
Definition bits2 (r : res (f32 * f32)) : res (Z * Z) := p <- r ;; Ok (bits_of_b32 (fst p), bits_of_b32 (snd p)).
Definition bitsp (r : res (f32 * Z)) : res (Z * Z) := p <- r ;; Ok (bits_of_b32 (fst p), snd p).

(** ** C20 is false on SSE4.2: sixteen floats, fifteen of them 1.0 and element 3 equal to 5.0; the "maximum" is 1.0.
    The same for 32 bf16 values with element 3, 4, ... or 7 equal to 5.0. *)
Definition sixteen : mem := f32_buf (repeat b1 3 ++ [b5] ++ repeat b1 12).
Definition thirty_two (k : nat) : mem := bf16_buf (repeat 0x3f80 k ++ [0x40a0] ++ repeat 0x3f80 (31 - k)).
Theorem C20_sse42_refuted : bits2 (find_min_max SSE42 DT_F32 sixteen 16) = Ok (b1, b1) /\ bits2 (find_min_max GENERIC DT_F32 sixteen 16) = Ok (b1, b5) /\
  (forall k, In k [3; 4; 5; 6; 7]%nat -> bits2 (find_min_max SSE42 DT_BF16 (thirty_two k) 32) = Ok (b1, b1)).
Proof. split; [vm_compute; reflexivity|]. split; [vm_compute; reflexivity|]. intros k Hk. repeat (destruct Hk as [<-|Hk]; [vm_compute; reflexivity|]). destruct Hk. Qed.

(** ** C22 is false on SSE4.2: the same sixteen floats give different parameters when the pool cuts them in two (only the vector loop
    drops elements). *)
Theorem C22_sse42_refuted :
  bitsp (compute_quant_config_from_data SSE42 DT_F32 DT_UINT8 sixteen [(0, 16)%nat]) = Ok (b1, 127) /\
  bitsp (compute_quant_config_from_data SSE42 DT_F32 DT_UINT8 sixteen [(0, 8); (8, 16)]%nat) =
  bitsp (compute_quant_config_from_data GENERIC DT_F32 DT_UINT8 sixteen [(0, 16)%nat]) /\
  bitsp (compute_quant_config_from_data GENERIC DT_F32 DT_UINT8 sixteen [(0, 16)%nat]) <> Ok (b1, 127).
Proof. split; [vm_compute; reflexivity|]. split; [vm_compute; reflexivity|]. vm_compute. discriminate. Qed.

(** ** C22 is false if the pool schedules an empty block: {1.0, 5.0} on its own has range [1, 5]; with an empty block the range is [0, 5]. *)
Theorem C22_empty_block_refuted :
  let m := f32_buf [b1; b5] in
  bitsp (compute_quant_config_from_data GENERIC DT_F32 DT_UINT2 m [(0, 2)%nat]) <>
  bitsp (compute_quant_config_from_data GENERIC DT_F32 DT_UINT2 m [(0, 2); (2, 2)]%nat).
Proof. vm_compute. discriminate. Qed.

(** ** C20 with a NaN in the data: the generic loop skips it; on AVX2 the minimum of the earlier lanes is lost (minps returns its second operand,
    the next load, when the accumulator is NaN); on NEON the result is NaN. *)
Definition with_nan : mem := f32_buf ([bm1] ++ repeat b1 7 ++ [bnan] ++ repeat b1 23).
Theorem C20_nan_refuted :
  bits2 (find_min_max GENERIC DT_F32 with_nan 32) = Ok (bm1, b1) /\ bits2 (find_min_max AVX2 DT_F32 with_nan 32) = Ok (b1, b1) /\
  bits2 (find_min_max NEON DT_F32 with_nan 32) = Ok (bnan, bnan).
Proof. repeat split; vm_compute; reflexivity. Qed.
(** ... and data that is all NaN: the scalar scan returns (FLT_MAX, lowest); the "range" is negative and the call aborts. *)
Theorem C21_all_nan_aborts : forall dq, quant_type dq -> compute_quant_config_from_data GENERIC DT_F32 dq (f32_buf [bnan; bnan]) [(0, 2)%nat] = Abort.
Proof. intros dq [->|[->| ->]]; vm_compute; reflexivity. Qed.

(** ** C21: "the scale is positive" is false: {0, 2^-149} has the finite nonempty range 2^-149, whose scale underflows to +0 for every target type. *)
Theorem C21_scale_zero_refuted : forall dq, quant_type dq ->
  exists z, compute_quant_config_from_data GENERIC DT_F32 dq (f32_buf [0; btiny]) [(0, 2)%nat] = Ok (f_zero, z).
Proof. intros dq [->|[->| ->]]; eexists; vm_compute; reflexivity. Qed.
(** Infinite data is not rejected: {0, +inf} gives scale +inf (and zero point 0); {-inf, 0} converts a NaN to an integer: undefined behaviour. *)
Theorem C21_infinite_data : forall dq, quant_type dq ->
  bitsp (compute_quant_config_from_data GENERIC DT_F32 dq (f32_buf [0; binf]) [(0, 2)%nat]) = Ok (binf, 0) /\
  compute_quant_config_from_data GENERIC DT_F32 dq (f32_buf [bninf; 0]) [(0, 2)%nat] = UB.
Proof. intros dq [->|[->| ->]]; split; vm_compute; reflexivity. Qed.
