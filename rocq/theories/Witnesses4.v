(** Witnesses4.v -- concrete calls that meet the hypotheses of the theorems of PropsAnyInput.v and PropsCapiEnums.v. *)
From Coq Require Import ZArith List Lia Bool Arith ZifyBool ZifyNat Reals Lra.
From Flocq Require Import Core Binary Bits.
From Verif Require Import Base Floats Simd Dtypes Spec ApiSpec PathSpec AnyInputSpec QuantKernels FloatFacts QuantFacts QuantKernelFacts
  QuantGenericFacts QuantLanes Context ContextFacts Api PropsQuantize Bf16Spec PropsBadScale PropsAnyInput Capi PropsCapi PropsCapiEnums MinMax Witnesses.
Import ListNotations.

Lemma odd_buffers : buffers_ok 1 DT_F32 DT_UINT8 odd_data (repeat 0%Z 64).
Proof.
  assert (HL : numel DT_F32 (length odd_data) = 64) by (vm_compute; reflexivity).
  split; [left; reflexivity|]. split; [right; right; reflexivity|]. split; [|split; [vm_compute; reflexivity|]].
  - apply Forall_forall. intros x Hx. assert (H : forallb (fun x => (0 <=? x)%Z && (x <? 256)%Z) odd_data = true) by (vm_compute; reflexivity).
    rewrite forallb_forall in H. specialize (H x Hx). unfold is_byte. lia.
  - rewrite HL. change (length odd_data) with 256. unfold sizes_ok. lia.
Qed.
Lemma odd_vector A : x86_vector A \/ A = NEON -> forall i, i < 64 -> vector_path A DT_F32 DT_UINT8 0 64 1 i = true.
Proof.
  intros HA i Hi. assert (H : forallb (fun i => vector_path A DT_F32 DT_UINT8 0 64 1 i) (seq 0 64) = true)
    by (destruct HA as [[->|[->|[->| ->]]]| ->]; vm_compute; reflexivity).
  rewrite forallb_forall in H. apply H, in_seq. lia.
Qed.
Lemma zero_unusable : unusable_scale f_zero.
Proof. right. destruct f_zero_ok as [F E]. split; auto. Qed.

(** NaN, infinities and 3e38 with scale 0, the zero point 2^40 + 7 and any vector kernel set: no undefined behaviour *)
Example C36_complete_witness A r : x86_vector A \/ A = NEON ->
  returns odd_data (repeat 0%Z 64) (quantize_call A 1 0 DT_F32 DT_UINT8 f_zero (2 ^ 40 + 7) RM_NEAREST thr4 odd_data (repeat 0%Z 64)) r ->
  exists o, r = Ok o /\ forall i, i < 64 -> code_at DT_UINT8 o i = vector_result A DT_UINT8 f_zero (2 ^ 40 + 7) (f32_at odd_data i).
Proof.
  intros HA HR. destruct (C36_complete A 1 0 DT_F32 DT_UINT8 f_zero (2 ^ 40 + 7) RM_NEAREST thr4 odd_data (repeat 0%Z 64) r odd_buffers) as [_ K]; auto; [discriminate|lia|].
  change (numel DT_F32 (length odd_data)) with 64 in K.
  assert (Q : forall i, i < 64 -> quantize_result A 1 0 DT_F32 DT_UINT8 RM_NEAREST thr4 f_zero (2 ^ 40 + 7) odd_data i =
     Some (vector_result A DT_UINT8 f_zero (2 ^ 40 + 7) (f32_at odd_data i))).
  { intros i Hi. unfold quantize_result. change (numel DT_F32 (length odd_data)) with 64. rewrite (odd_vector A HA i Hi). reflexivity. }
  destruct K as (o & -> & _ & HC & _); [intros i Hi; rewrite Q by auto; discriminate|].
  exists o. split; auto. intros i Hi. specialize (HC i Hi). rewrite Q in HC by auto. injection HC as HC. symmetry. exact HC.
Qed.
(** the generic kernels are undefined on the same call *)
Example C36_complete_ub_witness r :
  returns odd_data (repeat 0%Z 64) (quantize_call GENERIC 1 0 DT_F32 DT_UINT8 f_zero (2 ^ 40 + 7) RM_NEAREST thr4 odd_data (repeat 0%Z 64)) r -> r = UB.
Proof.
  intros HR. destruct (C36_complete GENERIC 1 0 DT_F32 DT_UINT8 f_zero (2 ^ 40 + 7) RM_NEAREST thr4 odd_data (repeat 0%Z 64) r odd_buffers) as [U _]; auto; [discriminate|lia|].
  apply U. exists 0. split; [vm_compute; lia|]. unfold quantize_result. change (numel DT_F32 (length odd_data)) with 64.
  replace (vector_path GENERIC DT_F32 DT_UINT8 0 64 1 0) with false by (vm_compute; reflexivity).
  unfold scalar_result. assert (F : is_finite 24 128 (product f_zero (elem_at DT_F32 odd_data 0)) = false) by (vm_compute; reflexivity). rewrite F. reflexivity.
Qed.
Example C36_unusable_scale_vector_witness A r : x86_vector A ->
  returns odd_data (repeat 0%Z 64) (quantize_call A 1 0 DT_F32 DT_UINT8 f_zero (-3) RM_NEAREST thr4 odd_data (repeat 0%Z 64)) r ->
  exists o, r = Ok o /\ forall i, i < 64 -> code_at DT_UINT8 o i = 255%Z.
Proof.
  intros HA HR. destruct (C36_unusable_scale_vector A 1 0 DT_F32 DT_UINT8 f_zero (-3) thr4 odd_data (repeat 0%Z 64) r HA odd_buffers zero_unusable) as (o & -> & _ & HC); auto.
  - lia.
  - change (numel DT_F32 (length odd_data)) with 64. apply odd_vector; auto.
  - exists o. split; auto.
Qed.
(** +infinity * (1/0) = +infinity: saturates to int32 max, and adding the zero point 5 wraps around: code 0 *)
Example C36_unusable_scale_neon_witness r :
  returns odd_data (repeat 0%Z 64) (quantize_call NEON 1 0 DT_F32 DT_UINT8 f_zero 5 RM_NEAREST thr4 odd_data (repeat 0%Z 64)) r ->
  exists o, r = Ok o /\ code_at DT_UINT8 o 0 = 5%Z /\ code_at DT_UINT8 o 1 = 0%Z.
Proof.
  intros HR. destruct (C36_unusable_scale_neon 1 0 DT_F32 f_zero 5 thr4 odd_data (repeat 0%Z 64) r odd_buffers zero_unusable) as (o & -> & _ & HC); auto.
  - lia.
  - change (numel DT_F32 (length odd_data)) with 64. apply odd_vector; auto.
  - change (numel DT_F32 (length odd_data)) with 64 in HC. exists o. split; auto. split; rewrite HC by lia; vm_compute; reflexivity.
Qed.
(** any data at all: 64 odd floats, a NaN scale, stochastic rounding *)
Example C12_any_data_witness A r :
  returns odd_data (repeat 0%Z 64) (quantize_call A 1 0 DT_F32 DT_UINT8 (B754_nan 24 128 false 1 eq_refl) (- 2 ^ 63) RM_STOCHASTIC thr4 odd_data (repeat 0%Z 64)) r ->
  r = UB \/ exists o, r = Ok o /\ Forall is_byte o.
Proof.
  intros HR. destruct (C12_any_data A 1 0 DT_F32 DT_UINT8 (B754_nan 24 128 false 1 eq_refl) (- 2 ^ 63) RM_STOCHASTIC thr4 odd_data (repeat 0%Z 64) r odd_buffers (fun _ => quarter_threshold)) as [->|(o & -> & _ & HB & _)]; auto.
  - lia.
  - right. eauto.
Qed.

(** ** C01: 64 copies of 2^23 + 1 on AVX2 *)
Definition big_data : mem := concat (map (fun _ => le_bytes 4 0x4B000001) (seq 0 64)).
Example C01_zero_point_limit_witness A r : x86_vector A ->
  returns big_data (repeat 0%Z 64) (quantize_call A 1 0 DT_F32 DT_UINT8 f_one (- 2 ^ 23) RM_NEAREST thr4 big_data (repeat 0%Z 64)) r ->
  exists o, r = Ok o /\ code_at DT_UINT8 o 0 = 2%Z /\ quant_code DT_UINT8 (val f_one) (- 2 ^ 23) (val (f32_at big_data 0)) = 1%Z.
Proof.
  intros HA HR. assert (HL : numel DT_F32 (length big_data) = 64) by (vm_compute; reflexivity).
  destruct (C01_zero_point_limit_refuted A 1 0 thr4 big_data (repeat 0%Z 64) r HA) as (o & -> & HC); auto.
  - split; [left; reflexivity|]. split; [right; right; reflexivity|]. split; [|split; [vm_compute; reflexivity|]].
    + apply Forall_forall. intros x Hx. assert (H : forallb (fun x => (0 <=? x)%Z && (x <? 256)%Z) big_data = true) by (vm_compute; reflexivity).
      rewrite forallb_forall in H. specialize (H x Hx). unfold is_byte. lia.
    + rewrite HL. change (length big_data) with 256. unfold sizes_ok. lia.
  - rewrite HL. intros i Hi. assert (E : f32_at big_data i = f32_of_bits 0x4B000001).
    { assert (H : forallb (fun i => (le_val (slice (4 * i) 4 big_data) =? 0x4B000001)%Z) (seq 0 64) = true) by (vm_compute; reflexivity).
      rewrite forallb_forall in H. unfold f32_at. specialize (H i ltac:(apply in_seq; lia)). apply Z.eqb_eq in H. rewrite H. reflexivity. }
    rewrite E. destruct val_2_23_1; auto.
  - exists o. split; auto. destruct (HC 0) as [H1 H2]; [rewrite HL; lia|]. rewrite H1, HL, (odd_vector A (or_introl HA)) by lia. auto.
Qed.

(** ** C26: a rounding mode 2 and a reduce op -1 on 70 elements; the same on no elements *)
Example C26_enums_witness A nt scale thr : few nt ->
  c_quantize A nt 0 (PIQUANT_DTYPE DT_BF16) (PIQUANT_DTYPE DT_UINT4) (Z.of_nat 70) scale 3 2 thr = UB /\
  c_dequantize A nt 0 (PIQUANT_DTYPE DT_UINT2) (PIQUANT_DTYPE DT_F32) (Z.of_nat 70) scale 3 (-1) = UB /\
  (exists r, returns [] [7%Z] (c_quantize A nt 0 (PIQUANT_DTYPE DT_BF16) (PIQUANT_DTYPE DT_UINT4) 0 scale 3 2 thr) r /\ r = Ok [7%Z]) /\
  (forall inm blocks, c_compute_quant_params A DT_F32 inm blocks 5 = UB).
Proof.
  intros Hn. unfold few in Hn. split; [|split; [|split]].
  - apply C26_bad_mode_refuted; [right; reflexivity|right; left; reflexivity|cbn [stride]; unfold sizes_ok; lia|lia|unfold valid_round_mode; lia].
  - apply C26_bad_reduce_op_refuted; [left; reflexivity|left; reflexivity|cbn [stride]; unfold sizes_ok; lia|lia|unfold valid_reduce_op; lia].
  - destruct (returns_total [] [7%Z] (c_quantize A nt 0 (PIQUANT_DTYPE DT_BF16) (PIQUANT_DTYPE DT_UINT4) 0 scale 3 2 thr)) as (r & HR).
    exists r. split; auto. destruct (C26_empty_call A nt 0 DT_BF16 DT_UINT4 scale 3 2 0 thr [] [7%Z] r) as [E _]; auto; try lia.
    + right; reflexivity.
    + right; left; reflexivity.
  - intros. apply C26_bad_target_refuted. unfold valid_dtype. lia.
Qed.
