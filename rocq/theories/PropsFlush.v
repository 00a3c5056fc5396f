(** PropsFlush.v -- C63: flush-to-zero / denormals-are-zero mode of the host process does not change the results for scales from 2^-60 to 2^126. *)
From Coq Require Import ZArith List Lia Bool Reals Lra.
From Flocq Require Import Core BinarySingleNaN Binary Bits.
From Verif Require Import Base Floats Simd Dtypes ExecFacts Spec ApiSpec FloatFacts FloatFacts2 FloatFacts3 QuantKernels DequantKernels Context MinMax ConfigSpec F64Facts ConfigFacts
  Api PropsQuantize PropsDequantize PropsRoundTrip PropsConfig PropsReadme Flush FlushFacts FlushFacts2 FlushFacts3 FlushConfig.
Import ListNotations.
Local Open Scope R_scope.

Local Ltac both := cbv beta iota zeta delta [
  fmul_z fadd_z fsub_z fdiv_z ffma_z flt_z fge_z fgt_z bf16_add_z bf16_mul_z mul_ps_z add_ps_z cmpge_ps_z fmadd_ps_z q_nearest_i32_z q_nearest_i64_z
  q_stochastic_z quant_step_scalar_z vround_z blk_u8_avx512_groups_z blk_f32_u8_avx512_z blk_bf16_u8_avx512_z blk_u8_avx2_z blk_f32_u8_avx2_z
  blk_bf16_u8_avx2_z blk_u8_sse_z blk_f32_u8_sse_z blk_bf16_u8_sse_z blk_f32_u8_neon_z blk_u4_avx512_z blk_u4_avx2_z blk_u4_sse_z
  blk_f32_u4_avx512_z blk_f32_u4_avx2_z blk_f32_u4_sse_z blk_bf16_u4_avx512_z blk_bf16_u4_avx2_z blk_bf16_u4_sse_z blk_bf16_u2_avx512_z
  quant_f32_to_uint8_nearest_z quant_bf16_to_uint8_nearest_z quant_f32_to_uint4_nearest_z quant_bf16_to_uint4_nearest_z
  quant_bf16_to_uint2_nearest_z quant_generic_z dq_i32_z dq_i64_z dq_sub_z dq_i64_bf16_z put_f32_z put_bf16v_z put_bf16_z lanes_mul_z vbias_z
  lanes_fma_z reg_f32_z reg_bf16_z dequant_uint8_to_f32_z dequant_uint8_to_bf16_z dequant_uint4_to_f32_z dequant_uint4_to_bf16_z
  dequant_uint2_to_bf16_z dequant_uint2_f32_z dequant_generic_z requant_elem_z ract_z requant_generic_z call_kernel_z job_entry_z run_command_z
  quantize_z dequantize_z quantize_dequantize_fused_z minps_z maxps_z neon_min_z neon_max_z std_min4_z std_max4_z sloop_z vscan_of_z find_min_max_z
  block_range_z f64_of_f32_z f32_of_f64_z dlt_z deq_z dmin_z dmax_z dsub_z ddiv_z fold_range_z params_of_range_z compute_quant_config_z
  compute_quant_config_from_data_z fmul fadd fsub fdiv ffma flt fge fgt bf16_add bf16_mul mul_ps add_ps cmpge_ps fmadd_ps q_nearest_i32
  q_nearest_i64 q_stochastic quant_step_scalar vround blk_u8_avx512_groups blk_f32_u8_avx512 blk_bf16_u8_avx512 blk_u8_avx2 blk_f32_u8_avx2
  blk_bf16_u8_avx2 blk_u8_sse blk_f32_u8_sse blk_bf16_u8_sse blk_f32_u8_neon blk_u4_avx512 blk_u4_avx2 blk_u4_sse blk_f32_u4_avx512 blk_f32_u4_avx2
  blk_f32_u4_sse blk_bf16_u4_avx512 blk_bf16_u4_avx2 blk_bf16_u4_sse blk_bf16_u2_avx512 quant_f32_to_uint8_nearest quant_bf16_to_uint8_nearest
  quant_f32_to_uint4_nearest quant_bf16_to_uint4_nearest quant_bf16_to_uint2_nearest quant_generic dq_i32 dq_i64 dq_sub dq_i64_bf16 put_f32
  put_bf16v put_bf16 lanes_mul vbias lanes_fma reg_f32 reg_bf16 dequant_uint8_to_f32 dequant_uint8_to_bf16 dequant_uint4_to_f32
  dequant_uint4_to_bf16 dequant_uint2_to_bf16 dequant_uint2_f32 dequant_generic requant_elem ract requant_generic call_kernel job_entry run_command
  quantize dequantize quantize_dequantize_fused minps maxps neon_min neon_max std_min4 std_max4 sloop vscan_of find_min_max block_range f64_of_f32
  f32_of_f64 dlt deq dmin dmax dsub ddiv fold_range params_of_range compute_quant_config compute_quant_config_from_data ieee_mode daz ftz fin32
  fin64 fout32 fout64 op32 op64].
Lemma call_kernel_ieee A k oaddr range d : call_kernel_z ieee_mode A k oaddr range d = call_kernel A k oaddr range d.
Proof.
  destruct k as [src dst rm|inn outt op|src dst rm op]; cbn [call_kernel_z call_kernel].
  - assert (E : quant_generic_z ieee_mode A src dst rm = quant_generic A src dst rm) by (both; reflexivity). rewrite E. reflexivity.
  - assert (E : dequant_generic_z ieee_mode A inn outt op = dequant_generic A inn outt op) by (both; reflexivity). rewrite E. reflexivity.
  - assert (E : requant_generic_z ieee_mode src dst rm op = requant_generic src dst rm op) by (both; reflexivity). rewrite E. reflexivity.
Qed.
Lemma run_command_ieee A nt oaddr d thr : run_command_z (fun _ => ieee_mode) A nt oaddr d thr = run_command A nt oaddr d thr.
Proof.
  unfold run_command_z, run_command. f_equal. apply map_ext. intros ti.
  unfold job_entry_z, job_entry, quantize_dispatch. destruct partition_row as [[[o n]|]| |]; cbn [bind]; [|reflexivity..].
  destruct select_kernel as [k| |]; cbn [bind]; [|reflexivity..]. rewrite call_kernel_ieee. reflexivity.
Qed.
(** In the IEEE mode the model of Flush.v is the model the other properties are about. *)
Theorem C63_ieee_calls :
  (forall A nt oaddr is din os dout scale zp rm thr,
     quantize_z (fun _ => ieee_mode) A nt oaddr is din os dout scale zp rm thr = quantize A nt oaddr is din os dout scale zp rm thr) /\
  (forall A nt oaddr is din os dout scale zp op,
     dequantize_z (fun _ => ieee_mode) A nt oaddr is din os dout scale zp op = dequantize A nt oaddr is din os dout scale zp op) /\
  (forall A nt oaddr is d os dq scale zp rm op thr,
     quantize_dequantize_fused_z (fun _ => ieee_mode) A nt oaddr is d os dq scale zp rm op thr = quantize_dequantize_fused A nt oaddr is d os dq scale zp rm op thr) /\
  (forall a d dq inm blocks,
     compute_quant_config_from_data_z (fun _ => ieee_mode) ieee_mode a d dq inm blocks = compute_quant_config_from_data a d dq inm blocks).
Proof.
  split; [|split; [|split]]; intros.
  - unfold quantize_z, quantize. rewrite run_command_ieee. reflexivity.
  - unfold dequantize_z, dequantize. rewrite run_command_ieee. reflexivity.
  - unfold quantize_dequantize_fused_z, quantize_dequantize_fused. rewrite run_command_ieee. reflexivity.
  - both. reflexivity.
Qed.

(** The same calls, made when worker [ti] runs in floating-point mode [md ti]. *)
Definition quantize_call_z (md : nat -> fmode) (A : arch) (nt : nat) (oaddr : Z) (din dout : dtype) (scale : f32) (zp : Z) (rm : round_mode_t) (thr : f32)
    (inm outm : mem) : res (list (list action)) :=
  quantize_z md A nt oaddr (Z.of_nat (length inm)) din (Z.of_nat (length outm)) dout scale zp rm thr.
Definition dequantize_call_z (md : nat -> fmode) (A : arch) (nt : nat) (oaddr : Z) (din dout : dtype) (scale : f32) (zp : Z) (op : reduce_op)
    (in_size : nat) (outm : mem) : res (list (list action)) :=
  dequantize_z md A nt oaddr (Z.of_nat in_size) din (Z.of_nat (length outm)) dout scale zp op.
Definition fused_call_z (md : nat -> fmode) (A : arch) (nt : nat) (oaddr : Z) (d dq : dtype) (scale : f32) (zp : Z) (rm : round_mode_t) (op : reduce_op) (thr : f32)
    (inm outm : mem) : res (list (list action)) :=
  quantize_dequantize_fused_z md A nt oaddr (Z.of_nat (length inm)) d (Z.of_nat (length outm)) dq scale zp rm op thr.

(** ** C63.  The same memory effects, element by element, for every input (finite or not), type, mode per worker, size and address. *)
Theorem C63_quantize md A nt oaddr din dout scale zp rm thr inm outm : flush_scale scale -> (rm = RM_STOCHASTIC -> coarse thr) ->
  quantize_call_z md A nt oaddr din dout scale zp rm thr inm outm = quantize_call A nt oaddr din dout scale zp rm thr inm outm.
Proof. intros H C. apply quantize_keep; auto. Qed.
Theorem C63_dequantize md A nt oaddr din dout scale zp in_size outm : flush_scale scale ->
  dequantize_call_z md A nt oaddr din dout scale zp RO_SET in_size outm = dequantize_call A nt oaddr din dout scale zp RO_SET in_size outm.
Proof. intros H. apply dequantize_keep; auto. Qed.
Theorem C63_fused md A nt oaddr d dq scale zp rm thr inm outm : flush_scale scale -> (rm = RM_STOCHASTIC -> coarse thr) ->
  fused_call_z md A nt oaddr d dq scale zp rm RO_SET thr inm outm = fused_call A nt oaddr d dq scale zp rm RO_SET thr inm outm.
Proof. intros H C. apply fused_keep; auto. Qed.
(** The parameters, whatever the modes of the scanning workers ([mb]) and of the caller ([mc]). *)
Theorem C63_parameters mb mc a d dq inm n blocks lo hi : a <> SSE42 -> float_type d -> quant_type dq -> finite_data d inm n -> block_cover n blocks ->
  data_range d inm n lo hi ->
  lo = hi /\ (lo = 0 \/ bpow radix2 (-126) <= Rabs lo) \/ bpow radix2 (-50) <= hi - lo ->
  compute_quant_config_from_data_z mb mc a d dq inm blocks = compute_quant_config_from_data a d dq inm blocks.
Proof. intros Ha Hd Hq HD HB HR HV. apply (config_flush mb mc a d dq inm n blocks lo hi); auto. Qed.
(** The whole workflow: parameters from the data, quantize, dequantize. *)
Theorem C63_workflow mb mc md md' a d dq inm n blocks lo hi : a <> SSE42 -> float_type d -> quant_type dq -> finite_data d inm n -> block_cover n blocks ->
  data_range d inm n lo hi -> bpow radix2 (-50) <= hi - lo <= bpow radix2 127 ->
  exists scale zp, compute_quant_config_from_data_z mb mc a d dq inm blocks = Ok (scale, zp) /\ compute_quant_config_from_data a d dq inm blocks = Ok (scale, zp) /\
    (forall A nt oaddr rm thr outm, (rm = RM_STOCHASTIC -> coarse thr) ->
       quantize_call_z md A nt oaddr d dq scale zp rm thr inm outm = quantize_call A nt oaddr d dq scale zp rm thr inm outm) /\
    (forall A nt oaddr dout in_size outm,
       dequantize_call_z md' A nt oaddr dq dout scale zp RO_SET in_size outm = dequantize_call A nt oaddr dq dout scale zp RO_SET in_size outm).
Proof.
  intros Ha Hd Hq HD HB HR HV. pose proof (bpow_gt_0 radix2 (-50)) as P.
  destruct (C21_documented_parameters a d dq inm n blocks lo hi Ha Hd Hq HD HB HR) as (scale & E & F & V); [lra|].
  assert (I : in32 lo /\ in32 hi).
  { destruct HR as ((i & Hi & <-) & (j & Hj & <-) & _). destruct HD as (_ & _ & HF). split; apply in32_val; auto. }
  assert (FS : flush_scale scale).
  { split; auto. rewrite V. unfold config_scale. split.
    - rewrite <- (RN32_fmt (bpow radix2 (-60))) by (apply fmt32_bpow; lia). apply RN32_le. apply step_large; try tauto.
      apply Rle_trans with (2 := proj1 HV). apply bpow_le. lia.
    - rewrite <- (RN32_fmt (bpow radix2 126)) by (apply fmt32_bpow; lia). apply RN32_le. unfold config_step.
      rewrite <- (RN64_fmt (bpow radix2 126)) by (apply fmt64_bpow; lia). apply RN64_le. pose proof (code_max_R dq Hq) as Q.
      assert (D : RN64 (hi - lo) <= bpow radix2 127) by (rewrite <- (RN64_fmt (bpow radix2 127)) by (apply fmt64_bpow; lia); apply RN64_le; lra).
      apply Rmult_le_reg_r with (IZR (code_max dq)); [lra|]. unfold Rdiv. rewrite Rmult_assoc, Rinv_l, Rmult_1_r by lra. apply Rle_trans with (1 := D).
      change 127%Z with (1 + 126)%Z. rewrite bpow_plus. change (bpow radix2 1) with 2. pose proof (bpow_gt_0 radix2 126). rewrite Rmult_comm.
      apply Rmult_le_compat_l; lra. }
  exists scale, (config_zp dq lo hi). split; [rewrite (config_flush mb mc a d dq inm n blocks lo hi); auto; right; apply HV|]. split; auto. split; intros.
  - apply C63_quantize; auto.
  - apply C63_dequantize; auto.
Qed.

(** ** What flushing does change *)
Definition flushing : fmode := mk_fmode true FTZ_AFTER.
(** ADD onto a denormal accumulator: 2^-149 + 0 is 2^-149, but 0 if the worker flushes. *)
Theorem C63_accumulator_refuted A :
  returns [0%Z] [1; 0; 0; 0]%Z (dequantize_call A 1 0 DT_UINT8 DT_F32 f_one 0 RO_ADD 1 [1; 0; 0; 0]%Z) (Ok [1; 0; 0; 0]%Z) /\
  returns [0%Z] [1; 0; 0; 0]%Z (dequantize_call_z (fun _ => flushing) A 1 0 DT_UINT8 DT_F32 f_one 0 RO_ADD 1 [1; 0; 0; 0]%Z) (Ok [0; 0; 0; 0]%Z).
Proof. split; one_job A. Qed.
(** A denormal scale: code 1 of scale 2^-127 is 2^-127, but 0 if the worker flushes. *)
Theorem C63_scale_refuted A :
  returns [1%Z] (repeat 0%Z 4) (dequantize_call A 1 0 DT_UINT8 DT_F32 (f32_of_bits 0x00400000) 0 RO_SET 1 (repeat 0%Z 4)) (Ok [0; 0; 0x40; 0]%Z) /\
  returns [1%Z] (repeat 0%Z 4) (dequantize_call_z (fun _ => flushing) A 1 0 DT_UINT8 DT_F32 (f32_of_bits 0x00400000) 0 RO_SET 1 (repeat 0%Z 4)) (Ok (repeat 0%Z 4)).
Proof. split; one_job A. Qed.
(** Stochastic rounding with the threshold 0 (drawn with probability 2^-64): 2^-149 is rounded up to code 1, but not if the worker flushes. *)
Theorem C63_threshold_refuted A :
  returns [1; 0; 0; 0]%Z [0%Z] (quantize_call A 1 0 DT_F32 DT_UINT8 f_one 0 RM_STOCHASTIC f_zero [1; 0; 0; 0]%Z [0%Z]) (Ok [1%Z]) /\
  returns [1; 0; 0; 0]%Z [0%Z] (quantize_call_z (fun _ => flushing) A 1 0 DT_F32 DT_UINT8 f_one 0 RM_STOCHASTIC f_zero [1; 0; 0; 0]%Z [0%Z]) (Ok [0%Z]).
Proof. split; one_job A. Qed.
(** Data that is entirely denormal, {0, 2^-130}, is constant data to a flushing scan: scale 1 instead of about 2^-138. *)
Definition tiny_data : mem := [0; 0; 0; 0; 0; 0; 8; 0]%Z.
Theorem C63_denormal_data_refuted a : a <> SSE42 ->
  data_range DT_F32 tiny_data 2 0 (bpow radix2 (-130)) /\
  (exists scale, compute_quant_config_from_data a DT_F32 DT_UINT8 tiny_data [(0, 2)%nat] = Ok (scale, 0%Z) /\ val scale < bpow radix2 (-137)) /\
  compute_quant_config_from_data_z (fun _ => flushing) flushing a DT_F32 DT_UINT8 tiny_data [(0, 2)%nat] = Ok (f_one, 127%Z).
Proof.
  intros Ha.
  assert (V0 : val (elem_at DT_F32 tiny_data 0) = 0) by (unfold val; cbn; lra).
  assert (V1 : val (elem_at DT_F32 tiny_data 1) = bpow radix2 (-130)) by (unfold val; cbn; unfold F2R; cbn; lra).
  split; [|split].
  - split; [exists 0%nat; split; [lia|auto]|]. split; [exists 1%nat; split; [lia|auto]|]. pose proof (bpow_gt_0 radix2 (-130)).
    intros [|[|i]] Hi; rewrite ?V0, ?V1; try lra; lia.
  - exists (f32_of_bits 2056). split.
    + assert (K : bind (compute_quant_config_from_data a DT_F32 DT_UINT8 tiny_data [(0, 2)%nat]) (fun c => Ok (bits_of_f32 (fst c), snd c)) = Ok (2056%Z, 0%Z)) by (destruct a; vm_compute; reflexivity).
      destruct (compute_quant_config_from_data a DT_F32 DT_UINT8 tiny_data [(0, 2)%nat]) as [[s z']| |]; cbn [bind] in K; try discriminate. injection K as K <-.
      do 2 f_equal. cbn [fst] in K. rewrite <- K. symmetry. apply (binary_float_of_bits_of_binary_float 23 8 eq_refl eq_refl eq_refl).
    + unfold val. cbn. unfold F2R. cbn. lra.
  - assert (K : bind (compute_quant_config_from_data_z (fun _ => flushing) flushing a DT_F32 DT_UINT8 tiny_data [(0, 2)%nat]) (fun c => Ok (bits_of_f32 (fst c), snd c)) = Ok (0x3f800000%Z, 127%Z)) by (destruct a; vm_compute; reflexivity).
    destruct (compute_quant_config_from_data_z (fun _ => flushing) flushing a DT_F32 DT_UINT8 tiny_data [(0, 2)%nat]) as [[s z']| |]; cbn [bind] in K; try discriminate. injection K as K <-.
    do 2 f_equal. cbn [fst] in K. change f_one with (f32_of_bits 0x3f800000). rewrite <- K. symmetry. apply (binary_float_of_bits_of_binary_float 23 8 eq_refl eq_refl eq_refl).
Qed.
