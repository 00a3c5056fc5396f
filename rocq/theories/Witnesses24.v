(** Witnesses24.v -- concrete instances of the theorems of PropsFlush.v (C63). *)
From Coq Require Import ZArith List Lia Bool Reals Lra.
From Flocq Require Import Core Binary Bits.
From Verif Require Import Base Floats Dtypes Spec ApiSpec ConfigSpec Context Api FloatFacts FloatFacts2 PropsQuantize PropsDequantize PropsRoundTrip
  MinMax PropsConfig PropsReadme Flush FlushFacts2 PropsFlush Witnesses Witnesses15 Witnesses23.
Import ListNotations.
Open Scope nat_scope.

Lemma half_flush : flush_scale f_half.
Proof.
  split; [reflexivity|]. assert (V : val f_half = bpow radix2 (-1)) by (unfold val; cbn; unfold F2R; cbn; lra). rewrite V. split; apply bpow_le; lia.
Qed.
(* the threshold 1/4 *)
Definition quarter_thr : f32 := f32_of_bits 0x3e800000.
Lemma quarter_coarse : coarse quarter_thr.
Proof.
  split; [reflexivity|]. assert (V : val quarter_thr = bpow radix2 (-2)) by (unfold val; cbn; unfold F2R; cbn; lra). rewrite V. apply bpow_le; lia.
Qed.
(** The data 2^-149, 3.25, -0.5: a stochastic call on a flushing Arm worker *)
Definition mixed : mem := [1; 0; 0; 0; 0; 0; 0x50; 0x40; 0; 0; 0; 0xBF]%Z.
Example w63_mixed A : returns mixed (repeat 0%Z 3) (quantize_call_z (fun ti => if Nat.eqb ti 0 then mk_fmode true FTZ_BEFORE else ieee_mode) A 1 0 DT_F32 DT_UINT8 f_half 4 RM_STOCHASTIC quarter_thr mixed (repeat 0%Z 3))
  (Ok [4; 11; 3]%Z).
Proof. rewrite C63_quantize; [one_job A|apply half_flush|intros _; apply quarter_coarse]. Qed.
Example w63_dequantize A md : returns [3%Z] (repeat 0%Z 4) (dequantize_call_z md A 1 0 DT_UINT8 DT_F32 f_half 5 RO_SET 1 (repeat 0%Z 4)) (Ok [0; 0; 0x80; 0xBF]%Z).
Proof. rewrite C63_dequantize by apply half_flush. one_job A. Qed.
Example w63_fused A md : returns [0; 0; 0xA0; 0x3F]%Z (repeat 0%Z 4) (fused_call_z md A 1 0 DT_F32 DT_UINT4 f_half 5 RM_NEAREST RO_SET f_zero [0; 0; 0xA0; 0x3F]%Z (repeat 0%Z 4)) (Ok [0; 0; 0xC0; 0x3F]%Z).
Proof. rewrite C63_fused; [one_job A|apply half_flush|discriminate]. Qed.
Example w63_parameters mb mc a d dq : a <> SSE42 -> float_type d -> quant_type dq ->
  compute_quant_config_from_data_z mb mc a d dq (quarter_data d) [(0, 2); (2, 5)] = compute_quant_config_from_data a d dq (quarter_data d) [(0, 2); (2, 5)].
Proof.
  intros Ha Hd Hq. apply (C63_parameters mb mc a d dq (quarter_data d) 5 [(0, 2); (2, 5)] (-1) 2); auto using quarter_finite, quarter_range, cover5.
  right. apply Rle_trans with (bpow radix2 1); [apply bpow_le; lia|change (bpow radix2 1) with 2%R; lra].
Qed.
Example w63_workflow mb mc md md' a d dq : a <> SSE42 -> float_type d -> quant_type dq -> exists scale zp,
  compute_quant_config_from_data_z mb mc a d dq (quarter_data d) [(0, 2); (2, 5)] = Ok (scale, zp) /\
  (forall A nt oaddr outm, quantize_call_z md A nt oaddr d dq scale zp RM_NEAREST f_zero (quarter_data d) outm = quantize_call A nt oaddr d dq scale zp RM_NEAREST f_zero (quarter_data d) outm) /\
  (forall A nt oaddr dout is outm, dequantize_call_z md' A nt oaddr dq dout scale zp RO_SET is outm = dequantize_call A nt oaddr dq dout scale zp RO_SET is outm).
Proof.
  intros Ha Hd Hq. destruct (C63_workflow mb mc md md' a d dq (quarter_data d) 5 [(0, 2); (2, 5)] (-1) 2) as (s & z & E & _ & H1 & H2); auto using quarter_finite, quarter_range, cover5.
  - split; [apply Rle_trans with (bpow radix2 1); [apply bpow_le; lia|change (bpow radix2 1) with 2%R; lra]|].
    apply Rle_trans with (bpow radix2 2); [change (bpow radix2 2) with 4%R; lra|apply bpow_le; lia].
  - exists s, z. split; auto. split; auto. intros. apply H1. discriminate.
Qed.
