(** Witnesses26.v -- concrete cases of C65 (PropsOptimal.v). *)
From Coq Require Import ZArith List Lia Bool Reals Lra.
From Flocq Require Import Core BinarySingleNaN Binary Bits.
From Verif Require Import Base Floats Dtypes Spec ApiSpec Context Api PropsQuantize PropsDequantize PropsRoundTrip PropsIdempotent MinMax ConfigSpec F64Facts ConfigFacts PropsConfig
  PropsConfigRefuted PropsRepresent PropsOptimal Witnesses.
Import ListNotations.
Open Scope R_scope.

Lemma width_203 : bpow radix2 (-118) <= 200 - -3 <= bpow radix2 100.
Proof.
  split.
  - apply Rle_trans with (bpow radix2 0); [apply bpow_le; lia|cbn; lra].
  - apply Rle_trans with (bpow radix2 10); [change (bpow radix2 10) with 1024%R; lra|apply bpow_le; lia].
Qed.
(** 70 floats in [-3, 200] through uint4: no 4-bit scheme guarantees less than 203/32 (less 2^-14 of it); the library stays within 16/15 of that (and 2^-9). *)
Example C65_witness A A2 nt scale zp p o : few nt ->
  compute_quant_config_from_data AVX2 DT_F32 DT_UINT4 (sample DT_F32) cut3 = Ok (scale, zp) ->
  returns (sample DT_F32) (sample_out DT_UINT4) (quantize_call A nt 0 DT_F32 DT_UINT4 scale zp RM_NEAREST thr4 (sample DT_F32) (sample_out DT_UINT4)) (Ok p) ->
  returns (p ++ [0]%Z) (sample DT_F32) (dequantize_call A2 nt 0 DT_UINT4 DT_F32 scale zp RO_SET (length p) (sample DT_F32)) (Ok o) ->
  (forall E, achievable DT_UINT4 (-3) 200 E -> 203 / 32 * (1 - / 2 ^ 14) <= E) /\
  forall i, (i < 70)%nat -> Rabs (val (f32_at o i) - val (f32_at (sample DT_F32) i)) <= 203 / 32 * (16 / 15) * (1 + / 2 ^ 10).
Proof.
  intros Hn HC HQ HD. assert (Hq : quant_type DT_UINT4) by (right; left; reflexivity).
  assert (Hd : float_type DT_F32) by (left; reflexivity). destruct (sample_len _ Hd) as [_ HL].
  assert (HA : AVX2 <> SSE42) by discriminate. assert (HN : [0%Z] <> []) by discriminate.
  assert (H0 : (-3 <= 0 <= 200)%R) by lra.
  assert (Hx : Forall is_byte [0%Z]) by (repeat constructor; unfold is_byte; lia).
  pose proof (sample_finite _ Hd) as HF. pose proof (sample_range _ Hd) as HRg. pose proof (sample_sizes _ nt Hd Hn) as HS. pose proof cut3_ok as HK.
  rewrite <- HL in HF, HRg, HS, HK. split.
  - intros E HE. assert (I1 : in32 (-3)) by (destruct HRg as ((k & Hk & <-) & _); apply in32_val, HF; auto).
    assert (I2 : in32 200) by (destruct HRg as (_ & (k & Hk & <-) & _); apply in32_val, HF; auto).
    pose proof (C65_lower_bound DT_UINT4 (-3) 200 E Hq I1 I2 H0 width_203 HE) as B. change (IZR (code_max DT_UINT4 + 1)) with 16 in B. cbn [pow] in *. lra.
  - destruct (C65_near_optimal AVX2 cut3 A nt 0 A2 nt 0 DT_UINT4 scale zp thr4 (sample DT_F32) (sample_out DT_UINT4) p [0%Z] (sample DT_F32) (Ok o) (-3) 200
      HA HF HK HRg H0 width_203 HC (sample_buffers nt _ _ Hd Hq Hn) eq_refl HS Hx HN HQ HD) as (o' & E & B).
    injection E as <-. rewrite HL in B. intros i Hi.
    specialize (B _ (C65_bound_attained DT_UINT4 (-3) 200 Hq ltac:(lra)) i Hi).
    change (IZR (code_max DT_UINT4 + 1)) with 16 in B. change (IZR (code_max DT_UINT4)) with 15 in B. cbn [pow] in *. lra.
Qed.
(** {100, 101} through uint8: whatever the codes, every element comes back wrong by at least 98, although one code for "100" would be right within 1. *)
Definition far2 : mem := f32_buf [0x42c80000; 0x42ca0000]%Z.
Lemma far2_0 : val (f32_at far2 0) = 100. Proof. unfold far2, f32_at, f32_buf, val. cbn. unfold F2R. cbn. lra. Qed.
Lemma far2_1 : val (f32_at far2 1) = 101. Proof. unfold far2, f32_at, f32_buf, val. cbn. unfold F2R. cbn. lra. Qed.
Lemma far2_finite : finite_data DT_F32 far2 2.
Proof.
  split; [repeat constructor; unfold is_byte; lia|]. split; [reflexivity|]. intros i Hi. destruct i as [|[|i]]; [vm_compute; reflexivity|vm_compute; reflexivity|lia].
Qed.
Lemma far2_range : data_range DT_F32 far2 2 100 101.
Proof.
  split; [exists 0%nat; split; [lia|apply far2_0]|]. split; [exists 1%nat; split; [lia|apply far2_1]|].
  intros i Hi. destruct i as [|[|i]]; [change (elem_at DT_F32 far2 0) with (f32_at far2 0); rewrite far2_0; lra|change (elem_at DT_F32 far2 1) with (f32_at far2 1); rewrite far2_1; lra|lia].
Qed.
Example C65_far_witness A oaddr b0 b1 : is_byte b0 -> is_byte b1 ->
  exists scale zp, compute_quant_config_from_data GENERIC DT_F32 DT_UINT8 far2 [(0, 2)%nat] = Ok (scale, zp) /\
  forall outm r, length outm = 8%nat -> returns [b0; b1] outm (dequantize_call A 1 oaddr DT_UINT8 DT_F32 scale zp RO_SET 2 outm) r ->
  exists o, r = Ok o /\ forall i, (i < 2)%nat -> 98 <= Rabs (val (f32_at o i) - val (f32_at far2 i)).
Proof.
  intros B0 B1. assert (Hq : quant_type DT_UINT8) by (right; right; reflexivity). assert (Hd : float_type DT_F32) by (left; reflexivity).
  assert (HA : GENERIC <> SSE42) by discriminate.
  assert (BC : block_cover 2 [(0, 2)%nat]).
  { split; [intros b [<-|[]]; cbn; lia|]. intros t Ht. exists (0, 2)%nat. split; [left; reflexivity|cbn; lia]. }
  destruct (C21_documented_parameters GENERIC DT_F32 DT_UINT8 far2 2 [(0, 2)%nat] 100 101 HA Hd Hq far2_finite BC far2_range ltac:(lra)) as (s & E & _).
  exists s. eexists. split; [exact E|]. intros outm r L HR.
  assert (W : bpow radix2 (-118) <= 101 - 100 <= bpow radix2 100).
  { split; [apply Rle_trans with (bpow radix2 0); [apply bpow_le; lia|cbn; lra]|apply Rle_trans with (bpow radix2 0); [cbn; lra|apply bpow_le; lia]]. }
  assert (HN : numel DT_F32 (length outm) = 2%nat) by (rewrite L; reflexivity).
  assert (HB : dq_buffers 1 DT_UINT8 DT_F32 [b0; b1] 2 outm).
  { unfold dq_buffers. rewrite HN, L. repeat split; auto; try (vm_compute; congruence); try discriminate. }
  pose proof far2_finite as HF. pose proof far2_range as HG. rewrite <- HN in HF, HG.
  assert (BC' : block_cover (numel DT_F32 (length outm)) [(0, 2)%nat]) by (rewrite HN; exact BC).
  destruct (C65_zero_outside_refuted 98 GENERIC [(0, 2)%nat] A 1 oaddr DT_UINT8 s _ far2 [b0; b1] 2 outm r 100 101 HA HF BC' HG W ltac:(lra) ltac:(lra) E HB HR)
    as (o & -> & _ & H).
  exists o. split; [reflexivity|]. rewrite HN in H. intros i Hi. specialize (H i Hi). lra.
Qed.
