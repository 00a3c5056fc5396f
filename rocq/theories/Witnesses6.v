(** Witnesses6.v -- concrete instances of the theorems of PropsContract.v (C46). *)
From Coq Require Import ZArith List Lia Bool Arith ZifyBool ZifyNat Reals Lra.
From Flocq Require Import Core Binary.
From Verif Require Import Base Floats Dtypes Spec ApiSpec Context Api FloatFacts2 PropsQuantize PropsDequantize PropsRoundTrip PropsDequantBf16 PropsDequantAny PropsContract Witnesses Witnesses5.
Import ListNotations.

(** 70 packed codes added to 70 floats with a contracting compiler: any kernel set, 1 to 1000 threads, any of the four builds *)
Example C46_add_witness cv cs A nt oaddr dq r : quant_type dq -> few nt ->
  returns (packed dq) (sample DT_F32) (dequantize_call_c cv cs A nt oaddr dq DT_F32 f_half 2 RO_ADD (bytes_for dq 70) (sample DT_F32)) r ->
  exists o, r = Ok o /\ f32_at o 5 = accumulate (if dequant_vector_path A dq DT_F32 70 nt 5 then cv else cs) (f32_at (sample DT_F32) 5) (f32_of_Z (code_at dq (packed dq) 5 - 2)) f_half.
Proof.
  intros Hq Hn HR. assert (Hd : float_type DT_F32) by (left; reflexivity). destruct (sample_len _ Hd) as [_ HL].
  assert (Z30 : (Z.abs 2 <= 2 ^ 30)%Z) by (cbn; lia).
  destruct (C46_add_f32 cv cs A nt oaddr dq f_half 2 _ _ _ r (sample_dq nt dq _ Hd Hq Hn) Z30 eq_refl HR) as (o & -> & _ & HE & _).
  rewrite HL in HE. exists o. split; auto. apply HE; [lia|]. change (4 * (70 / 4)) with 68. lia.
Qed.
Example C46_accuracy_witness cv cs A nt oaddr r : few nt ->
  returns (packed DT_UINT8) (sample DT_F32) (dequantize_call_c cv cs A nt oaddr DT_UINT8 DT_F32 tenth 2 RO_ADD (bytes_for DT_UINT8 70) (sample DT_F32)) r ->
  exists o, r = Ok o /\ finite (f32_at o 4).
Proof.
  intros Hn HR. assert (Hd : float_type DT_F32) by (left; reflexivity). assert (Hq : quant_type DT_UINT8) by (right; right; reflexivity).
  destruct (sample_len _ Hd) as [_ HL].
  assert (Z23 : (Z.abs 2 <= 2 ^ 23)%Z) by (cbn; lia).
  destruct (C46_accuracy cv cs A nt oaddr DT_UINT8 tenth 2 _ _ _ r 4 (sample_dq nt _ _ Hd Hq Hn) Z23 eq_refl HR) as (o & -> & F & _).
  - rewrite HL. lia.
  - discriminate.
  - vm_compute. reflexivity.
  - assert (C : code_at DT_UINT8 (packed DT_UINT8) 4 = 148%Z) by (vm_compute; reflexivity). rewrite C.
    assert (T : (Rabs (val tenth) <= 1)%R).
    { unfold val, tenth. rewrite Rabs_pos_eq.
      - unfold f32_of_bits. cbv -[IZR Rmult Rinv Rle]. lra.
      - unfold f32_of_bits. cbv -[IZR Rmult Rinv Rle]. lra. }
    assert (O : (Rabs (val (f32_at (sample DT_F32) 4)) <= 1000)%R).
    { assert (B : f32_at (sample DT_F32) 4 = f32_of_bits (bits_of_f32 (f32_at (sample DT_F32) 4))) by (symmetry; apply f32_bits_bits).
      let b := eval vm_compute in (bits_of_f32 (f32_at (sample DT_F32) 4)) in
        assert (BB : bits_of_f32 (f32_at (sample DT_F32) 4) = b) by (vm_compute; reflexivity).
      rewrite BB in B. rewrite B. unfold val, f32_of_bits. apply Rabs_le. cbv -[IZR Rmult Rinv Rle Ropp]. lra. }
    rewrite Rabs_mult. rewrite (Rabs_pos_eq (IZR (148 - 2))) by (apply IZR_le; lia).
    apply Rle_trans with (1000 + 146 * 1)%R.
    + apply Rplus_le_compat; auto. apply Rmult_le_compat_l; [lra|auto].
    + apply Rle_trans with (bpow radix2 20); [|apply bpow_le; lia]. change (bpow radix2 20) with 1048576%R. lra.
  - exists o. auto.
Qed.
Example C46_bf16_witness cv cs A nt oaddr dq r : quant_type dq -> few nt ->
  returns (packed dq) (sample DT_BF16) (dequantize_call_c cv cs A nt oaddr dq DT_BF16 f_half 2 RO_ADD (bytes_for dq 70) (sample DT_BF16)) r ->
  exists o, r = Ok o /\ length o = length (sample DT_BF16).
Proof.
  intros Hq Hn HR. assert (Hd : float_type DT_BF16) by (right; reflexivity).
  assert (Z22 : (Z.abs 2 <= 2 ^ 22)%Z) by (cbn; lia).
  destruct (C46_add_bf16 cv cs A nt oaddr dq f_half 2 _ _ _ r (sample_dq nt dq _ Hd Hq Hn) Z22 (sample_bytes _) HR) as (o & -> & L & _).
  exists o. auto.
Qed.
Example C46_fused_witness c cv A A1 A2 nt rm oaddr p r1 r2 : few nt ->
  returns (sample DT_F32) (sample DT_F32) (fused_call_c cv c A nt oaddr DT_F32 DT_UINT4 f_half 2 rm RO_ADD thr4 (sample DT_F32) (sample DT_F32)) r1 ->
  returns (sample DT_F32) (sample_out DT_UINT4) (quantize_call A1 nt oaddr DT_F32 DT_UINT4 f_half 2 rm thr4 (sample DT_F32) (sample_out DT_UINT4)) (Ok p) ->
  returns (p ++ [0]%Z) (sample DT_F32) (dequantize_call_c c c A2 nt oaddr DT_UINT4 DT_F32 f_half 2 RO_ADD (length p) (sample DT_F32)) r2 ->
  r1 = r2 /\ exists o, r1 = Ok o.
Proof.
  intros Hn H1 HQ H2. assert (Hd : float_type DT_F32) by (left; reflexivity). assert (Hq : quant_type DT_UINT4) by (right; left; reflexivity). destruct (sample_len _ Hd) as [_ HL].
  eapply (C46_fused_equals_two_calls c cv A A1 A2 nt nt nt oaddr oaddr oaddr DT_UINT4 f_half 2 rm thr4 (sample DT_F32) (sample_out DT_UINT4) p [0%Z] (sample DT_F32) r1 r2);
    eauto using half_good, sample_buffers; rewrite ?HL; try (apply sample_sizes; auto); try lia; try discriminate; try reflexivity.
  - intros; apply quarter_threshold.
  - intros i Hi. apply (sample_input A1 DT_F32 rm i 2); auto; lia.
  - repeat constructor; unfold is_byte; lia.
Qed.
