(** Witnesses5.v -- concrete instances of the theorems of PropsMt.v (C45) and PropsDequantAny.v (C07). *)
From Coq Require Import ZArith List Lia Bool Arith ZifyBool ZifyNat Reals Lra.
From Verif Require Import Base Floats Dtypes Spec ApiSpec Context Api PropsQuantize PropsDequantize PropsDequantBf16 PropsDequantAny Rng PropsRng Mt19937 PropsMt Witnesses.
Import ListNotations.

(** ** C45: seed 42 and a history of 1000 calls, every other one stochastic: between calls 100 and 800 some threshold is positive *)
Definition mixed_calls : list round_mode_t := concat (repeat [RM_STOCHASTIC; RM_NEAREST] 500).
Example C45_witness draw : a_draw draw ->
  exists i t, 100 <= i < 800 /\ nth_error mixed_calls i = Some RM_STOCHASTIC /\
    nth_error (thresholds draw mixed_calls (mt_output 42)) i = Some t /\ (0 < val t)%R.
Proof. intros HD. apply C45_threshold_not_stuck; auto. apply Nat.leb_le. vm_compute. reflexivity. Qed.
(** the first two outputs with seed 42 *)
Example C45_outputs_witness : mt_output 42 0 = 13930160852258120406%Z /\ mt_output 42 1 = 11788048577503494824%Z.
Proof. split; vm_compute; reflexivity. Qed.

(** ** C07, complete: the sample codes with a NaN scale and the zero point 2^40 + 3 (low 32 bits: 3), any kernel set, 1 to 1000 threads: defined *)
Lemma Forall_is_byte_b m : forallb (fun x => (0 <=? x)%Z && (x <? 256)%Z) m = true -> Forall is_byte m.
Proof. intros H. apply Forall_forall. intros x Hx. rewrite forallb_forall in H. specialize (H x Hx). unfold is_byte. lia. Qed.
Definition nan_scale : f32 := f32_of_bits 2143289344.
Example C07_complete_witness A nt oaddr dq dout op r : quant_type dq -> float_type dout -> few nt ->
  returns (packed dq) (sample dout) (dequantize_call A nt oaddr dq dout nan_scale (2 ^ 40 + 3) op (bytes_for dq 70) (sample dout)) r ->
  exists o, r = Ok o /\ length o = length (sample dout).
Proof.
  intros Hq Hd Hn. apply C07_defined; auto using sample_dq, sample_bytes; [lia|].
  change (wrap32 (2 ^ 40 + 3)) with 3%Z. destruct Hq as [->|[->| ->]], Hd as [->| ->]; cbn; lia.
Qed.
(** ... and 7 bytes with zero point -2^31: undefined *)
Example C07_overflow_witness A nt oaddr op r : few nt ->
  returns (firstn 7 (packed DT_UINT8)) (firstn 28 (sample DT_F32))
    (dequantize_call A nt oaddr DT_UINT8 DT_F32 f_half (- 2 ^ 31) op 7 (firstn 28 (sample DT_F32))) r -> r = UB.
Proof.
  intros Hn HR. assert (HB : dq_buffers nt DT_UINT8 DT_F32 (firstn 7 (packed DT_UINT8)) 7 (firstn 28 (sample DT_F32))).
  { unfold few in Hn. split; [right; right; reflexivity|]. split; [left; reflexivity|]. split; [apply Forall_is_byte_b; vm_compute; reflexivity|].
    split; [vm_compute; reflexivity|]. split; [apply Nat.leb_le; vm_compute; reflexivity|]. split; [|discriminate].
    change (numel DT_F32 (length (firstn 28 (sample DT_F32)))) with 7. change (length (firstn 28 (sample DT_F32))) with 28. unfold sizes_ok. lia. }
  refine (C07_zero_point_overflow_refuted A nt oaddr DT_UINT8 DT_F32 f_half (- 2 ^ 31) op _ 7 _ r 1 HB _ _ _ _ HR).
  - apply Forall_is_byte_b. vm_compute. reflexivity.
  - change (numel DT_F32 (length (firstn 28 (sample DT_F32)))) with 7. lia.
  - vm_compute. reflexivity.
  - left. split; [discriminate|]. split; [|reflexivity]. change (numel DT_F32 (length (firstn 28 (sample DT_F32)))) with 7. lia.
Qed.
