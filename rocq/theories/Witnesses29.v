(** Witnesses29.v -- concrete instances of the theorems of PropsRankOrder.v (C48 for bf16, C67). *)
From Coq Require Import ZArith List Lia Bool Arith ZifyBool ZifyNat Reals Lra.
From Flocq Require Import Core Binary Bits.
From Verif Require Import Base Floats Dtypes Spec ApiSpec Context Api FloatFacts FloatFacts2 PropsQuantize PropsDequantize PropsRoundTrip RoundTripFacts PropsIdempotent PropsDequantBf16
  PropsBf16Zero PropsRoundTripTypes PropsRankOrder Witnesses Witnesses2 Witnesses7.
Import ListNotations.
Open Scope nat_scope.

(** {0, 5/4, -3, 200, 3/4} (fourteen times) with scale 1/2 and zero point 2: -3 <= 0 <= 3/4 <= 5/4 <= 200 still hold of what comes back, and 0 < 5/4. *)
Example C67_witness A A2 nt oaddr din dout dq rm : float_type din -> float_type dout -> dq = DT_UINT4 \/ dq = DT_UINT8 -> few nt ->
  exists p o, returns (sample din) (sample_out dq) (quantize_call A nt oaddr din dq f_half 2 rm thr4 (sample din) (sample_out dq)) (Ok p) /\
    returns (p ++ [0]%Z) (sample dout) (dequantize_call A2 nt oaddr dq dout f_half 2 RO_SET (length p) (sample dout)) (Ok o) /\
    (decodes_in_order A2 dq dout -> (val (elem_at dout o 2) <= val (elem_at dout o 5) /\ val (elem_at dout o 5) <= val (elem_at dout o 4) /\
       val (elem_at dout o 4) <= val (elem_at dout o 66) /\ val (elem_at dout o 66) <= val (elem_at dout o 3))%R) /\
    (decodes_apart dq dout -> (val (elem_at dout o 0) < val (elem_at dout o 66))%R).
Proof.
  intros Hd Hdo Hdq Hn. assert (Hq : quant_type dq) by (destruct Hdq as [-> | ->]; [right; left|right; right]; reflexivity).
  destruct (quant_sample A nt oaddr din dq rm Hd Hq Hn) as (p & HQ & _).
  destruct (sample_len _ Hd) as [_ HL], (sample_len _ Hdo) as [_ HLo]. destruct half_ok as [Fh Vh].
  destruct (returns_total (p ++ [0]%Z) (sample dout) (dequantize_call A2 nt oaddr dq dout f_half 2 RO_SET (length p) (sample dout))) as [r HR].
  assert (HS : sizes_ok (length (sample dout)) (numel dout (length (sample dout))) nt) by (rewrite HLo; apply sample_sizes; auto).
  assert (HO : out_scale dout f_half) by (destruct Hdo as [->| ->]; [apply half_normal|apply half_bf16_scale]).
  assert (HX : Forall is_byte [0%Z]) by (repeat constructor; unfold is_byte; lia). assert (HN : [0%Z] <> []) by discriminate.
  assert (HE : numel din (length (sample din)) = numel dout (length (sample dout))) by (rewrite HL, HLo; reflexivity).
  assert (HP : (0 < val f_half)%R) by (rewrite Vh; lra).
  assert (HZ : (0 <= 2 <= code_max dq)%Z) by (destruct Hdq as [-> | ->]; cbn; lia).
  assert (HI : forall i, i < numel dout (length (sample dout)) -> input_ok A rm f_half 2 thr4 (elem_at din (sample din) i)) by (rewrite HLo; intros; apply sample_input; auto; lia).
  destruct (C67_ranking A nt oaddr A2 nt oaddr din dout dq f_half 2 rm thr4 (sample din) (sample_out dq) p [0%Z] (sample dout) r
    (sample_buffers nt _ _ Hd Hq Hn) Hdo HE HS (sample_bytes _) HO HP HZ (fun _ => quarter_threshold) HX HN HI HQ HR) as (o & -> & _ & _ & O1 & O2).
  rewrite HLo in O1, O2. assert (SV : forall i, i < 70 -> val (elem_at din (sample din) i) = sval i) by (intros i Hi; apply (sample_elem din i Hd Hi)).
  assert (V0 : sval 0 = 0%R) by reflexivity. assert (V5 : sval 5 = 0%R) by reflexivity. assert (V2 : sval 2 = (-3)%R) by reflexivity.
  assert (V4 : sval 4 = (3 / 4)%R) by reflexivity. assert (V66 : sval 66 = (5 / 4)%R) by reflexivity. assert (V3 : sval 3 = 200%R) by reflexivity.
  exists p, o. split; auto. split; auto. split.
  - intros D. specialize (O1 D). split; [|split; [|split]]; apply O1; try lia; rewrite !SV by lia; rewrite ?V0, ?V5, ?V2, ?V4, ?V66, ?V3; lra.
  - intros D. apply (O2 D); try lia; rewrite ?SV by lia; rewrite ?V0, ?V66; unfold representable; rewrite Vh; change (bpow radix2 (-12)) with (/ 4096)%R.
    + destruct Hdq as [-> | ->]; [change (code_max DT_UINT4) with 15%Z|change (code_max DT_UINT8) with 255%Z]; cbn; lra.
    + destruct Hdq as [-> | ->]; [change (code_max DT_UINT4) with 15%Z|change (code_max DT_UINT8) with 255%Z]; cbn; lra.
    + destruct rm; cbn [resolution]; lra.
Qed.

(** codes 0 and 5 of the first packed byte 0x25, dequantized to bf16 on any CPU: strictly ordered *)
Example C48_bf16_witness A nt oaddr r : few nt ->
  returns (packed DT_UINT4) (sample DT_BF16) (dequantize_call A nt oaddr DT_UINT4 DT_BF16 f_half 2 RO_SET (bytes_for DT_UINT4 70) (sample DT_BF16)) r ->
  exists o, r = Ok o /\ (val (elem_at DT_BF16 o 0) < val (elem_at DT_BF16 o 2))%R.
Proof.
  intros Hn HR. assert (Hq : quant_type DT_UINT4) by (right; left; reflexivity). assert (Hd : float_type DT_BF16) by (right; reflexivity).
  destruct (sample_len _ Hd) as [_ HL]. assert (P : (0 < val f_half)%R) by (rewrite (proj2 half_ok); lra).
  assert (HZ : (0 <= 2 <= code_max DT_UINT4)%Z) by (cbn; lia).
  destruct (C48_bf16_order A nt oaddr DT_UINT4 f_half 2 _ _ _ r (sample_dq nt _ _ Hd Hq Hn) HZ half_bf16_scale P (sample_bytes _) HR) as (o & -> & _ & _ & _ & H & _).
  exists o. split; auto. apply H; rewrite ?HL; try lia; try discriminate. vm_compute. reflexivity.
Qed.
Example C67_fused_witness A nt oaddr rm r : few nt ->
  returns (sample DT_F32) (sample DT_F32) (fused_call A nt oaddr DT_F32 DT_UINT4 f_half 2 rm RO_SET thr4 (sample DT_F32) (sample DT_F32)) r ->
  exists o, r = Ok o /\ (val (f32_at o 2) <= val (f32_at o 0) < val (f32_at o 66))%R.
Proof.
  intros Hn HR. assert (Hq : quant_type DT_UINT4) by (right; left; reflexivity). assert (Hd : float_type DT_F32) by (left; reflexivity).
  destruct (sample_len _ Hd) as [_ HL]. destruct half_ok as [Fh Vh]. assert (P : (0 < val f_half)%R) by (rewrite Vh; lra).
  assert (HZ : (0 <= 2 <= code_max DT_UINT4)%Z) by (cbn; lia).
  assert (HS : sizes_ok (length (sample DT_F32)) (numel DT_F32 (length (sample DT_F32))) nt) by (rewrite HL; apply sample_sizes; auto).
  assert (HI : forall i, i < numel DT_F32 (length (sample DT_F32)) -> quantizable f_half (f32_at (sample DT_F32) i)) by (rewrite HL; intros i Hi; apply (sample_quantizable DT_F32 i Hd Hi)).
  destruct (C67_fused_ranking A nt oaddr DT_UINT4 f_half 2 rm thr4 (sample DT_F32) (sample DT_F32) r Hq eq_refl HS half_normal P HZ (fun _ => quarter_threshold) HI HR) as (o & -> & _ & _ & O1 & O2).
  rewrite HL in O1, O2. assert (SV : forall i, i < 70 -> val (f32_at (sample DT_F32) i) = sval i) by (intros i Hi; apply (sample_elem DT_F32 i Hd Hi)).
  assert (V0 : sval 0 = 0%R) by reflexivity. assert (V2 : sval 2 = (-3)%R) by reflexivity. assert (V66 : sval 66 = (5 / 4)%R) by reflexivity.
  exists o. split; auto. split.
  - apply O1; try lia; rewrite !SV by lia; rewrite ?V0, ?V2; lra.
  - apply O2; try lia; rewrite ?SV by lia; rewrite ?V0, ?V66; unfold representable; rewrite Vh; change (bpow radix2 (-12)) with (/ 4096)%R;
      change (code_max DT_UINT4) with 15%Z; try (cbn; lra). destruct rm; cbn [resolution]; lra.
Qed.
