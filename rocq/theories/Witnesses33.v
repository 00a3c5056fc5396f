(** Witnesses33.v -- concrete instances of the theorems of PropsBlocks.v (C73). *)
From Coq Require Import ZArith List Lia Bool Arith ZifyBool ZifyNat Reals Lra.
From Flocq Require Import Core Binary Bits.
From Verif Require Import Base Floats Dtypes Spec ApiSpec ConfigSpec Context Api FloatFacts QuantFacts FloatFacts2 PropsQuantize PropsDequantize PropsRoundTrip RoundTripFacts PropsIdempotent PropsDequantBf16 PropsRoundTripTypes MinMax
  MinMaxFacts ConfigFacts PropsConfig PropsRepresent F64Facts PropsBf16Zero PropsChunks PropsBlocks PropsConfigRefuted PropsRing Witnesses4 Witnesses5 Witnesses9 Witnesses10 Witnesses Witnesses26 Witnesses31 Witnesses32.
Import ListNotations.
Open Scope nat_scope.

Lemma part_is_block : block DT_F32 0 3 (sample DT_F32) = part.
Proof. reflexivity. Qed.
Lemma cover3 : block_cover 3 [(0, 3)].
Proof. split; [intros q [<-|[]]; cbn; lia|]. intros t Ht. exists (0, 3). split; [left; reflexivity|]. cbn. lia. Qed.
(** the first three elements {0, 5/4, -3} of the sample (range -3 .. 200): a smaller step, and the block comes back within the bound *)
Example C73_witness A A2 nt oaddr rm pk outm sw zw : few nt -> length pk = 3 -> length outm = 12 -> Forall is_byte outm ->
  compute_quant_config_from_data AVX512F DT_F32 DT_UINT8 (sample DT_F32) cut3 = Ok (sw, zw) ->
  exists s zp p o, compute_quant_config_from_data AVX2 DT_F32 DT_UINT8 part [(0, 3)] = Ok (s, zp) /\
    returns part pk (quantize_call A nt oaddr DT_F32 DT_UINT8 s zp rm thr4 part pk) (Ok p) /\
    returns (p ++ [0]%Z) outm (dequantize_call A2 nt oaddr DT_UINT8 DT_F32 s zp RO_SET (length p) outm) (Ok o) /\
    (0 <= val s <= val sw)%R /\ forall i, i < 3 -> (Rabs (val (elem_at DT_F32 o i) - sval i) <= val sw * (1 + / 2048))%R.
Proof.
  intros Hn Lp Lo Hob EW. assert (Hd : float_type DT_F32) by (left; reflexivity). assert (Hq : quant_type DT_UINT8) by (right; right; reflexivity).
  assert (W : (bpow radix2 (-112) <= 5 / 4 - -3 <= bpow radix2 100)%R).
  { split.
    - apply Rle_trans with (bpow radix2 0); [apply bpow_le; lia|change (bpow radix2 0) with 1%R; lra].
    - apply Rle_trans with (bpow radix2 10); [change (bpow radix2 10) with 1024%R; lra|apply bpow_le; lia]. }
  destruct (C21_documented_parameters AVX2 DT_F32 DT_UINT8 part 3 [(0, 3)] (-3) (5 / 4) ltac:(discriminate) Hd Hq part_ok cover3 part_range ltac:(lra)) as (s & EC & Fs & Vs).
  assert (I1 : in32 (-3)) by (destruct part_range as ((i & Hi & <-) & _); apply in32_val, part_ok; auto).
  assert (I2 : in32 (5 / 4)) by (destruct part_range as (_ & (i & Hi & <-) & _); apply in32_val, part_ok; auto).
  assert (W' : (bpow radix2 (-118) <= 5 / 4 - -3 <= bpow radix2 100)%R) by (split; [apply Rle_trans with (bpow radix2 (-112)); [apply bpow_le; lia|apply W]|apply W]).
  destruct (config_scale_rel DT_UINT8 (-3)%R (5 / 4)%R Hq I1 I2 W') as (e & He & Es & Bs1 & Bs2).
  destruct (step_bounds DT_UINT8 (-3)%R (5 / 4)%R Hq I1 I2 ltac:(lra)) as (d & Hdd & Ed & _). change (code_max DT_UINT8) with 255%Z in Ed.
  destruct (config_zp_near DT_UINT8 (-3)%R (5 / 4)%R Hq I1 I2 ltac:(lra) ltac:(lra)) as (_ & Z & _). set (zp := config_zp DT_UINT8 (-3)%R (5 / 4)%R) in *.
  assert (SB : (/ 100 <= val s <= / 50)%R).
  { rewrite Vs, Es, Ed. apply Rabs_le_inv in Hdd. apply Rabs_le_inv in He. unfold u64r, u32r in *.
    replace ((5 / 4 - -3) / IZR 255 * (1 + d) * (1 + e))%R with (1 / 60 * ((1 + d) * (1 + e)))%R by field. assert (99 / 100 <= (1 + d) * (1 + e) <= 101 / 100)%R by nra. lra. }
  assert (Ns : normal_scale s) by (apply moderate_normal; auto; lra).
  assert (LP : numel DT_F32 (length part) = 3) by reflexivity. assert (LO : numel DT_F32 (length outm) = 3) by (rewrite Lo; reflexivity).
  assert (HB : buffers_ok nt DT_F32 DT_UINT8 part pk).
  { unfold buffers_ok. rewrite LP. split; [exact Hd|]. split; [exact Hq|]. split; [apply part_ok|]. split; [exact Lp|]. change (length part) with 12. unfold sizes_ok, few in *. lia. }
  assert (HI : forall i, i < 3 -> quantizable s (elem_at DT_F32 part i)).
  { intros i Hi. split; [apply part_ok; auto|]. pose proof (part_abs i Hi) as Sv. change (val (elem_at DT_F32 part i)) with (at_ part i). pose proof (scaled_rel s (at_ part i) Ns) as SR. destruct tiny_small as [_ T2].
    assert (T : (Rabs (at_ part i / val s) <= 300)%R).
    { unfold Rdiv. rewrite Rabs_mult, Rabs_inv, (Rabs_pos_eq (val s)) by lra.
      apply Rle_trans with (3 * / / 100)%R; [|lra]. apply Rmult_le_compat; auto using Rabs_pos; [left; apply Rinv_0_lt_compat; lra|apply Rinv_le; lra]. }
    set (t := (at_ part i / val s)%R) in *. set (y := scaled _ _) in *. unfold u32r in SR.
    replace y with ((y - t) + t)%R by ring. eapply Rle_lt_trans; [apply Rabs_triang|]. change (bpow radix2 30) with 1073741824%R.
    assert (RoundTripFacts.tiny <= 1)%R by (unfold RoundTripFacts.tiny; change 1%R with (bpow radix2 0); apply bpow_le; lia). lra. }
  destruct (returns_total part pk (quantize_call A nt oaddr DT_F32 DT_UINT8 s zp rm thr4 part pk)) as [q HQ].
  change (code_max DT_UINT8) with 255%Z in Z.
  destruct (quantize_near_rm A nt oaddr DT_F32 DT_UINT8 s zp rm thr4 _ _ q HB (normal_good _ Ns) ltac:(lia) (fun _ => quarter_threshold) ltac:(rewrite LP; exact HI) HQ) as (p & -> & _).
  destruct (returns_total (p ++ [0]%Z) outm (dequantize_call A2 nt oaddr DT_UINT8 DT_F32 s zp RO_SET (length p) outm)) as [r HR].
  assert (HS : sizes_ok (length outm) (numel DT_F32 (length outm)) nt) by (rewrite LO, Lo; unfold sizes_ok, few in *; lia).
  assert (HX : Forall is_byte [0%Z]) by (apply Forall_cons; [unfold is_byte; lia|apply Forall_nil]). assert (HN : [0%Z] <> []) by discriminate.
  pose proof (sample_finite _ Hd) as FD. pose proof cover3 as C3. pose proof part_range as PR. rewrite <- part_is_block in HB, HQ, EC, PR. rewrite <- LO in C3, PR, EC, HB, HQ. cbn [length] in *.
  assert (LE : 0 + numel DT_F32 (length outm) <= 70) by (rewrite LO; lia).
  destruct (C73_block_error AVX512F cut3 (sample DT_F32) 70 0 sw zw AVX2 [(0, numel DT_F32 (length outm))] A nt oaddr A2 nt oaddr DT_F32 DT_F32 DT_UINT8 s zp rm thr4 pk p [0%Z] outm r (-3) (5 / 4)
    ltac:(discriminate) FD cut3_ok LE EW ltac:(discriminate) C3 PR ltac:(lra) W EC HB Hd HS Hob (fun _ => quarter_threshold) HX HN HQ HR) as (o & -> & _ & B).
  assert (NC : not_constant DT_F32 (block DT_F32 0 (numel DT_F32 (length outm)) (sample DT_F32)) (numel DT_F32 (length outm))).
  { rewrite LO, part_is_block. exists 0, 1. split; [lia|]. split; [lia|]. change (at_ part 0 <> at_ part 1). rewrite !part_at by lia. unfold sval. cbn. lra. }
  pose proof (C73_smaller_step AVX512F AVX2 cut3 [(0, numel DT_F32 (length outm))] DT_F32 DT_UINT8 (sample DT_F32) 70 0 (numel DT_F32 (length outm)) sw zw s zp ltac:(discriminate) ltac:(discriminate) Hd Hq FD LE cut3_ok C3 NC EW EC) as ST.
  rewrite LO in EC, HB, HQ, B. rewrite part_is_block in *. exists s, zp, p, o. split; [exact EC|]. split; [exact HQ|]. split; [exact HR|]. split; [exact ST|].
  intros i Hi. specialize (B i Hi). cbv zeta in B. rewrite (proj2 (sample_elem DT_F32 (0 + i) Hd ltac:(lia))) in B. destruct B as [_ B]. cbn [Nat.add] in B. change (bpow radix2 (-11)) with (/ 2048)%R in B.
  destruct rm; lra.
Qed.

(** seventy times 1/4 *)
Example C73_constant_witness a A A2 nt nt2 oaddr oaddr2 thr p r scale zp : few nt -> few nt2 ->
  compute_quant_config_from_data a DT_F32 DT_UINT8 (const_data 0x3e800000) [(0, 70)] = Ok (scale, zp) ->
  returns (const_data 0x3e800000) (sample_out DT_UINT8) (quantize_call A nt oaddr DT_F32 DT_UINT8 scale zp RM_NEAREST thr (const_data 0x3e800000) (sample_out DT_UINT8)) (Ok p) ->
  returns (p ++ [0%Z]) (sample DT_F32) (dequantize_call A2 nt2 oaddr2 DT_UINT8 DT_F32 scale zp RO_SET (length p) (sample DT_F32)) r ->
  exists o, r = Ok o /\ forall i, i < 70 -> val (elem_at DT_F32 o i) = 0%R.
Proof.
  intros Hn Hn2 EC HQ HD. set (b := 0x3e800000%Z) in *.
  assert (Hd : float_type DT_F32) by (left; reflexivity). assert (Hq : quant_type DT_UINT8) by (right; right; reflexivity). destruct (sample_len _ Hd) as [SL SN].
  destruct (const_facts b (1 / 4)) as [HF HV].
  { apply Forall_is_byte_b; vm_compute; reflexivity. }
  { vm_compute; reflexivity. }
  { unfold val. cbn; unfold F2R; cbn; lra. }
  assert (L : length (const_data b) = 280) by reflexivity.
  assert (Hc : (Rabs (1 / 4) < pred_half)%R).
  { rewrite Rabs_pos_eq by lra. unfold pred_half. assert (G : (bpow radix2 (-25) <= bpow radix2 (-20))%R) by (apply bpow_le; lia). change (bpow radix2 (-20)) with (/ 1048576)%R in G. lra. }
  assert (HB : buffers_ok nt DT_F32 DT_UINT8 (const_data b) (sample_out DT_UINT8)).
  { unfold buffers_ok. rewrite L. change (numel DT_F32 280) with 70. split; auto. split; auto. split; [apply HF|]. split; [apply repeat_length|]. unfold sizes_ok, few in *. lia. }
  assert (HX : Forall is_byte [0%Z]) by (apply Forall_cons; [unfold is_byte; lia|apply Forall_nil]).
  destruct (C73_constant_block_refuted a [(0, 70)] A nt oaddr A2 nt2 oaddr2 DT_F32 DT_UINT8 scale zp thr (const_data b) (sample_out DT_UINT8) p [0%Z] (sample DT_F32) r (1 / 4)%R)
    as (o & -> & _ & H); rewrite ?SN; auto using whole70; try lia; try discriminate.
  - apply sample_sizes; auto.
  - exists o. split; [reflexivity|]. intros i Hi. rewrite SN in H. apply H; auto.
Qed.

(** {100, 101}: both elements lose more than half *)
Example C73_far_witness A oaddr b0 b1 : is_byte b0 -> is_byte b1 ->
  exists scale zp, compute_quant_config_from_data GENERIC DT_F32 DT_UINT8 far2 [(0, 2)] = Ok (scale, zp) /\
  forall outm r, length outm = 8 -> returns [b0; b1] outm (dequantize_call A 1 oaddr DT_UINT8 DT_F32 scale zp RO_SET 2 outm) r ->
  exists o, r = Ok o /\ forall i, i < 2 -> (50 < Rabs (val (f32_at o i) - val (f32_at far2 i)))%R.
Proof.
  intros B0 B1. assert (Hq : quant_type DT_UINT8) by (right; right; reflexivity). assert (Hd : float_type DT_F32) by (left; reflexivity).
  assert (HA : GENERIC <> SSE42) by discriminate.
  assert (BC : block_cover 2 [(0, 2)]).
  { split; [intros b [<-|[]]; cbn; lia|]. intros t Ht. exists (0, 2). split; [left; reflexivity|cbn; lia]. }
  destruct (C21_documented_parameters GENERIC DT_F32 DT_UINT8 far2 2 [(0, 2)] 100 101 HA Hd Hq far2_finite BC far2_range ltac:(lra)) as (s & E & _).
  exists s. eexists. split; [exact E|]. intros outm r L HR.
  assert (W : (bpow radix2 (-118) <= 101 - 100 <= bpow radix2 100)%R).
  { split; [apply Rle_trans with (bpow radix2 0); [apply bpow_le; lia|cbn; lra]|apply Rle_trans with (bpow radix2 0); [cbn; lra|apply bpow_le; lia]]. }
  assert (HN : numel DT_F32 (length outm) = 2) by (rewrite L; reflexivity).
  assert (HB : dq_buffers 1 DT_UINT8 DT_F32 [b0; b1] 2 outm).
  { unfold dq_buffers. rewrite HN, L. repeat split; auto; try (vm_compute; congruence); try discriminate. }
  pose proof far2_finite as HF. pose proof far2_range as HG. rewrite <- HN in HF, HG.
  assert (BC' : block_cover (numel DT_F32 (length outm)) [(0, 2)]) by (rewrite HN; exact BC).
  destruct (C73_far_block_refuted GENERIC [(0, 2)] A 1 oaddr DT_UINT8 s _ far2 [b0; b1] 2 outm r 100 101 HA HF BC' HG W ltac:(lra) E HB HR) as (o & -> & H).
  exists o. split; [reflexivity|]. rewrite HN in H. intros i Hi. specialize (H i Hi).
  assert (V : (100 <= val (f32_at far2 i))%R) by (destruct i as [|[|i]]; [rewrite far2_0; lra|rewrite far2_1; lra|lia]). lra.
Qed.
(** 32 + 32 + 6 elements of uint2: 8 + 8 + 2 bytes *)
Example C73_sizes_witness : total (map (bytes_for DT_UINT2) ([32; 32] ++ [6])) = 18.
Proof.
  rewrite (C73_block_sizes DT_UINT2 [32; 32] 6 (or_introl eq_refl)); [reflexivity|]. apply Forall_cons; [reflexivity|apply Forall_cons; [reflexivity|apply Forall_nil]].
Qed.
