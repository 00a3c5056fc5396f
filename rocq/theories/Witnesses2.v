(** Witnesses2.v -- concrete calls that meet the hypotheses of the theorems of PropsBadScale.v and PropsRoundTripTypes.v. *)
From Coq Require Import ZArith List Lia Bool Arith ZifyBool ZifyNat Reals Lra.
From Flocq Require Import Core Binary Bits.
From Verif Require Import Base Floats Simd Dtypes Spec ApiSpec PathSpec ConfigSpec QuantKernels DequantKernels ExecFacts FloatFacts QuantFacts QuantKernelFacts
  QuantGenericFacts DequantFacts DequantGenericFacts QuantLanes Context ContextFacts Footprint QuantizeFacts DequantizeFacts Api PropsQuantize Schedule
  PropsMemory FloatFacts2 PropsDequantize PropsRoundTrip Bf16Spec Bf16Facts RoundTripFacts PropsIdempotent PropsBf16 FloatFacts3 PropsDequantBf16
  PropsBf16Zero PropsPaths PropsExtreme MinMax ConfigFacts PropsConfig PropsRepresent PropsBadScale PropsRoundTripTypes Witnesses.
Import ListNotations.
Ltac Zify.zify_post_hook ::= Z.div_mod_to_equations.

(** An infinity among stochastically rounded data makes the call undefined; the sample itself is fine. *)
Example C36_stochastic_witness A nt oaddr r : few nt ->
  returns (sample DT_F32) (sample_out DT_UINT4) (quantize_call A nt oaddr DT_F32 DT_UINT4 f_half 2 RM_STOCHASTIC thr4 (sample DT_F32) (sample_out DT_UINT4)) r ->
  exists o, r = Ok o /\ forall i, i < 70 -> code_at DT_UINT4 o i = stoch_code DT_UINT4 (/ 2) 2 (val thr4) (val (f32_at (sample DT_F32) i)).
Proof.
  intros Hn HR. assert (Hd : float_type DT_F32) by (left; reflexivity). assert (Hq : quant_type DT_UINT4) by (right; left; reflexivity).
  destruct (sample_len _ Hd) as [_ HL]. destruct half_ok as [Fh Vh].
  destruct (C36_stochastic_every_input A nt oaddr DT_F32 DT_UINT4 f_half 2 thr4 (sample DT_F32) (sample_out DT_UINT4) r
    (sample_buffers nt _ _ Hd Hq Hn) half_good quarter_threshold ltac:(lia) HR) as [_ H].
  rewrite HL in H. destruct H as (o & -> & _ & HC).
  - intros i Hi. split; [apply sample_elem; auto|]. rewrite sample_scaled by auto.
    pose proof (stoch_error (val thr4) (2 * sval i) (proj1 (proj2 quarter_threshold))) as E. destruct (sample_abs i) as [B _].
    set (k := stoch_round _ _) in *. assert (Rabs (IZR k) <= 401)%R.
    { replace (IZR k) with ((IZR k - 2 * sval i) + 2 * sval i)%R by ring. eapply Rle_trans; [apply Rabs_triang|]. lra. }
    rewrite <- abs_IZR in H. apply le_IZR in H. lia.
  - exists o. split; auto. intros i Hi. rewrite <- Vh. apply HC; auto.
Qed.
Example C36_stochastic_ub_witness A oaddr r :
  returns [0; 0; 128; 127]%Z [7]%Z (quantize_call A 1 oaddr DT_F32 DT_UINT8 f_half 2 RM_STOCHASTIC thr4 [0; 0; 128; 127]%Z [7]%Z) r -> r = UB.
Proof.
  intros HR. eapply (C36_stochastic_every_input A 1 oaddr DT_F32 DT_UINT8 f_half 2 thr4); [| | | |exact HR|].
  - split; [left; reflexivity|]. split; [right; right; reflexivity|]. split; [repeat constructor; unfold is_byte; lia|]. split; [reflexivity|]. unfold sizes_ok; cbn; lia.
  - apply half_good.
  - apply quarter_threshold.
  - lia.
  - exists 0. split; [cbn; lia|]. intros (F & _). vm_compute in F. discriminate.
Qed.
(** The fused call on the sample, both float types, and on an infinity. *)
Example C36_fused_witness A nt dt rm op r : float_type dt -> few nt ->
  returns (sample dt) (sample dt) (fused_call A nt 0 dt DT_UINT4 f_half 2 rm op thr4 (sample dt) (sample dt)) r ->
  exists o, r = Ok o /\ length o = length (sample dt).
Proof.
  intros Hd Hn HR. assert (Hq : quant_type DT_UINT4) by (right; left; reflexivity). destruct (sample_len _ Hd) as [_ HL].
  assert (HS : sizes_ok (length (sample dt)) (numel dt (length (sample dt))) nt) by (rewrite HL; apply sample_sizes; auto).
  destruct (C36_fused_every_input A nt 0 dt DT_UINT4 f_half 2 rm op thr4 (sample dt) (sample dt) r Hd Hq eq_refl HS half_good ltac:(lia) (fun _ => quarter_threshold) HR) as [_ H].
  rewrite HL in H. destruct H as (o & -> & L & _); [|eauto].
  intros i Hi. assert (F : finite (elem_at dt (sample dt) i)) by (apply sample_elem; auto). destruct (sample_abs i) as [B _].
  destruct rm; cbn [fused_defined].
  - unfold conversion_defined. cbn [conv_limit]. rewrite sample_scaled, sample_round by auto. split; auto. unfold skc. mod5 i; cbn [nth]; lia.
  - unfold stoch_defined. rewrite sample_scaled by auto. split; auto.
    pose proof (stoch_error (val thr4) (2 * sval i) (proj1 (proj2 quarter_threshold))) as E.
    set (k := stoch_round _ _) in *. assert (Rabs (IZR k) <= 401)%R.
    { replace (IZR k) with ((IZR k - 2 * sval i) + 2 * sval i)%R by ring. eapply Rle_trans; [apply Rabs_triang|]. lra. }
    rewrite <- abs_IZR in H. apply le_IZR in H. lia.
Qed.
(** Unusable scales: zero, a NaN, the smallest subnormal. *)
Lemma unusable_zero : unusable_scale f_zero.
Proof. right. split; [reflexivity|]. left. apply f_zero_ok. Qed.
Example C36_unusable_witness : unusable_scale f_zero /\ unusable_scale (f32_of_bits 0x7fc00000) /\ unusable_scale (f32_of_bits 1).
Proof.
  split; [apply unusable_zero|]. split; [left; reflexivity|]. right. split; [reflexivity|]. right.
  assert (V : val (f32_of_bits 1) = bpow radix2 (-149)).
  { unfold val. vm_compute f32_of_bits. cbn [B2R]. unfold F2R. cbn [Fnum Fexp cond_Zopp]. apply Rmult_1_l. }
  rewrite V. unfold Rdiv. rewrite Rmult_1_l, <- bpow_opp. rewrite RN32_fmt by (apply fmt32_bpow; lia).
  rewrite Rabs_pos_eq by apply bpow_ge_0. unfold max32. apply bpow_le. lia.
Qed.
Example C36_unusable_call_witness A nt dq r r' : quant_type dq -> few nt ->
  returns (sample DT_F32) (sample_out dq) (quantize_call GENERIC nt 0 DT_F32 dq f_zero 2 RM_NEAREST thr4 (sample DT_F32) (sample_out dq)) r ->
  returns (sample DT_F32) (sample_out dq) (quantize_call A nt 0 DT_F32 dq f_zero 2 RM_STOCHASTIC thr4 (sample DT_F32) (sample_out dq)) r' -> r = UB /\ r' = UB.
Proof.
  intros Hq Hn HR HR'. assert (Hd : float_type DT_F32) by (left; reflexivity). destruct (sample_len _ Hd) as [_ HL]. split.
  - refine (C36_unusable_scale GENERIC nt 0 DT_F32 dq f_zero 2 thr4 (sample DT_F32) (sample_out dq) r (sample_buffers nt _ _ Hd Hq Hn) unusable_zero _ HR). exists 0. rewrite HL. split; [lia|].
    unfold vector_path. destruct (existsb _ _) eqn:E; auto. apply existsb_exists in E. destruct E as (t & _ & E). apply andb_prop in E. destruct E as [_ E].
    apply q_vec_has in E. destruct Hq as [->|[->| ->]]; discriminate.
  - refine (C36_unusable_scale_stochastic A nt 0 DT_F32 dq f_zero 2 thr4 (sample DT_F32) (sample_out dq) r' (sample_buffers nt _ _ Hd Hq Hn) unusable_zero _ HR'). rewrite HL. lia.
Qed.
Example C36_infinite_witness A nt dq rm r : quant_type dq -> few nt ->
  returns (sample DT_BF16) (sample_out dq) (quantize_call A nt 0 DT_BF16 dq (f32_of_bits 0x7f800000) 2 rm thr4 (sample DT_BF16) (sample_out dq)) r ->
  exists o, r = Ok o /\ forall i, i < 70 -> code_at dq o i = 2%Z.
Proof.
  intros Hq Hn HR. assert (Hd : float_type DT_BF16) by (right; reflexivity). destruct (sample_len _ Hd) as [_ HL].
  assert (HI : infinite (f32_of_bits 0x7f800000)) by (exists false; reflexivity).
  destruct (C36_infinite_scale A nt 0 DT_BF16 dq _ 2 rm thr4 (sample DT_BF16) (sample_out dq) r (sample_buffers nt _ _ Hd Hq Hn) HI nz2 (fun _ => quarter_threshold)) as (o & -> & _ & HC); auto.
  - rewrite HL. intros i Hi. apply sample_elem; auto.
  - exists o. split; auto. rewrite HL in HC. intros i Hi. rewrite HC by auto. destruct Hq as [->|[->| ->]]; reflexivity.
Qed.

(** ** Round trips: bf16 data to bf16 data through uint8, zero point 20; the representable range is [-10, 117.5] (200 is outside). *)
Lemma quant_sample20 A nt oaddr din rm : float_type din -> few nt ->
  exists p, returns (sample din) (sample_out DT_UINT8) (quantize_call A nt oaddr din DT_UINT8 f_half 20 rm thr4 (sample din) (sample_out DT_UINT8)) (Ok p).
Proof.
  intros Hd Hn. assert (Hq : quant_type DT_UINT8) by (right; right; reflexivity). destruct (sample_len _ Hd) as [_ HL].
  destruct (returns_total (sample din) (sample_out DT_UINT8) (quantize_call A nt oaddr din DT_UINT8 f_half 20 rm thr4 (sample din) (sample_out DT_UINT8))) as [r HR].
  destruct (quantize_near_rm A nt oaddr din DT_UINT8 f_half 20 rm thr4 _ _ r (sample_buffers nt _ _ Hd Hq Hn) half_good ltac:(lia) (fun _ => quarter_threshold)) as (o & -> & _); auto.
  - rewrite HL. intros i Hi. apply sample_quantizable; auto.
  - eauto.
Qed.
Example C16_all_types_witness A A2 nt oaddr din dout rm : float_type din -> float_type dout -> few nt ->
  exists p o, returns (sample din) (sample_out DT_UINT8) (quantize_call A nt oaddr din DT_UINT8 f_half 20 rm thr4 (sample din) (sample_out DT_UINT8)) (Ok p) /\
    returns (p ++ [0]%Z) (sample dout) (dequantize_call A2 nt oaddr DT_UINT8 dout f_half 20 RO_SET (length p) (sample dout)) (Ok o) /\
    forall i, i < 70 -> i mod 5 <> 3 -> (Rabs (val (elem_at dout o i) - sval i) <= 5 / 8)%R.
Proof.
  intros Hd Hdo Hn. destruct (quant_sample20 A nt oaddr din rm Hd Hn) as [p HQ]. assert (Hq : quant_type DT_UINT8) by (right; right; reflexivity).
  destruct (sample_len _ Hd) as [_ HL], (sample_len _ Hdo) as [_ HLo]. destruct half_ok as [Fh Vh].
  destruct (returns_total (p ++ [0]%Z) (sample dout) (dequantize_call A2 nt oaddr DT_UINT8 dout f_half 20 RO_SET (length p) (sample dout))) as [r HR].
  assert (HS : sizes_ok (length (sample dout)) (numel dout (length (sample dout))) nt) by (rewrite HLo; apply sample_sizes; auto).
  assert (HO : out_scale dout f_half) by (destruct Hdo as [->| ->]; [apply half_normal|apply half_bf16_scale]).
  assert (HX : Forall is_byte [0%Z]) by (repeat constructor; unfold is_byte; lia). assert (HN : [0%Z] <> []) by discriminate.
  assert (HE : numel din (length (sample din)) = numel dout (length (sample dout))) by (rewrite HL, HLo; reflexivity).
  assert (HP : (0 < val f_half)%R) by (rewrite Vh; lra). assert (HZ : (0 <= 20 <= code_max DT_UINT8)%Z) by (cbn; lia).
  assert (HI : forall i, i < numel dout (length (sample dout)) -> quantizable f_half (elem_at din (sample din) i)) by (rewrite HLo; intros; apply sample_quantizable; auto).
  destruct (C16_all_types A nt oaddr A2 nt oaddr din dout DT_UINT8 f_half 20 rm thr4 (sample din) (sample_out DT_UINT8) p [0%Z] (sample dout) r
    (sample_buffers nt _ _ Hd Hq Hn) Hdo HE HS (sample_bytes _) HO HP HZ (fun _ => quarter_threshold) HX HN HI HQ HR) as (o & -> & _ & B).
  exists p, o. split; auto. split; auto. intros i Hi Hm. rewrite HLo in B. specialize (B i Hi). cbv zeta in B.
  rewrite (proj2 (sample_elem din i Hd Hi)) in B. rewrite Vh in B. destruct B as [_ B].
  { change (code_max DT_UINT8) with 255%Z. unfold sval. replace (0 - 20)%Z with (-20)%Z by lia. replace (255 - 20)%Z with 235%Z by lia. revert Hm. clear. mod5 i; cbn [nth]; intros; try congruence; lra. }
  eapply Rle_trans; [exact B|]. change (bpow radix2 (-12)) with (/ 4096)%R.
  assert (S : (Rabs (sval i) <= 3)%R) by (apply Rabs_le; unfold sval; revert Hm; mod5 i; cbn [nth]; intros; try congruence; lra).
  destruct rm, Hdo as [->| ->]; lra.
Qed.
Example C14_bf16_witness A A' nt nt' oaddr : few nt -> few nt' -> avx512 A' = false ->
  exists p o, returns (sample DT_F32) (sample_out DT_UINT4) (quantize_call A nt oaddr DT_F32 DT_UINT4 f_half 2 RM_NEAREST thr4 (sample DT_F32) (sample_out DT_UINT4)) (Ok p) /\
    returns (p ++ [0]%Z) (sample DT_BF16) (dequantize_call A' nt' oaddr DT_UINT4 DT_BF16 f_one 0 RO_SET (length p) (sample DT_BF16)) (Ok o) /\
    forall i, i < 70 -> bf16_at o i = bf16_of_f32 (fmul (f32_of_Z (clamp 0 15 (skc i + 2) - 0)) f_one).
Proof.
  intros Hn Hn' Ha. assert (Hd : float_type DT_F32) by (left; reflexivity). assert (Hdo : float_type DT_BF16) by (right; reflexivity). assert (Hq : quant_type DT_UINT4) by (right; left; reflexivity).
  destruct (sample_len _ Hd) as [_ HL], (sample_len _ Hdo) as [_ HLo].
  destruct (quant_sample A nt oaddr DT_F32 DT_UINT4 RM_NEAREST Hd Hq Hn) as (p & HQ & _).
  destruct (returns_total (p ++ [0]%Z) (sample DT_BF16) (dequantize_call A' nt' oaddr DT_UINT4 DT_BF16 f_one 0 RO_SET (length p) (sample DT_BF16))) as [r HR].
  assert (HX : Forall is_byte [0%Z]) by (repeat constructor; unfold is_byte; lia). assert (HN : [0%Z] <> []) by discriminate.
  assert (HE : numel DT_BF16 (length (sample DT_BF16)) = numel DT_F32 (length (sample DT_F32))) by (rewrite HL, HLo; reflexivity).
  assert (HS : sizes_ok (length (sample DT_BF16)) (numel DT_BF16 (length (sample DT_BF16))) nt') by (rewrite HLo; apply sample_sizes; auto).
  destruct (C14_codes_round_trip_bf16 A A' nt nt' oaddr oaddr DT_F32 DT_UINT4 f_half f_one 2 0 RM_NEAREST thr4 (sample DT_F32) (sample_out DT_UINT4) p [0%Z] (sample DT_BF16) r
    (sample_buffers nt _ _ Hd Hq Hn) half_good (st4 RM_NEAREST) (fun _ => nz2)) as (o & -> & _ & _ & HC); auto using sample_bytes; try lia.
  - rewrite HL. intros i Hi. apply (sample_input A DT_F32 RM_NEAREST); auto using nz2.
  - exists p, o. split; auto. split; auto. intros i Hi. rewrite HLo in HC. rewrite HC by auto. cbn [expected_code]. rewrite sample_code by auto. reflexivity.
Qed.
Example C23_all_types_witness A A2 nt din dout dq scale zp rm p o : float_type din -> float_type dout -> quant_type dq -> few nt ->
  compute_quant_config_from_data AVX2 din dq (sample din) cut3 = Ok (scale, zp) ->
  returns (sample din) (sample_out dq) (quantize_call A nt 0 din dq scale zp rm thr4 (sample din) (sample_out dq)) (Ok p) ->
  returns (p ++ [0]%Z) (sample dout) (dequantize_call A2 nt 0 dq dout scale zp RO_SET (length p) (sample dout)) (Ok o) ->
  forall i, i < 70 -> (Rabs (val (elem_at dout o i) - sval i) <= val scale * (1 + bpow radix2 (-11)) + / 256 * (200 + 2 * val scale))%R.
Proof.
  intros Hd Hdo Hq Hn HC HQ HD i Hi. destruct (sample_len _ Hd) as [_ HL], (sample_len _ Hdo) as [_ HLo].
  assert (HA : AVX2 <> SSE42) by discriminate. assert (HN : [0%Z] <> []) by discriminate.
  assert (H0 : (-3 <= 0 <= 200)%R) by lra.
  assert (HB : (bpow radix2 (-112) <= 200 - -3 <= bpow radix2 100)%R).
  { split.
    - apply Rle_trans with (bpow radix2 0); [apply bpow_le; lia|cbn; lra].
    - apply Rle_trans with (bpow radix2 10); [change (bpow radix2 10) with 1024%R; lra|apply bpow_le; lia]. }
  assert (Hx : Forall is_byte [0%Z]) by (repeat constructor; unfold is_byte; lia).
  pose proof (sample_finite _ Hd) as HF. pose proof (sample_range _ Hd) as HRg. pose proof (sample_sizes _ nt Hdo Hn) as HS. pose proof cut3_ok as HK.
  rewrite <- HLo in HF, HRg, HS, HK.
  assert (HE : numel din (length (sample din)) = numel dout (length (sample dout))) by (rewrite HL, HLo; reflexivity).
  destruct (C23_all_types AVX2 cut3 A nt 0 A2 nt 0 din dout dq scale zp rm thr4 (sample din) (sample_out dq) p [0%Z] (sample dout) (Ok o) (-3) 200
    HA HF HK HRg H0 HB HC (sample_buffers nt _ _ Hd Hq Hn) Hdo HE HS (sample_bytes _) (fun _ => quarter_threshold) Hx HN HQ HD) as (o' & E & _ & B).
  injection E as <-. rewrite HLo in B. specialize (B i Hi). cbv zeta in B. rewrite (proj2 (sample_elem din i Hd Hi)) in B. destruct B as [_ B].
  assert (HSp : (0 <= val scale)%R).
  { destruct (C21_witness AVX2 din dq HA Hd Hq) as (s & E & F & V & _). rewrite HC in E. injection E as <- _. rewrite V.
    assert (I1 : in32 (-3)). { pose proof (in32_val (elem_at din (sample din) 2)) as I. rewrite (proj2 (sample_elem din 2 Hd ltac:(lia))) in I. apply I, sample_elem; auto; lia. }
    assert (I2 : in32 200). { pose proof (in32_val (elem_at din (sample din) 3)) as I. rewrite (proj2 (sample_elem din 3 Hd ltac:(lia))) in I. apply I, sample_elem; auto; lia. }
    assert (HB' : (bpow radix2 (-118) <= 200 - -3 <= bpow radix2 100)%R) by (split; [apply Rle_trans with (bpow radix2 (-112)); [apply bpow_le; lia|apply HB]|apply HB]).
    destruct (config_scale_rel dq (-3) 200 Hq I1 I2 HB') as (_ & _ & _ & B1 & _). pose proof (bpow_gt_0 radix2 (-126)). lra. }
  eapply Rle_trans; [exact B|]. change (bpow radix2 (-11)) with (/ 2048)%R. destruct (sample_abs i) as [S _]. rewrite Rabs_mult, (Rabs_pos_eq 2) in S by lra.
  destruct rm, Hdo as [->| ->]; lra.
Qed.
