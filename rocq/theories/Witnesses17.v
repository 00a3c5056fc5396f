(** Witnesses17.v -- concrete instances of further theorems: the hypotheses of each are met by the 70-element sample data of Witnesses.v. *)
From Coq Require Import ZArith List Lia Bool Arith ZifyBool ZifyNat Reals Lra.
From Flocq Require Import Core Binary Bits.
From Verif Require Import Base Floats Dtypes Spec ApiSpec ConfigSpec Context Api FloatFacts FloatFacts2 PropsQuantize PropsDequantize PropsMemory PropsRoundTrip RoundTripFacts
  PathSpec PropsPaths PropsIdempotent PropsStochastic PropsZeroPoint MinMax ConfigFacts PropsConfig PropsRepresent PropsBadScale PropsBf16 PropsBf16Zero PropsDequantBf16 PropsContract PropsChunks
  PropsOrder DequantKernels Bf16Spec PropsRoundTripTypes PropsReadme Capi PropsCapi PropsAccumulate WeakMem PropsWeak Witnesses Witnesses2 Witnesses10.
Import ListNotations.

Definition f32t : float_type DT_F32 := or_introl eq_refl.
Definition bf16t : float_type DT_BF16 := or_intror eq_refl.
Definition u2t : quant_type DT_UINT2 := or_introl eq_refl.
Definition u4t : quant_type DT_UINT4 := or_intror (or_introl eq_refl).
Definition u8t : quant_type DT_UINT8 := or_intror (or_intror eq_refl).
Lemma sample_n d : float_type d -> numel d (length (sample d)) = 70.
Proof. apply sample_len. Qed.
Lemma sample_sz d nt : float_type d -> few nt -> sizes_ok (length (sample d)) (numel d (length (sample d))) nt.
Proof. intros H Hn. rewrite sample_n by auto. apply sample_sizes; auto. Qed.
Lemma zero_byte : Forall is_byte [0%Z].
Proof. constructor; [unfold is_byte; lia|constructor]. Qed.

(** C05: the jobs of dequantize and of the fused call exist and share no output byte. *)
Example C05_dequantize_witness A nt oaddr scale zp op : few nt -> exists jobs,
  dequantize A nt oaddr 35 DT_UINT4 280 DT_F32 scale zp op = Ok jobs /\ length jobs = nt /\ no_shared_output jobs.
Proof.
  intros Hn. destruct (C27_dequantize_never_aborts A nt oaddr DT_UINT4 DT_F32 70 scale zp op u4t f32t (sample_sizes DT_F32 nt f32t Hn)) as [(jobs & E) _].
  assert (B : (Z.of_nat (70 * stride DT_F32) < 2 ^ 64)%Z) by reflexivity. rewrite (C27_dequantize A nt oaddr DT_UINT4 DT_F32 70 scale zp op u4t f32t B) in E.
  exists jobs. split; [exact E|].
  exact (C05_dequantize_no_shared_output A nt oaddr DT_UINT4 DT_F32 scale zp op 35 280 jobs u4t f32t eq_refl (sample_sizes DT_F32 nt f32t Hn) E).
Qed.

(** C08: accumulating 70 uint8 codes into a bf16 buffer. *)
Example C08_bf16_witness A nt oaddr r : few nt ->
  returns (packed DT_UINT8) (sample DT_BF16) (dequantize_call A nt oaddr DT_UINT8 DT_BF16 f_half 3 RO_ADD 70 (sample DT_BF16)) r ->
  exists o, r = Ok o /\ (bf16_vector_path A DT_UINT8 70 nt 69 = false ->
    bf16_at o 69 = bf16_add (bf16_at (sample DT_BF16) 69) (bf16_of_f32 (bf16_source DT_UINT8 false f_half 3 (code_at DT_UINT8 (packed DT_UINT8) 69)))).
Proof.
  intros Hn HR. destruct (C08_dequantize_add_bf16 A nt oaddr DT_UINT8 f_half 3 (packed DT_UINT8) 70 (sample DT_BF16) r (sample_dq nt DT_UINT8 DT_BF16 bf16t u8t Hn) ltac:(lia) (sample_bytes DT_BF16) HR)
    as (o & -> & _ & V & _). exists o. split; auto. intros E. specialize (V 69). rewrite sample_n in V by apply bf16t. specialize (V ltac:(lia)). cbv zeta in V. rewrite E in V. exact V.
Qed.

(** C12: with zero point 2 and scale 1/2, the value 200 saturates at the largest code and -3 at 0; 3/4 becomes 4. *)
Example C12_witness A nt oaddr r : few nt ->
  returns (sample DT_BF16) (sample_out DT_UINT4) (quantize_call A nt oaddr DT_BF16 DT_UINT4 f_half 2 RM_NEAREST thr4 (sample DT_BF16) (sample_out DT_UINT4)) r ->
  exists o, r = Ok o /\ code_at DT_UINT4 o 68 = 15%Z /\ code_at DT_UINT4 o 67 = 0%Z /\ code_at DT_UINT4 o 69 = 4%Z.
Proof.
  intros Hn HR. destruct (C12_saturation A nt oaddr DT_BF16 DT_UINT4 f_half 2 thr4 _ _ r (sample_buffers nt DT_BF16 DT_UINT4 bf16t u4t Hn) half_good nz2) as (o & -> & HC); auto.
  { rewrite sample_n by apply bf16t. intros. apply sample_nearest; auto using bf16t. }
  rewrite sample_n in HC by apply bf16t.
  assert (E : forall i, i < 70 -> round_half_away (scaled (val f_half) (val (elem_at DT_BF16 (sample DT_BF16) i))) = skc i).
  { intros i Hi. rewrite sample_scaled by auto using bf16t. apply sample_round. }
  exists o. split; auto. repeat split.
  - destruct (HC 68 ltac:(lia)) as (_ & _ & T & _). rewrite E in T by lia. apply T. vm_compute. discriminate.
  - destruct (HC 67 ltac:(lia)) as (_ & T & _). rewrite E in T by lia. apply T. vm_compute. discriminate.
  - destruct (HC 69 ltac:(lia)) as (_ & _ & _ & T). rewrite E in T by lia. rewrite T; [reflexivity|]. change (skc 69) with 2%Z. change (code_max DT_UINT4) with 15%Z. lia.
Qed.

(** C16: the bound for every path, on the element 3/4. *)
Example C16_every_path_witness A A' nt oaddr p o : few nt ->
  returns (sample DT_F32) (sample_out DT_UINT4) (quantize_call A nt oaddr DT_F32 DT_UINT4 f_half 2 RM_NEAREST thr4 (sample DT_F32) (sample_out DT_UINT4)) (Ok p) ->
  returns (p ++ [0]%Z) (sample DT_F32) (dequantize_call A' nt oaddr DT_UINT4 DT_F32 f_half 2 RO_SET (length p) (sample DT_F32)) (Ok o) ->
  (Rabs (val (f32_at o 69) - 3 / 4) <= / 2 * (/ 2 + bpow radix2 (-13)))%R /\
  (Rabs (val (f32_at o 69) - 3 / 4) <= / 2 * (/ 2 + bpow radix2 (-21) * 3))%R.
Proof.
  intros Hn HQ HD. destruct half_ok as [_ Vh]. destruct (sample_elem DT_F32 69 f32t ltac:(lia)) as [_ V]. change (sval 69) with (3 / 4)%R in V. cbn [elem_at] in V.
  split.
  - destruct (C16_every_path A nt oaddr A' nt oaddr DT_UINT4 f_half 2 thr4 (sample DT_F32) (sample_out DT_UINT4) p [0%Z] (sample DT_F32) (Ok o)) as (o' & E & _ & HC);
      auto using sample_buffers, f32t, u4t, half_normal, sample_sz, zero_byte; try (rewrite Vh; lra); try discriminate.
    + change (code_max DT_UINT4) with 15%Z. lia.
    + intros i Hi. rewrite sample_n in Hi by apply f32t. apply (sample_elem DT_F32 i f32t Hi).
    + intros i Hi. rewrite sample_n in Hi by apply f32t. change (f32_at (sample DT_F32) i) with (elem_at DT_F32 (sample DT_F32) i). rewrite sample_scaled by auto using f32t.
      eapply Rle_lt_trans; [apply sample_abs|]. change (bpow radix2 30) with (IZR (2 ^ 30)). apply IZR_lt. lia.
    + injection E as <-. rewrite sample_n in HC by apply f32t. specialize (HC 69 ltac:(lia)). cbv zeta in HC. rewrite V, Vh in HC. apply HC.
      change (code_max DT_UINT4 - 2)%Z with 13%Z. change (0 - 2)%Z with (-2)%Z. lra.
  - destruct (C16_round_trip_error A nt oaddr A' nt oaddr DT_UINT4 f_half 2 thr4 (sample DT_F32) (sample_out DT_UINT4) p [0%Z] (sample DT_F32) (Ok o)) as (o' & E & HC);
      auto using sample_buffers, f32t, u4t, half_normal, sample_sz, zero_byte; try lia; try discriminate.
    + intros i Hi. rewrite sample_n in Hi by apply f32t. apply (sample_nearest A DT_F32); auto using f32t.
    + injection E as <-. rewrite sample_n in HC by apply f32t. specialize (HC 69 ltac:(lia)). cbv zeta in HC.
      change (f32_at (sample DT_F32) 69) with (elem_at DT_F32 (sample DT_F32) 69) in HC. rewrite sample_scaled, sample_round in HC by (auto using f32t; lia).
      change (skc 69) with 2%Z in HC. change (elem_at DT_F32 (sample DT_F32) 69) with (f32_at (sample DT_F32) 69) in HC. rewrite V, Vh in HC.
      change (code_max DT_UINT4) with 15%Z in HC. specialize (HC ltac:(lia)). rewrite (Rabs_pos_eq (/ 2)), (Rabs_pos_eq 2) in HC by lra.
      replace (2 + 1)%R with 3%R in HC by lra. exact HC.
Qed.

(** C20: the SSE4.2 scan of the sample. *)
Example C20_sse42_witness d : float_type d -> exists mn mx, find_min_max SSE42 d (sample d) 70 = Ok (mn, mx) /\ finite mn /\ finite mx.
Proof. intros H. destruct (C20_sse42_scans_subset d (sample d) 70 H (sample_finite d H) ltac:(lia)) as (mn & mx & E & F & G & _). eauto. Qed.
Example C21_sane_witness a d dq : float_type d -> quant_type dq ->
  exists s z, compute_quant_config_from_data a d dq (sample d) cut3 = Ok (s, z) /\ finite s /\ (0 <= val s)%R /\ (0 <= z <= code_max dq)%Z.
Proof. intros Hd Hq. exact (C21_sane_parameters a d dq (sample d) 70 cut3 Hd Hq (sample_finite d Hd) ltac:(lia) cut3_ok). Qed.

(** C28: what the fused call stores for the clipped element 200 and for the bf16 sample. *)
Example C28_fused_f32_witness A nt oaddr r : few nt ->
  returns (sample DT_F32) (sample DT_F32) (fused_call A nt oaddr DT_F32 DT_UINT4 f_half 2 RM_NEAREST RO_ADD thr4 (sample DT_F32) (sample DT_F32)) r ->
  exists o, r = Ok o /\ slice (4 * 68) 4 o = le_bytes 4 (bits_of_f32 (fadd (f32_at (sample DT_F32) 68) (fmul (f32_of_Z 13) f_half))).
Proof.
  intros Hn HR. destruct (C28_fused_f32 A nt oaddr DT_UINT4 f_half 2 RM_NEAREST RO_ADD thr4 (sample DT_F32) (sample DT_F32) r) as (o & -> & _ & V & _);
    auto using u4t, sample_sz, f32t, half_good; try lia; try discriminate.
  - intros i Hi. rewrite sample_n in Hi by apply f32t. apply (sample_quantizable DT_F32); auto using f32t.
  - exists o. split; auto. rewrite sample_n in V by apply f32t. specialize (V 68 ltac:(lia)). cbv zeta in V. rewrite V. cbn [expected_code].
    change (f32_at (sample DT_F32) 68) with (elem_at DT_F32 (sample DT_F32) 68). rewrite sample_code by (auto using f32t; lia). reflexivity.
Qed.
Example C28_fused_bf16_witness A nt oaddr r : few nt ->
  returns (sample DT_BF16) (sample DT_BF16) (fused_call A nt oaddr DT_BF16 DT_UINT4 f_half 2 RM_NEAREST RO_SET thr4 (sample DT_BF16) (sample DT_BF16)) r ->
  exists o, r = Ok o /\ bf16_at o 68 = bf16_mul (bf16_of_f32 (f32_of_Z 13)) (bf16_of_f32 f_half).
Proof.
  intros Hn HR. destruct (C28_fused_bf16 A nt oaddr DT_UINT4 f_half 2 RM_NEAREST RO_SET thr4 (sample DT_BF16) (sample DT_BF16) r) as (o & -> & _ & V & _);
    auto using u4t, sample_sz, bf16t, half_good; try lia; try discriminate.
  - intros i Hi. rewrite sample_n in Hi by apply bf16t. apply (sample_quantizable DT_BF16); auto using bf16t.
  - exists o. split; auto. rewrite sample_n in V by apply bf16t. specialize (V 68 ltac:(lia)). cbv zeta in V. rewrite V. cbn [expected_code].
    rewrite sample_code by (auto using bf16t; lia). reflexivity.
Qed.

(** C30: thresholds 1/4 and 1/2 on the sample; 5/4 scales to 5/2. *)
Lemma half_threshold : threshold f_half.
Proof. destruct half_ok as [F V]. unfold threshold. rewrite V. split; auto. lra. Qed.
Example C30_monotone_witness A A' nt nt' oaddr oaddr' o o' : few nt -> few nt' ->
  returns (sample DT_F32) (sample_out DT_UINT8) (quantize_call A nt oaddr DT_F32 DT_UINT8 f_half 9 RM_STOCHASTIC thr4 (sample DT_F32) (sample_out DT_UINT8)) (Ok o) ->
  returns (sample DT_F32) (sample_out DT_UINT8) (quantize_call A' nt' oaddr' DT_F32 DT_UINT8 f_half 9 RM_STOCHASTIC f_half (sample DT_F32) (sample_out DT_UINT8)) (Ok o') ->
  (code_at DT_UINT8 o' 66 <= code_at DT_UINT8 o 66)%Z.
Proof.
  intros Hn Hn' H H'.
  pose proof (C30_threshold_monotone A nt oaddr A' nt' oaddr' DT_F32 DT_UINT8 f_half thr4 f_half (sample DT_F32) (sample_out DT_UINT8) (sample_out DT_UINT8) o o'
    (sample_buffers nt DT_F32 DT_UINT8 f32t u8t Hn) (sample_buffers nt' DT_F32 DT_UINT8 f32t u8t Hn') half_good quarter_threshold half_threshold) as T.
  assert (L : (val thr4 <= val f_half)%R). { destruct half_ok as [_ ->]. assert (E : val thr4 = (/ 4)%R) by (unfold val, f32_of_bits, b32_of_bits, binary_float_of_bits; cbn; unfold F2R; cbn; lra). rewrite E. lra. }
  specialize (T L). rewrite sample_n in T by apply f32t. specialize (T (fun i Hi => sample_quantizable DT_F32 i f32t Hi) 9%Z ltac:(lia) H H' 66 ltac:(lia)). cbv zeta in T.
  apply T. rewrite sample_scaled by (auto using f32t; lia). change (sval 66) with (5 / 4)%R. lra.
Qed.

(** C34: zero points beyond 32 bits. *)
Example C34_all_bits_witness A nt oaddr r : few nt ->
  returns (sample DT_F32) (sample_out DT_UINT2) (quantize_call A nt oaddr DT_F32 DT_UINT2 f_half (2 ^ 32 + 2) RM_NEAREST thr4 (sample DT_F32) (sample_out DT_UINT2)) r ->
  exists o, r = Ok o /\ forall i, i < 70 -> code_at DT_UINT2 o i = 3%Z.
Proof.
  intros Hn HR. destruct (C34_f32_uint2_uses_all_bits A nt oaddr f_half (2 ^ 32 + 2) thr4 _ _ r (sample_buffers nt DT_F32 DT_UINT2 f32t u2t Hn) half_good ltac:(lia)) as (o & -> & V); auto.
  { rewrite sample_n by apply f32t. intros. apply (sample_quantizable DT_F32); auto using f32t. }
  exists o. split; auto. intros i Hi. rewrite sample_n in V by apply f32t. rewrite V by auto. change (f32_at (sample DT_F32) i) with (elem_at DT_F32 (sample DT_F32) i).
  rewrite sample_code by auto using f32t. change (code_max DT_UINT2) with 3%Z. unfold clamp. assert (B : (-6 <= skc i <= 400)%Z).
  { unfold skc. assert (M : i mod 5 < 5) by (apply Nat.mod_upper_bound; lia). destruct (i mod 5) as [|[|[|[|[|k]]]]]; cbn; lia. }
  lia.
Qed.
Example C34_dequantize_all_bits_witness A nt oaddr r : few nt ->
  returns (packed DT_UINT2) (sample DT_F32) (dequantize_call A nt oaddr DT_UINT2 DT_F32 f_half (2 ^ 40) RO_SET 18 (sample DT_F32)) r ->
  exists o, r = Ok o /\ forall i, i < 70 -> f32_at o i = fmul (f32_of_Z (code_at DT_UINT2 (packed DT_UINT2) i - 2 ^ 40)) f_half.
Proof.
  intros Hn HR. destruct (C34_uint2_f32_uses_all_bits A nt oaddr f_half (2 ^ 40) (packed DT_UINT2) 18 (sample DT_F32) r (sample_dq nt DT_UINT2 DT_F32 f32t u2t Hn) ltac:(lia) HR) as (o & -> & V).
  exists o. split; auto.
Qed.

(** C36: a scale of zero makes the fused call undefined. *)
Example C36_fused_unusable_witness A nt oaddr dq rm op r : quant_type dq -> few nt ->
  returns (sample DT_BF16) (sample DT_BF16) (fused_call A nt oaddr DT_BF16 dq f_zero 1 rm op thr4 (sample DT_BF16) (sample DT_BF16)) r -> r = UB.
Proof.
  intros Hq Hn. apply C36_unusable_scale_fused; auto using bf16t, sample_sz, unusable_zero. rewrite sample_n by apply bf16t. lia.
Qed.

(** C37: 1.5 + (-0.0078125), 3 / 5. *)
Example C37_witness : rounds_once (bf16_add 0x3fc0%Z 0xbc00%Z) (3 / 2 + -1 / 128)%R /\ rounds_once (bf16_div 0x4040%Z 0x40a0%Z) (3 / 5)%R.
Proof.
  assert (V : val (bf16_to_f32 0x3fc0%Z) = (3 / 2)%R /\ val (bf16_to_f32 0xbc00%Z) = (-1 / 128)%R /\ val (bf16_to_f32 0x4040%Z) = 3%R /\ val (bf16_to_f32 0x40a0%Z) = 5%R).
  { repeat split; unfold val, bf16_to_f32, f32_of_bits, b32_of_bits, binary_float_of_bits; cbn; unfold F2R; cbn; lra. }
  destruct V as (V1 & V2 & V3 & V4). split.
  - rewrite <- V1, <- V2. apply C37_add; try lia; reflexivity.
  - rewrite <- V3, <- V4. apply C37_div; try lia; try reflexivity. rewrite V4. lra.
Qed.

(** C47: 70 uint4 codes dequantized in one call and in two (40 and 30 elements). *)
Example C47_dequantize_witness A Aa Ab nt nta ntb oaddr oaddra oaddrb op ra rb r : few nt -> few nta -> few ntb ->
  let qa := firstn 20 (packed DT_UINT4) in let qb := firstn 15 (skipn 20 (packed DT_UINT4)) in let extra := skipn 35 (packed DT_UINT4) in
  let oa := firstn 160 (sample DT_F32) in let ob := skipn 160 (sample DT_F32) in
  returns (qa ++ qb ++ extra) oa (dequantize_call Aa nta oaddra DT_UINT4 DT_F32 f_half 3 op 20 oa) ra ->
  returns (qb ++ extra) ob (dequantize_call Ab ntb oaddrb DT_UINT4 DT_F32 f_half 3 op 15 ob) rb ->
  returns (packed DT_UINT4) (sample DT_F32) (dequantize_call A nt oaddr DT_UINT4 DT_F32 f_half 3 op 35 (sample DT_F32)) r ->
  exists xa xb, ra = Ok xa /\ rb = Ok xb /\ r = Ok (xa ++ xb).
Proof.
  intros Hn Hna Hnb qa qb extra oa ob Ha Hb HR.
  assert (Eq : qa ++ qb ++ extra = packed DT_UINT4) by (vm_compute; reflexivity). assert (Eo : oa ++ ob = sample DT_F32) by (apply firstn_skipn).
  assert (La : length oa = 160) by (vm_compute; reflexivity). assert (Lb : length ob = 120) by (vm_compute; reflexivity).
  assert (Lqa : length qa = 20) by (vm_compute; reflexivity). assert (Lqb : length qb = 15) by (vm_compute; reflexivity).
  assert (Lx : length extra = 1) by (vm_compute; reflexivity).
  assert (Bp : Forall is_byte (qb ++ extra)). { pose proof (packed_bytes DT_UINT4) as B. rewrite <- Eq in B. apply Forall_app in B. apply B. }
  destruct (C47_dequantize_chunks_f32 A Aa Ab nt nta ntb oaddr oaddra oaddrb DT_UINT4 f_half 3 op qa qb extra oa ob 40 ra rb r) as (xa & xb & -> & -> & -> & _).
  - rewrite La. reflexivity.
  - exists 30. rewrite Lb. reflexivity.
  - reflexivity.
  - unfold dq_buffers. rewrite La, Lqa, !app_length, Lqa, Lqb, Lx. change (numel DT_F32 160) with 40. change (bytes_for DT_UINT4 40) with 20.
    split; [apply u4t|]. split; [apply f32t|]. split; [rewrite Eq; apply packed_bytes|]. split; [reflexivity|]. split; [lia|]. split; [unfold sizes_ok, few in *; lia|]. discriminate.
  - unfold dq_buffers. rewrite Lb, Lqb, app_length, Lqb, Lx. change (numel DT_F32 120) with 30. change (bytes_for DT_UINT4 30) with 15.
    split; [apply u4t|]. split; [apply f32t|]. split; [exact Bp|]. split; [reflexivity|]. split; [lia|]. split; [unfold sizes_ok, few in *; lia|]. discriminate.
  - rewrite Eo. apply sample_sz; auto using f32t.
  - lia.
  - intros _. apply half_ok.
  - intros E. rewrite E in Lx. discriminate.
  - rewrite Lqa. exact Ha.
  - rewrite Lqb. exact Hb.
  - rewrite Eq, Eo, app_length, Lqa, Lqb. exact HR.
  - eauto.
Qed.

(** C51: the caller sees the codes; no streaming stores for uint4. *)
Example C51_codes_witness A nt oaddr m : few nt ->
  call_returns (streams A DT_F32 DT_UINT8 RM_NEAREST) Draining (sample DT_F32) (sample_out DT_UINT8)
    (quantize_call A nt oaddr DT_F32 DT_UINT8 f_half 2 RM_NEAREST thr4 (sample DT_F32) (sample_out DT_UINT8)) m ->
  length m = 70 /\ code_at DT_UINT8 m 69 = 4%Z.
Proof.
  intros Hn HR. destruct (C51_caller_finds_codes A nt oaddr DT_F32 DT_UINT8 f_half 2 thr4 _ _ m (sample_buffers nt DT_F32 DT_UINT8 f32t u8t Hn) half_good nz2) as (L & V); auto.
  { rewrite sample_n by apply f32t. intros. apply (sample_nearest A DT_F32); auto using f32t. }
  split; [rewrite L; apply repeat_length|]. rewrite sample_n in V by apply f32t. rewrite V by lia.
  change (RN32 (val (elem_at DT_F32 (sample DT_F32) 69) * RN32 (1 / val f_half))) with (scaled (val f_half) (val (elem_at DT_F32 (sample DT_F32) 69))).
  rewrite sample_scaled, sample_round by (auto using f32t; lia). reflexivity.
Qed.
Example C51_unstreamed_witness A nt oaddr o sg m : few nt ->
  returns (sample DT_F32) (sample_out DT_UINT4) (quantize_call A nt oaddr DT_F32 DT_UINT4 f_half 2 RM_NEAREST thr4 (sample DT_F32) (sample_out DT_UINT4)) (Ok o) ->
  call_returns (streams A DT_F32 DT_UINT4 RM_NEAREST) sg (sample DT_F32) (sample_out DT_UINT4)
    (quantize_call A nt oaddr DT_F32 DT_UINT4 f_half 2 RM_NEAREST thr4 (sample DT_F32) (sample_out DT_UINT4)) m -> m = o.
Proof.
  intros Hn HR. apply (C51_plain_unstreamed A nt oaddr DT_F32 DT_UINT4 f_half 2 RM_NEAREST thr4 280 35 (sample DT_F32) (sample_out DT_UINT4) o f32t u4t eq_refl (sample_sizes DT_F32 nt f32t Hn));
    [left; discriminate|exact HR].
Qed.

(** C52: the sample against the half-even reference. *)
Example C52_half_even_witness A nt oaddr r : few nt ->
  returns (sample DT_F32) (sample_out DT_UINT8) (quantize_call A nt oaddr DT_F32 DT_UINT8 f_half 20 RM_NEAREST thr4 (sample DT_F32) (sample_out DT_UINT8)) r ->
  exists o, r = Ok o /\ forall i, i < 70 ->
    (Z.abs (code_at DT_UINT8 o i - clamp 0 255 (half_even (RN32 (val (elem_at DT_F32 (sample DT_F32) i) * RN32 (1 / val f_half))) + 20)) <= 1)%Z.
Proof.
  intros Hn HR. destruct (C52_half_even_reference A nt oaddr DT_F32 DT_UINT8 f_half 20 thr4 _ _ r (sample_buffers nt DT_F32 DT_UINT8 f32t u8t Hn) half_good ltac:(lia)) as (o & -> & _ & V); auto.
  { rewrite sample_n by apply f32t. intros. apply (sample_nearest A DT_F32); auto using f32t. }
  exists o. split; auto. intros i Hi. rewrite sample_n in V by apply f32t. exact (proj2 (V i Hi)).
Qed.

(** C55: three buffers accumulated into the sample. *)
Example C55_error_witness nt r : 1 <= nt <= 900 -> chain add_step (three nt) (sample DT_F32) r ->
  exists o, r = Ok o /\ forall i, i < 68 ->
    let mass := (Rabs (val (f32_at (sample DT_F32) i)) + rsum (fun c => Rabs (c_exact c i)) (three nt))%R in
    (mass * (1 + u_f32) ^ 4 <= bpow radix2 127)%R ->
    (Rabs (val (f32_at o i) - (val (f32_at (sample DT_F32) i) + rsum (fun c => c_exact c i) (three nt))) <= ((1 + u_f32) ^ 4 - 1) * mass)%R.
Proof.
  intros Hn HC. destruct (C55_accumulated_error (three nt) (sample DT_F32) r (three_ok nt Hn)) as (o & -> & _ & V); auto.
  { unfold three. constructor; [|constructor; [|constructor; [|constructor]]]; (split; [exact half_normal|vm_compute; discriminate]). }
  exists o. split; auto. rewrite sample_n in V by apply f32t. intros i Hi mass HM. refine (proj2 (V i _ _ HM)).
  - split; [lia|]. left. change (4 * (70 / 4)) with 68. lia.
  - apply (sample_elem DT_F32 i f32t). lia.
Qed.
