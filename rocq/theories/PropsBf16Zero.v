(** PropsBf16Zero.v -- C13, C08, C15, C28 for bf16 outputs: zero, path dependence, the fused call. *)
From Coq Require Import ZArith List Lia Bool Arith ZifyBool ZifyNat Permutation Reals Lra.
From Flocq Require Import Core Relative Binary Bits.
From Verif Require Import Base Floats Simd Dtypes Spec ApiSpec QuantKernels DequantKernels ExecFacts FloatFacts QuantFacts QuantKernelFacts
  QuantGenericFacts DequantFacts DequantGenericFacts QuantLanes Context ContextFacts Footprint QuantizeFacts DequantizeFacts Api PropsQuantize Schedule
  PropsMemory FloatFacts2 PropsDequantize PropsRoundTrip Bf16Spec Bf16Facts RoundTripFacts PropsIdempotent PropsBf16 FloatFacts3 PropsDequantBf16.
Import ListNotations.

Ltac Zify.zify_post_hook ::= Z.div_mod_to_equations.

(** ** C13: a code equal to the zero point dequantizes to +0, except on the AVX-512 uint4 / uint2 path. *)
Theorem C13_zero_point_dequantizes_to_zero_bf16 A nt oaddr din scale zp inm in_size outm r :
  dq_buffers nt din DT_BF16 inm in_size outm -> (Z.abs zp <= 2 ^ 22)%Z -> Forall is_byte outm -> finite scale -> (0 < val scale)%R ->
  avx512 A = false \/ din = DT_UINT8 ->
  returns inm outm (dequantize_call A nt oaddr din DT_BF16 scale zp RO_SET in_size outm) r ->
  exists o, r = Ok o /\ forall i, i < numel DT_BF16 (length outm) -> code_at din inm i = zp -> bf16_at o i = 0%Z.
Proof.
  intros HB Hz Hob Hf Hp Hor HR. destruct (dequantize_bf16 _ _ _ _ _ _ _ _ _ _ _ HB Hz Hob HR) as (o & -> & _ & _ & HE & _). exists o. split; auto.
  intros i Hi Hc. rewrite HE, Hc by auto.
  assert (Hs : Bsign 24 128 scale = false).
  { unfold finite, val in *. destruct scale as [s|s|s pl Hpl|s m e Hb]; try discriminate; cbn in *; [lra|]. destruct s; auto. exfalso.
    revert Hp. apply Rle_not_lt. apply Rlt_le, F2R_lt_0. cbn. lia. }
  assert (D := dequant_zero scale zp Hf Hs). unfold bf16_result.
  assert (S : bf16_source din (bf16_vector_path A din (numel DT_BF16 (length outm)) nt i) scale zp zp = f_zero).
  { unfold bf16_source. destruct Hor as [Ha|Hu]; [|subst din; exact D]. unfold bf16_vector_path. rewrite Ha. cbn [andb]. destruct din; exact D. }
  rewrite S. unfold bf16_convert. destruct (bf16_vector_path _ _ _ _ _); [destruct A|]; vm_compute; reflexivity.
Qed.

(** 128 uint4 codes equal to the zero point 3, scale 0.1f: on AVX-512 every stored element is about -7.5e-9 instead of 0
    (the bias 3 * 0.1f is rounded before the fused multiply-add). *)
Definition threes : mem := repeat 0x33%Z 64.
Definition tenth : f32 := f32_of_bits 0x3dcccccd.
Lemma repeat_bytes b n : is_byte b -> Forall is_byte (repeat b n).
Proof. intros H. induction n; cbn; auto. Qed.
Theorem C13_bf16_avx512_refuted A oaddr outm r : avx512 A = true -> length outm = 256 -> Forall is_byte outm ->
  returns threes outm (dequantize_call A 1 oaddr DT_UINT4 DT_BF16 tenth 3 RO_SET 64 outm) r ->
  exists o, r = Ok o /\ forall i, i < 128 -> code_at DT_UINT4 threes i = 3%Z /\ bf16_at o i = 0xb200%Z.
Proof.
  intros HA HL Hob HR.
  assert (HB : dq_buffers 1 DT_UINT4 DT_BF16 threes 64 outm).
  { unfold dq_buffers. rewrite HL. change (numel DT_BF16 256) with 128. repeat split; try (right; left; reflexivity); try (left; reflexivity);
      try (right; reflexivity); try (unfold sizes_ok; lia); try discriminate; try (cbn; lia); try reflexivity. apply repeat_bytes. unfold is_byte. lia. }
  assert (Hz : (Z.abs 3 <= 2 ^ 22)%Z) by lia.
  destruct (dequantize_bf16 _ _ _ _ _ _ _ _ _ _ _ HB Hz Hob HR) as (o & -> & _ & _ & HE & _). exists o. split; auto.
  rewrite HL in HE. change (numel DT_BF16 256) with 128 in HE. intros i Hi.
  assert (C : code_at DT_UINT4 threes i = 3%Z).
  { assert (H : forallb (fun i => (code_at DT_UINT4 threes i =? 3)%Z) (seq 0 128) = true) by (vm_compute; reflexivity).
    rewrite forallb_forall in H. apply Z.eqb_eq, H, in_seq. lia. }
  split; auto. rewrite HE, C by auto.
  assert (V : bf16_vector_path A DT_UINT4 128 1 i = true).
  { unfold bf16_vector_path. rewrite HA. cbn [andb].
    assert (H : forallb (fun i => existsb (fun t => let lo := part_bound (codes_per_byte DT_UINT4) 128 1 t in let hi := part_bound (codes_per_byte DT_UINT4) 128 1 (S t) in
      (lo <=? i) && (i <? hi) && (i - lo <? bf16_block DT_UINT4 * ((hi - lo) / bf16_block DT_UINT4))) (seq 0 1)) (seq 0 128) = true) by (vm_compute; reflexivity).
    rewrite forallb_forall in H. apply H, in_seq. lia. }
  rewrite V. destruct A; try discriminate; vm_compute; reflexivity.
Qed.

(** ** C08: accumulation into bf16 depends on the position.  65 uint8 codes 1, scale 1 + 2^-9, old values 256: elements 0..63 become 258,
    element 64 (scalar tail, value rounded to bf16 before the addition) becomes 256. *)
Definition ones65 : mem := repeat 1%Z 65.
Definition old65 : mem := concat (repeat [0x80; 0x43]%Z 65).
Definition scale_1_9 : f32 := f32_of_bits 0x3f804000.
Theorem C08_bf16_position_dependence_refuted A oaddr r : avx512 A = true ->
  returns ones65 old65 (dequantize_call A 1 oaddr DT_UINT8 DT_BF16 scale_1_9 0 RO_ADD 65 old65) r ->
  exists o, r = Ok o /\ code_at DT_UINT8 ones65 0 = code_at DT_UINT8 ones65 64 /\ bf16_at old65 0 = bf16_at old65 64 /\
    bf16_at o 0 = 0x4381%Z /\ bf16_at o 64 = 0x4380%Z.
Proof.
  intros HA HR.
  assert (HB : dq_buffers 1 DT_UINT8 DT_BF16 ones65 65 old65).
  { unfold dq_buffers. change (length old65) with 130. change (numel DT_BF16 130) with 65. repeat split; try (right; right; reflexivity); 
      try (right; reflexivity); try (unfold sizes_ok; lia); try discriminate; try (cbn; lia); try reflexivity. apply repeat_bytes. unfold is_byte. lia. }
  assert (Hob : Forall is_byte old65).
  { apply Forall_forall. intros x Hx. assert (H : forallb (fun x => (0 <=? x)%Z && (x <? 256)%Z) old65 = true) by (vm_compute; reflexivity).
      rewrite forallb_forall in H. specialize (H x Hx). unfold is_byte. lia. }
  assert (Hz : (Z.abs 0 <= 2 ^ 22)%Z) by lia.
  destruct (dequantize_bf16 _ _ _ _ _ _ _ _ _ _ _ HB Hz Hob HR) as (o & -> & _ & _ & HE & _). exists o. split; auto.
  split; [reflexivity|]. split; [reflexivity|]. change (numel DT_BF16 (length old65)) with 65 in HE.
  split; rewrite HE by lia; destruct A; try discriminate; vm_compute; reflexivity.
Qed.

(** ** C28: the fused call on bf16 buffers.  The scale is itself rounded to bf16 and the product is a bf16 product. *)
Theorem C28_fused_bf16 A nt oaddr dq scale zp rm op thr inm outm r :
  let n := numel DT_BF16 (length outm) in
  quant_type dq -> length inm = length outm -> sizes_ok (length outm) n nt -> good_scale scale -> (Z.abs zp <= 2 ^ 62)%Z ->
  (rm = RM_STOCHASTIC -> threshold thr) -> (forall i, i < n -> quantizable scale (elem_at DT_BF16 inm i)) ->
  returns inm outm (fused_call A nt oaddr DT_BF16 dq scale zp rm op thr inm outm) r ->
  exists o, r = Ok o /\ length o = length outm /\
    (forall i, i < n -> let v := bf16_mul (bf16_of_f32 (f32_of_Z (expected_code rm dq scale zp thr (elem_at DT_BF16 inm i) - zp))) (bf16_of_f32 scale) in
       bf16_at o i = match op with RO_SET => v | RO_ADD => bf16_add (bf16_at outm i) v end) /\
    (forall k, 2 * n <= k -> nth k o 0%Z = nth k outm 0%Z).
Proof.
  intros n Hq HL HS Hsc Hz Ht HX HR. unfold fused_call in HR. rewrite HL in HR.
  set (V := fun i => let v := bf16_mul (bf16_of_f32 (f32_of_Z (expected_code rm dq scale zp thr (elem_at DT_BF16 inm i) - zp))) (bf16_of_f32 scale) in
       match op with RO_SET => v | RO_ADD => bf16_add (bf16_at outm i) v end).
  set (E := fun i => le_bytes 2 (V i)).
  assert (EL : forall i, i < n -> length (E i) = 2) by (intros; apply le_bytes_length).
  assert (VR : forall i, (0 <= V i < 65536)%Z) by (intros; unfold V; destruct op; apply of_f32_range).
  pose proof (numel_le DT_BF16 (length outm) ltac:(right; reflexivity)) as Hn. change (esize DT_BF16) with 2 in *. fold n in Hn.
  assert (HR' := fused_core A nt oaddr (length outm) DT_BF16 dq scale zp rm op thr inm outm E r ltac:(right; reflexivity) Hq HS ltac:(lia) ltac:(lia)).
  change (esize DT_BF16) with 2 in HR'. cbv zeta in HR'. fold n in HR'.
  apply HR' in HR; auto; clear HR'.
  - rewrite HR. eexists. split; [reflexivity|]. rewrite app_length, map_length, seq_length, skipn_length. split; [lia|]. split.
    + intros i Hi'. cbv zeta. rewrite bf16_at_slice, slice_byteE; auto; try lia. unfold E. apply le_val_bytes2, VR.
    + intros k Hk. rewrite app_nth2 by (rewrite map_length, seq_length; lia). rewrite map_length, seq_length.
      rewrite nth_skipn. f_equal. lia.
  - intros i Hi'. unfold requant_elem. cbn [ld]. change (ld_bf16 (slice (2 * i) 2 inm)) with (f32_of_bf16 (bf16_at inm i)).
    rewrite f32_of_bf16_eq. change (bf16_to_f32 (bf16_at inm i)) with (elem_at DT_BF16 inm i).
    rewrite quant_step_ok by auto. cbn [bind]. pose proof (expected_range rm dq scale zp thr (elem_at DT_BF16 inm i) Hq). pose proof (code_max_range dq Hq).
    unfold dq_i64_bf16, i64. rewrite in_i64_ok by lia. cbn [bind]. unfold put_bf16v, E, V. destruct op; reflexivity.
Qed.

(** small integers are exact in bf16 *)
Lemma bf16_small_int k : (Z.abs k <= 256)%Z -> bf16_to_f32 (bf16_of_f32 (f32_of_Z k)) = f32_of_Z k.
Proof.
  intros Hk. unfold bf16_to_f32.
  assert (H : forallb (fun n => let k := (Z.of_nat n - 256)%Z in (bf16_of_f32 (f32_of_Z k) * 65536 =? bits_of_f32 (f32_of_Z k))%Z) (seq 0 513) = true) by (vm_compute; reflexivity).
  rewrite forallb_forall in H. specialize (H (Z.to_nat (k + 256)) ltac:(apply in_seq; lia)). cbv zeta in H.
  replace (Z.of_nat (Z.to_nat (k + 256)) - 256)%Z with k in H by lia. apply Z.eqb_eq in H. rewrite H.
  apply f32_bits_bits.
Qed.
(** The fused call gives the same bytes as the two calls when the scale is a bf16 value and the dequantizing kernels are not the AVX-512 ones. *)
Theorem C28_fused_equals_two_calls_bf16 A A1 A2 nt nt1 nt2 oaddr oaddr1 oaddr2 dq scale zp rm op thr inm pk p extra outm r1 r2 :
  let n := numel DT_BF16 (length outm) in
  buffers_ok nt1 DT_BF16 dq inm pk -> length inm = length outm -> sizes_ok (length outm) n nt -> sizes_ok (length outm) n nt2 ->
  good_scale scale -> bf16_to_f32 (bf16_of_f32 scale) = scale -> (0 <= zp <= code_max dq)%Z -> (rm = RM_STOCHASTIC -> threshold thr) ->
  (forall i, i < n -> input_ok A1 rm scale zp thr (elem_at DT_BF16 inm i)) ->
  avx512 A2 = false -> Forall is_byte extra -> Forall is_byte outm ->
  returns inm outm (fused_call A nt oaddr DT_BF16 dq scale zp rm op thr inm outm) r1 ->
  returns inm pk (quantize_call A1 nt1 oaddr1 DT_BF16 dq scale zp rm thr inm pk) (Ok p) ->
  returns (p ++ extra) outm (dequantize_call A2 nt2 oaddr2 dq DT_BF16 scale zp op (length p) outm) r2 ->
  exists o1 o2, r1 = Ok o1 /\ r2 = Ok o2 /\ length o1 = length o2 /\ (forall i, i < n -> bf16_at o1 i = bf16_at o2 i) /\
    (forall k, 2 * n <= k -> nth k o1 0%Z = nth k o2 0%Z).
Proof.
  intros n HB HL HS HS2 Hsc Hrep Hzr Ht HI HA2 He Hob HF HQ HD.
  assert (Hn : numel DT_BF16 (length inm) = n) by (unfold n; rewrite HL; reflexivity).
  pose proof HB as (Hfp & Hq & Hb & Hl & HS1). pose proof (code_max_range dq Hq) as Hm.
  assert (Hz : (Z.abs zp <= 2 ^ 22)%Z) by lia. assert (Hz62 : (Z.abs zp <= 2 ^ 62)%Z) by lia.
  assert (H1 : rm = RM_STOCHASTIC -> threshold thr /\ (Z.abs zp <= 2 ^ 62)%Z) by (intros; split; auto).
  assert (HI' : forall i, i < numel DT_BF16 (length inm) -> input_ok A1 rm scale zp thr (elem_at DT_BF16 inm i)) by (rewrite Hn; exact HI).
  destruct (quantize_codes _ _ _ _ _ _ _ _ _ _ _ _ HB Hsc H1 (fun _ => Hz) HI' HQ) as (p' & E & HLp & Hby & HC). injection E as <-.
  assert (HB' : dq_buffers nt2 dq DT_BF16 (p ++ extra) (length p) outm).
  { repeat split; auto; try (right; reflexivity); try apply HS2.
    - apply Forall_app; auto.
    - rewrite HLp, Hl, Hn. reflexivity.
    - rewrite app_length. lia.
    - discriminate. }
  destruct (dequantize_bf16 _ _ _ _ _ _ _ _ _ _ _ HB' Hz Hob HD) as (o2 & -> & L2 & _ & E2 & F2).
  assert (HX : forall i, i < n -> quantizable scale (elem_at DT_BF16 inm i)).
  { intros i Hi. specialize (HI i Hi). destruct rm; cbn [input_ok] in HI; unfold nearest_ok in HI; tauto. }
  destruct (C28_fused_bf16 _ _ _ _ _ _ _ _ _ _ _ _ Hq HL HS Hsc Hz62 Ht HX HF) as (o1 & -> & L1 & E1 & F1).
  exists o1, o2. split; auto. split; auto. split; [lia|]. fold n in E2, F2. split; [|intros k Hk; rewrite F1, F2 by auto; reflexivity].
  intros i Hi. rewrite E1, E2 by auto. cbv zeta.
  rewrite code_at_app, HC; auto; [|rewrite Hn; auto|rewrite HLp, Hl, Hn, codes_per_byte_q, bytes_for_per_byte by auto; destruct Hq as [->|[->| ->]]; cbn [per_byte]; lia].
  pose proof (expected_range rm dq scale zp thr (elem_at DT_BF16 inm i) Hq) as HER. set (q := expected_code _ _ _ _ _ _) in *.
  assert (BM : bf16_mul (bf16_of_f32 (f32_of_Z (q - zp))) (bf16_of_f32 scale) = bf16_of_f32 (dequant_value scale zp q)).
  { unfold bf16_mul. rewrite !f32_of_bf16_eq, Hrep, bf16_small_int by lia. reflexivity. }
  rewrite BM. unfold bf16_vector_path. rewrite HA2. cbn [andb]. unfold bf16_result, bf16_source, bf16_convert. destruct dq, op; reflexivity.
Qed.

(** ** C28 is false for a scale that is not a bf16 value: x = 256, scale 1 + 15/4096: code 255; the two calls give 256, the fused call 255. *)
Definition x256 : mem := [0x80; 0x43]%Z.
Definition scale_15_4096 : f32 := f32_of_bits 0x3f807800.
Lemma scale_15_4096_ok : finite scale_15_4096 /\ val scale_15_4096 = (1 + 15 / 4096)%R.
Proof. split; [reflexivity|]. unfold val, scale_15_4096. cbn. unfold F2R. cbn. lra. Qed.
Lemma moderate_normal s : finite s -> (/ 1024 <= val s <= 1024)%R -> normal_scale s.
Proof.
  intros F B. split; auto. rewrite Rabs_pos_eq by lra. split.
  - apply Rle_trans with (bpow radix2 (-10)); [apply bpow_le; lia|]. change (bpow radix2 (-10)) with (/ 1024)%R. lra.
  - apply Rle_trans with (bpow radix2 10); [|apply bpow_le; lia]. change (bpow radix2 10) with 1024%R. lra.
Qed.
Lemma x256_ok : finite (elem_at DT_BF16 x256 0) /\ val (elem_at DT_BF16 x256 0) = 256%R.
Proof. split; [reflexivity|]. unfold val. cbn. unfold F2R. cbn. lra. Qed.
Lemma x256_code A : nearest_ok A scale_15_4096 (elem_at DT_BF16 x256 0) /\ quant_code DT_UINT8 (val scale_15_4096) 0 (val (elem_at DT_BF16 x256 0)) = 255%Z.
Proof.
  destruct scale_15_4096_ok as [Fs Vs]. destruct x256_ok as [Fx Vx].
  assert (NS : normal_scale scale_15_4096) by (apply moderate_normal; auto; rewrite Vs; lra).
  assert (Hq : quant_type DT_UINT8) by (right; right; reflexivity).
  assert (A0 : Rabs (IZR (255 - 0)) = 255%R) by (rewrite <- abs_IZR; reflexivity).
  destruct (requant_code DT_UINT8 scale_15_4096 0 255 (elem_at DT_BF16 x256 0) (/ 10)%R Hq NS) as (Q1 & Q2 & Q3); auto; try (cbn; lia); try lra.
  - rewrite A0. unfold u32r. lra.
  - rewrite Vs, Vx. change (255 - 0)%Z with 255%Z. apply Rabs_le. split; lra.
  - split; auto. split; auto. intros _. apply Q3. rewrite A0. unfold u32r. lra.
Qed.
Theorem C28_bf16_scale_refuted A A1 A2 oaddr oaddr1 oaddr2 thr pk p outm r1 r2 :
  length pk = 1 -> length outm = 2 -> Forall is_byte outm ->
  returns x256 outm (fused_call A 1 oaddr DT_BF16 DT_UINT8 scale_15_4096 0 RM_NEAREST RO_SET thr x256 outm) r1 ->
  returns x256 pk (quantize_call A1 1 oaddr1 DT_BF16 DT_UINT8 scale_15_4096 0 RM_NEAREST thr x256 pk) (Ok p) ->
  returns p outm (dequantize_call A2 1 oaddr2 DT_UINT8 DT_BF16 scale_15_4096 0 RO_SET (length p) outm) r2 ->
  exists o1 o2, r1 = Ok o1 /\ r2 = Ok o2 /\ bf16_at o1 0 = 0x437f%Z /\ bf16_at o2 0 = 0x4380%Z.
Proof.
  intros Lp Lo Hob HF HQ HD.
  assert (Hq : quant_type DT_UINT8) by (right; right; reflexivity).
  destruct scale_15_4096_ok as [Fs Vs].
  assert (NS : normal_scale scale_15_4096) by (apply moderate_normal; auto; rewrite Vs; lra). pose proof (normal_good _ NS) as GS.
  assert (Z22 : (Z.abs 0 <= 2 ^ 22)%Z) by lia. assert (Z62 : (Z.abs 0 <= 2 ^ 62)%Z) by lia.
  assert (SO : forall x : mem, length x = 2 -> sizes_ok (length x) (numel DT_BF16 (length x)) 1) by (intros x ->; unfold sizes_ok; cbn; lia).
  assert (HX : forall A0 i, i < numel DT_BF16 2 -> nearest_ok A0 scale_15_4096 (elem_at DT_BF16 x256 i)).
  { intros A0 i Hi. change (numel DT_BF16 2) with 1 in Hi. assert (i = 0) by lia. subst i. apply x256_code. }
  assert (HX' : forall i, i < numel DT_BF16 (length outm) -> quantizable scale_15_4096 (elem_at DT_BF16 x256 i)).
  { rewrite Lo. intros i Hi. apply (HX GENERIC i Hi). }
  assert (HSt : RM_NEAREST = RM_STOCHASTIC -> threshold thr) by discriminate.
  assert (Li : length x256 = length outm) by (rewrite Lo; reflexivity).
  destruct (C28_fused_bf16 A 1 oaddr DT_UINT8 scale_15_4096 0 RM_NEAREST RO_SET thr x256 outm r1 Hq Li (SO outm Lo) GS Z62 HSt HX' HF)
    as (o1 & -> & L1 & E1 & _).
  assert (HB : buffers_ok 1 DT_BF16 DT_UINT8 x256 pk).
  { split; [right; reflexivity|]. split; auto. split; [repeat constructor; unfold is_byte; lia|]. split; [rewrite Lp; reflexivity|]. apply SO. reflexivity. }
  assert (H1 : RM_NEAREST = RM_STOCHASTIC -> threshold thr /\ (Z.abs 0 <= 2 ^ 62)%Z) by discriminate.
  destruct (quantize_codes A1 1 oaddr1 DT_BF16 DT_UINT8 scale_15_4096 0 RM_NEAREST thr x256 pk (Ok p) HB GS H1 (fun _ => Z22) (fun i Hi => conj (HX A1 i Hi) Z22) HQ) as (p' & E & Lp' & Hby & HC).
  injection E as <-. specialize (HC 0 ltac:(cbn; lia)). cbn [expected_code] in HC. rewrite (proj2 (x256_code A1)) in HC.
  destruct p as [|b [|]]; [cbn in Lp'; lia| |cbn in Lp'; lia]. inversion_clear Hby as [|? ? Hb _]. unfold is_byte in Hb.
  assert (b = 255%Z) by (unfold code_at in HC; change (nth (0 * bit_size DT_UINT8 / 8) [b] 0%Z) with b in HC; change ((b / 1) mod 256 = 255)%Z in HC; lia). subst b.
  assert (HB2 : dq_buffers 1 DT_UINT8 DT_BF16 [255%Z] 1 outm).
  { unfold dq_buffers. rewrite Lo. split; auto. split; [right; reflexivity|]. split; [repeat constructor; unfold is_byte; lia|]. split; [reflexivity|].
    split; [cbn; lia|]. split; [unfold sizes_ok; cbn; lia|discriminate]. }
  destruct (dequantize_bf16 _ _ _ _ _ _ _ _ _ _ _ HB2 Z22 Hob HD) as (o2 & -> & L2 & _ & E2 & _).
  exists o1, o2. split; auto. split; auto. rewrite Lo in E1, E2. split.
  - rewrite E1 by (cbn; lia). cbv zeta. cbn [expected_code]. destruct (x256_code A1) as [_ ->]. vm_compute. reflexivity.
  - rewrite E2 by (cbn; lia).
    assert (V : bf16_vector_path A2 DT_UINT8 1 1 0 = false) by (destruct A2; vm_compute; reflexivity).
    change (numel DT_BF16 2) with 1. rewrite V. unfold bf16_result, bf16_source, bf16_convert. vm_compute. reflexivity.
Qed.

(** ** C15 is false for bf16 and uint8 beyond |code - zp| = 127: code 255, scale 1/254.01: the bf16 is 1.0 and quantizes to 254. *)
Definition scale_254 : f32 := f32_of_bits 0x3b8100b7.
Lemma scale_254_ok : finite scale_254 /\ (val scale_254 = 8454327 / 2147483648)%R.
Proof. split; [reflexivity|]. unfold val, scale_254. cbn. unfold F2R. cbn. lra. Qed.
Theorem C15_bf16_uint8_refuted A A' oaddr oaddr' thr outm o pk r :
  length pk = 1 -> length outm = 2 -> Forall is_byte outm ->
  returns [255%Z] outm (dequantize_call A 1 oaddr DT_UINT8 DT_BF16 scale_254 0 RO_SET 1 outm) (Ok o) ->
  returns o pk (quantize_call A' 1 oaddr' DT_BF16 DT_UINT8 scale_254 0 RM_NEAREST thr o pk) r ->
  exists p, r = Ok p /\ code_at DT_UINT8 [255%Z] 0 = 255%Z /\ code_at DT_UINT8 p 0 = 254%Z.
Proof.
  intros Lp Lo Hob HD HQ.
  assert (Hq : quant_type DT_UINT8) by (right; right; reflexivity).
  destruct scale_254_ok as [Fs Vs].
  assert (NS : normal_scale scale_254) by (apply moderate_normal; auto; rewrite Vs; lra). pose proof (normal_good _ NS) as GS.
  assert (Z22 : (Z.abs 0 <= 2 ^ 22)%Z) by lia.
  assert (HB2 : dq_buffers 1 DT_UINT8 DT_BF16 [255%Z] 1 outm).
  { unfold dq_buffers. rewrite Lo. split; auto. split; [right; reflexivity|]. split; [repeat constructor; unfold is_byte; lia|]. split; [reflexivity|].
    split; [cbn; lia|]. split; [unfold sizes_ok; cbn; lia|discriminate]. }
  destruct (dequantize_bf16 _ _ _ _ _ _ _ _ _ _ _ HB2 Z22 Hob HD) as (o' & E & L2 & Hbo & E2 & _). injection E as <-.
  rewrite Lo in E2. change (numel DT_BF16 2) with 1 in E2. specialize (E2 0 ltac:(lia)).
  assert (V : bf16_vector_path A DT_UINT8 1 1 0 = false) by (destruct A; vm_compute; reflexivity).
  rewrite V in E2. assert (E3 : bf16_at o 0 = 0x3f80%Z) by (rewrite E2; vm_compute; reflexivity). clear E2.
  assert (X : elem_at DT_BF16 o 0 = f_one) by (cbn [elem_at]; rewrite E3; vm_compute; reflexivity).
  destruct f_one_ok as [F1 V1]. assert (A0 : Rabs (IZR (254 - 0)) = 254%R) by (rewrite <- abs_IZR; reflexivity).
  destruct (requant_code DT_UINT8 scale_254 0 254 f_one (/ 10)%R Hq NS) as (Q1 & Q2 & Q3); auto; try (cbn; lia); try lra.
  { rewrite A0. unfold u32r. lra. }
  { rewrite Vs, V1. change (254 - 0)%Z with 254%Z. apply Rabs_le. split; lra. }
  assert (HB : buffers_ok 1 DT_BF16 DT_UINT8 o pk).
  { split; [right; reflexivity|]. split; auto. split; auto. split; [rewrite Lp, L2, Lo; reflexivity|]. rewrite L2, Lo. unfold sizes_ok; cbn; lia. }
  destruct (C01_quantize_nearest A' 1 oaddr' DT_BF16 DT_UINT8 scale_254 0 thr o pk r HB GS Z22) as (p & -> & Lp' & HC); auto.
  - rewrite L2, Lo. change (numel DT_BF16 2) with 1. intros i Hi. assert (i = 0) by lia. subst i. rewrite X. split; auto. intros _. apply Q3. rewrite A0. unfold u32r. lra.
  - exists p. split; auto. split; [reflexivity|]. rewrite L2, Lo in HC. rewrite HC by (cbn; lia). rewrite X. exact Q2.
Qed.
