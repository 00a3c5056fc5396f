(** PropsZeroPoint.v -- C34: which bits of the 64-bit zero point reach the kernels. *)
From Coq Require Import ZArith List Lia Bool Arith ZifyBool ZifyNat Reals Lra.
From Flocq Require Import Core Binary Bits.
From Verif Require Import Base Floats Simd Dtypes Spec ApiSpec QuantKernels DequantKernels ExecFacts FloatFacts QuantFacts QuantKernelFacts
  QuantGenericFacts DequantFacts DequantGenericFacts QuantLanes Context ContextFacts Footprint QuantizeFacts DequantizeFacts Api PropsQuantize Schedule
  PropsMemory FloatFacts2 PropsDequantize PropsRoundTrip.
Import ListNotations.

Ltac Zify.zify_post_hook ::= Z.div_mod_to_equations.

(** The low 32 bits of [zp], as a signed number: the number in [-2^31, 2^31) that differs from it by a multiple of 2^32. *)
Definition low32 (zp low : Z) : Prop := (- 2 ^ 31 <= low < 2 ^ 31)%Z /\ exists k, zp = (low + 2 ^ 32 * k)%Z.

Lemma wrap32_low z : low32 z (wrap32 z).
Proof.
  split; [unfold wrap32; lia|]. exists ((z + 2147483648) / 4294967296)%Z. unfold wrap32. lia.
Qed.
Lemma wrap32_period z k : wrap32 (z + 2 ^ 32 * k) = wrap32 z.
Proof.
  unfold wrap32. change (2 ^ 32)%Z with 4294967296%Z.
  replace (z + 4294967296 * k + 2147483648)%Z with (z + 2147483648 + k * 4294967296)%Z by ring. rewrite Z.mod_add by lia. reflexivity.
Qed.
Lemma low32_wrap z l : low32 z l -> wrap32 z = wrap32 l.
Proof. intros (_ & k & ->). apply wrap32_period. Qed.

Lemma quant_generic_zp A din dout rm oaddr n scale thr zp zp' : specialised din dout rm = true -> wrap32 zp = wrap32 zp' ->
  quant_generic A din dout rm oaddr n scale thr zp = quant_generic A din dout rm oaddr n scale thr zp'.
Proof. intros S H. destruct din, dout, rm; try discriminate; unfold quant_generic; rewrite H; reflexivity. Qed.
Lemma dequant_generic_zp A din dout op n scale zp zp' : (din = DT_UINT2 -> dout <> DT_F32) -> wrap32 zp = wrap32 zp' ->
  dequant_generic A din dout op n scale zp = dequant_generic A din dout op n scale zp'.
Proof. intros S H. destruct din, dout; try reflexivity; unfold dequant_generic; rewrite ?H; auto. exfalso. apply S; auto. Qed.

(** quantize(nearest), every pair except f32 -> uint2: a call with zero point [zp] schedules exactly the work of a call with the zero
    point cut to its low 32 bits, hence has the same results. *)
Theorem C34_quantize_uses_low_32_bits A nt oaddr din dout scale zp low thr inm outm :
  float_type din -> quant_type dout -> ~ (din = DT_F32 /\ dout = DT_UINT2) ->
  length outm = bytes_for dout (numel din (length inm)) -> sizes_ok (length inm) (numel din (length inm)) nt ->
  low32 zp low -> forall r,
  returns inm outm (quantize_call A nt oaddr din dout scale zp RM_NEAREST thr inm outm) r <->
  returns inm outm (quantize_call A nt oaddr din dout scale low RM_NEAREST thr inm outm) r.
Proof.
  intros Hfp Hq Hn Hl HS Hlow r. unfold quantize_call. rewrite !quantize_jobs by auto.
  assert (S : specialised din dout RM_NEAREST = true) by (destruct Hfp as [->| ->], Hq as [->|[->| ->]]; try reflexivity; exfalso; tauto).
  assert (E : forall t, q_job A din dout RM_NEAREST oaddr (numel din (length inm)) nt scale (thr_of RM_NEAREST thr) zp t =
                        q_job A din dout RM_NEAREST oaddr (numel din (length inm)) nt scale (thr_of RM_NEAREST thr) low t).
  { intros t. unfold q_job. rewrite (quant_generic_zp _ _ _ _ _ _ _ _ zp low); auto. apply low32_wrap; auto. }
  rewrite (map_ext _ _ E). tauto.
Qed.

(** so the codes are those of the low 32 bits ... *)
Theorem C34_quantize_low_32_bits_codes A nt oaddr din dout scale zp low thr inm outm r :
  buffers_ok nt din dout inm outm -> ~ (din = DT_F32 /\ dout = DT_UINT2) -> good_scale scale ->
  low32 zp low -> (Z.abs low <= 2 ^ 22)%Z ->
  (forall i, i < numel din (length inm) -> nearest_ok A scale (elem_at din inm i)) ->
  returns inm outm (quantize_call A nt oaddr din dout scale zp RM_NEAREST thr inm outm) r ->
  exists o, r = Ok o /\ forall i, i < numel din (length inm) -> code_at dout o i = quant_code dout (val scale) low (val (elem_at din inm i)).
Proof.
  intros HB Hn Hs Hlow Hz HI HR. pose proof HB as (Hfp & Hq & Hb & Hl & HS).
  apply (C34_quantize_uses_low_32_bits A nt oaddr din dout scale zp low thr inm outm Hfp Hq Hn Hl HS Hlow) in HR.
  destruct (C01_quantize_nearest _ _ _ _ _ _ _ _ _ _ _ HB Hs Hz HI HR) as (o & -> & _ & HC). exists o. split; auto.
Qed.

(** ... while f32 -> uint2 honours the whole zero point (as do stochastic rounding, C29, and the fused call, C28). *)
Theorem C34_f32_uint2_uses_all_bits A nt oaddr scale zp thr inm outm r :
  buffers_ok nt DT_F32 DT_UINT2 inm outm -> good_scale scale -> (Z.abs zp <= 2 ^ 62)%Z ->
  (forall i, i < numel DT_F32 (length inm) -> quantizable scale (f32_at inm i)) ->
  returns inm outm (quantize_call A nt oaddr DT_F32 DT_UINT2 scale zp RM_NEAREST thr inm outm) r ->
  exists o, r = Ok o /\ forall i, i < numel DT_F32 (length inm) -> code_at DT_UINT2 o i = quant_code DT_UINT2 (val scale) zp (val (f32_at inm i)).
Proof.
  intros (Hfp & Hq & Hb & Hl & HS) Hs Hz HI HR. unfold quantize_call in HR.
  assert (G : forall x, quantizable scale x -> q_scalar DT_F32 DT_UINT2 RM_NEAREST f_zero (fdiv f_one scale) zp x = Ok (quant_code DT_UINT2 (val scale) zp (val x))).
  { intros x Hx. change (quant_step_scalar RM_NEAREST (limit_max DT_UINT2) (thr_of RM_NEAREST thr) (fdiv f_one scale) zp x = Ok (expected_code RM_NEAREST DT_UINT2 scale zp thr x)).
    apply quant_step_ok; auto. discriminate. }
  apply quantize_core with (C := fun i => quant_code DT_UINT2 (val scale) zp (val (elem_at DT_F32 inm i))) in HR; auto.
  - eexists. split; [exact HR|]. intros i Hi. change (f32_at inm i) with (elem_at DT_F32 inm i). rewrite Hl, code_at_byte_of; auto.
    + rewrite cut_lt by auto. reflexivity.
    + intros; cbn beta; apply quant_code_range; auto.
    + rewrite bytes_for_per_byte by auto. cbn [per_byte]. lia.
  - eexists. apply G. apply quantizable_zero.
  - intros HV. destruct A; discriminate.
Qed.

(** dequantize, every pair except uint2 -> f32 *)
Theorem C34_dequantize_uses_low_32_bits A nt oaddr din dout scale zp low op inm in_size outm :
  quant_type din -> float_type dout -> ~ (din = DT_UINT2 /\ dout = DT_F32) ->
  in_size = bytes_for din (numel dout (length outm)) -> sizes_ok (length outm) (numel dout (length outm)) nt ->
  low32 zp low -> forall r,
  returns inm outm (dequantize_call A nt oaddr din dout scale zp op in_size outm) r <->
  returns inm outm (dequantize_call A nt oaddr din dout scale low op in_size outm) r.
Proof.
  intros Hq Hfp Hn Hl HS Hlow r. unfold dequantize_call. rewrite !dequantize_jobs by auto.
  assert (E : forall t, d_job A din dout op (numel dout (length outm)) nt scale zp t = d_job A din dout op (numel dout (length outm)) nt scale low t).
  { intros t. unfold d_job. rewrite (dequant_generic_zp _ _ _ _ _ _ zp low); auto. apply low32_wrap; auto. }
  rewrite (map_ext _ _ E). tauto.
Qed.

(** uint2 -> f32 (set) honours the whole zero point *)
Theorem C34_uint2_f32_uses_all_bits A nt oaddr scale zp inm in_size outm r :
  dq_buffers nt DT_UINT2 DT_F32 inm in_size outm -> (Z.abs zp <= 2 ^ 62)%Z ->
  returns inm outm (dequantize_call A nt oaddr DT_UINT2 DT_F32 scale zp RO_SET in_size outm) r ->
  exists o, r = Ok o /\
    forall i, i < numel DT_F32 (length outm) -> f32_at o i = fmul (f32_of_Z (code_at DT_UINT2 inm i - zp)) scale.
Proof.
  intros (Hq & Hfp & Hb & Hi & Hle & HS & Hx) Hz HR. unfold dequantize_call in HR.
  set (n := numel DT_F32 (length outm)) in *.
  set (E := fun i => le_bytes 4 (bits_of_f32 (dequant_value scale zp (code_at DT_UINT2 inm i)))).
  assert (EL : forall i, i < n -> length (E i) = 4) by (intros; apply le_bytes_length).
  pose proof (numel_le DT_F32 (length outm) Hfp) as Hn. change (esize DT_F32) with 4 in *. fold n in Hn.
  assert (HC : forall i, (0 <= code_at DT_UINT2 inm i < 256)%Z) by (intros; apply code_at_lt; auto).
  assert (HR' := dequantize_core A nt oaddr in_size DT_UINT2 (length outm) DT_F32 scale zp RO_SET inm outm E r Hq Hfp Hi HS Hb Hle).
  change (esize DT_F32) with 4 in HR'. fold n in HR'.
  apply HR' in HR; auto; clear HR'.
  - rewrite HR. eexists. split; [reflexivity|]. intros i Hi'. rewrite f32_at_ld, slice_byteE by (auto; lia). unfold E. apply ld_f32_bytes.
  - intros _ _ Hn0. specialize (Hx eq_refl eq_refl). subst in_size. unfold bytes_for in *. cbn [bit_size] in *.
    destruct (Nat.eq_dec (n mod 4) 0) as [E0|E0]; [specialize (Hx E0 Hn0)|]; lia.
  - intros t i Ht Hbi Hv. exfalso. unfold vec_end, dq_block in Hv. destruct A; cbn in Hv; lia.
  - intros t i Ht Hbi Hv. unfold step_put. cbn [dq_scalar]. specialize (HC i). unfold dq_i64, i64. rewrite in_i64_ok by lia. cbn [bind].
    unfold E, put, put_f32, dq_op. destruct (_ <? _); reflexivity.
Qed.

(** The claim itself is false: with zero point 2^32 (a valid int64) the element 0.0 gets the uint8 code 0 on every kernel set and thread
    count, although clamp(0 + 2^32, 0, 255) = 255; uint2 gets 3 from the same data. *)
Lemma low32_example : low32 (2 ^ 32) 0.
Proof. split; [lia|]. exists 1%Z. reflexivity. Qed.

Theorem C34_full_zero_point_refuted A nt oaddr thr :
  1 <= nt -> (Z.of_nat nt < 2 ^ 62)%Z ->
  let inm := [0; 0; 0; 0]%Z in
  let documented d := quant_code d (val f_one) (2 ^ 32) (val (f32_at inm 0)) in
  (forall outm r, length outm = 1 -> returns inm outm (quantize_call A nt oaddr DT_F32 DT_UINT8 f_one (2 ^ 32) RM_NEAREST thr inm outm) r ->
     exists o, r = Ok o /\ code_at DT_UINT8 o 0 = 0%Z /\ documented DT_UINT8 = 255%Z) /\
  (forall outm r, length outm = 1 -> returns inm outm (quantize_call A nt oaddr DT_F32 DT_UINT2 f_one (2 ^ 32) RM_NEAREST thr inm outm) r ->
     exists o, r = Ok o /\ code_at DT_UINT2 o 0 = 3%Z /\ documented DT_UINT2 = 3%Z).
Proof.
  intros H1 H2 inm documented.
  assert (X : f32_at inm 0 = f_zero) by reflexivity.
  assert (Nn : numel DT_F32 (length inm) = 1) by reflexivity.
  assert (Hb : Forall is_byte inm) by (repeat constructor; lia).
  assert (Hs : good_scale f_one).
  { destruct f_one_ok as [_ E]. unfold good_scale. rewrite E. split; [lra|]. replace (1 / 1)%R with 1%R by field.
    assert (E1 : RN32 1 = 1%R) by (apply (RN32_fmt 1), (fmt32_int 1); lia). rewrite E1, Rabs_R1. unfold max32. change 1%R with (bpow radix2 0). apply bpow_lt. lia. }
  assert (D : forall d, quant_type d -> documented d = code_max d).
  { intros d Hd. unfold documented. rewrite X. destruct f_zero_ok as [_ ->]. unfold quant_code. rewrite scaled_0. change 0%R with (IZR 0). rewrite rha_IZR.
    pose proof (code_max_range d Hd). unfold clamp. lia. }
  split; intros outm r Hl HR.
  - assert (HB : buffers_ok nt DT_F32 DT_UINT8 inm outm).
    { unfold buffers_ok. rewrite Nn. split; [left; reflexivity|]. split; [right; right; reflexivity|]. split; [exact Hb|]. split; [exact Hl|].
      unfold sizes_ok. change (length inm) with 4. lia. }
    assert (HI : forall i, i < numel DT_F32 (length inm) -> nearest_ok A f_one (elem_at DT_F32 inm i)).
    { intros i Hi. change (numel DT_F32 (length inm)) with 1 in Hi. replace i with 0 by lia. cbn [elem_at]. rewrite X. apply zero_nearest_ok. }
    destruct (C34_quantize_low_32_bits_codes A nt oaddr DT_F32 DT_UINT8 f_one (2 ^ 32) 0 thr inm outm r HB ltac:(intros [_ ?]; discriminate) Hs low32_example ltac:(lia) HI HR)
      as (o & -> & HC).
    exists o. split; auto. split; [|apply D; right; right; reflexivity]. rewrite HC by (cbn; lia). cbn [elem_at]. rewrite X. destruct f_zero_ok as [_ ->].
    apply quant_code_zero. cbn. lia.
  - assert (HB : buffers_ok nt DT_F32 DT_UINT2 inm outm).
    { unfold buffers_ok. rewrite Nn. split; [left; reflexivity|]. split; [left; reflexivity|]. split; [exact Hb|]. split; [exact Hl|].
      unfold sizes_ok. change (length inm) with 4. lia. }
    assert (HI : forall i, i < numel DT_F32 (length inm) -> quantizable f_one (f32_at inm i)).
    { intros i Hi. change (numel DT_F32 (length inm)) with 1 in Hi. replace i with 0 by lia. rewrite X. apply quantizable_zero. }
    destruct (C34_f32_uint2_uses_all_bits A nt oaddr f_one (2 ^ 32) thr inm outm r HB Hs ltac:(lia) HI HR) as (o & -> & HC).
    exists o. split; auto. rewrite HC by (cbn; lia). split; apply (D DT_UINT2); left; reflexivity.
Qed.
