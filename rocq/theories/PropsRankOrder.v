(** PropsRankOrder.v -- C48 for bf16 (dequantize keeps the order of the codes) and C67 (a round trip keeps the ranking of the elements). *)
From Coq Require Import ZArith List Lia Bool Arith ZifyBool ZifyNat Reals Lra.
From Flocq Require Import Core Binary Bits.
From Verif Require Import Base Floats Simd Dtypes Spec ApiSpec QuantKernels DequantKernels ExecFacts FloatFacts QuantFacts QuantKernelFacts
  QuantGenericFacts DequantFacts DequantGenericFacts QuantLanes Context ContextFacts Footprint QuantizeFacts DequantizeFacts Api PropsQuantize Schedule
  PropsMemory FloatFacts2 PropsDequantize PropsRoundTrip Bf16Spec Bf16Facts FloatFacts3 PropsExtreme RoundTripFacts PropsIdempotent PropsStochastic MinMax MinMaxFacts ConfigSpec F64Facts
  ConfigFacts PropsConfig PropsRepresent PropsBf16 PropsDequantBf16 PropsOrder PropsRoundTripTypes PropsAnyThreads PropsReadme PropsBf16Zero.
Import ListNotations.
Open Scope R_scope.

Ltac Zify.zify_post_hook ::= Z.div_mod_to_equations.

(** ** C48 for bf16 *)
(** on a path that multiplies (code - zp) by the scale, the stored bf16 is the rounding of the rounded product *)
Lemma stored_product A d vec scale zp q : bf16_scale scale -> (0 <= zp <= 255)%Z -> (0 <= q <= 255)%Z -> d = DT_UINT8 \/ vec = false ->
  val (bf16_to_f32 (bf16_convert A vec (bf16_source d vec scale zp q))) = RN16 (RN32 (IZR (q - zp) * val scale)).
Proof.
  intros Hs Hz Hq HP. pose proof (bf16_scale_normal _ Hs) as Hn. destruct (bf16_scale_pos _ Hs) as [P NZ].
  assert (ES : bf16_source d vec scale zp q = dequant_value scale zp q) by (unfold bf16_source; destruct HP as [-> | ->]; [|destruct d]; reflexivity).
  destruct (source_near d vec scale zp q Hs Hz Hq) as (F & N & _). rewrite ES in *.
  destruct (dequant_value_ok scale zp q Hn ltac:(lia)) as [_ V]. set (v := dequant_value scale zp q) in *. destruct Hs as (Fs & L & U).
  change (bpow radix2 (-15)) with (/ 32768) in N. assert (Bq : Rabs (IZR (q - zp)) <= 255) by (apply (abs_IZR_le _ 255); lia).
  assert (Bt : Rabs (val v / val scale) <= 256).
  { replace (val v / val scale) with (IZR (q - zp) + (val v / val scale - IZR (q - zp))) by ring. eapply Rle_trans; [apply Rabs_triang|]. lra. }
  assert (VE : val v = val v / val scale * val scale) by (field; auto).
  destruct (convert_ok A vec v F) as [Fw [Vw|[Sv Vw]]].
  { rewrite VE, Rabs_mult. apply Rle_trans with (256 * bpow radix2 100); [apply Rmult_le_compat; try apply Rabs_pos; auto|].
    change 256 with (bpow radix2 8). rewrite <- bpow_plus. apply bpow_le. lia. }
  - rewrite Vw, V. reflexivity.
  - rewrite Vw. destruct (Z.eq_dec (q - zp) 0) as [E|NE].
    + rewrite E, Rmult_0_l, RN32_0, RN16_0. reflexivity.
    + exfalso. assert (K1 : 1 <= Rabs (IZR (q - zp))) by (rewrite <- abs_IZR; apply IZR_le; lia). set (k := IZR (q - zp)) in *.
      assert (T : Rabs (val v / val scale) >= / 2).
      { apply Rabs_le_inv in N. apply Rle_ge. unfold Rabs in *. destruct (Rcase_abs k), (Rcase_abs (val v / val scale)); lra. }
      rewrite VE, Rabs_mult in Sv.
      assert (C : / 2 * bpow radix2 (-120) <= Rabs (val v / val scale) * Rabs (val scale)) by (apply Rmult_le_compat; try lra; apply bpow_ge_0).
      assert (C' : bpow radix2 (-126) < / 2 * bpow radix2 (-120)) by (change (/ 2) with (bpow radix2 (-1)); rewrite <- bpow_plus; apply bpow_lt; lia).
      lra.
Qed.

(** A larger code never gives a smaller bf16; for uint2 and uint4 it gives a strictly larger one; equal codes give equal values, except that on AVX-512 two
    equal uint2 or uint4 codes may be decoded to neighbouring bf16 values (C08_bf16_position_dependence_refuted). *)
Theorem C48_bf16_order A nt oaddr din scale zp inm in_size outm r :
  dq_buffers nt din DT_BF16 inm in_size outm -> (0 <= zp <= code_max din)%Z -> bf16_scale scale -> 0 < val scale -> Forall is_byte outm ->
  returns inm outm (dequantize_call A nt oaddr din DT_BF16 scale zp RO_SET in_size outm) r ->
  let n := numel DT_BF16 (length outm) in
  exists o, r = Ok o /\ length o = length outm /\
    (forall i, (i < n)%nat -> finite (elem_at DT_BF16 o i)) /\
    (forall i j, (i < n)%nat -> (j < n)%nat -> (code_at din inm i < code_at din inm j)%Z -> val (elem_at DT_BF16 o i) <= val (elem_at DT_BF16 o j)) /\
    (forall i j, (i < n)%nat -> (j < n)%nat -> din <> DT_UINT8 -> (code_at din inm i < code_at din inm j)%Z -> val (elem_at DT_BF16 o i) < val (elem_at DT_BF16 o j)) /\
    (forall i j, (i < n)%nat -> (j < n)%nat -> din = DT_UINT8 \/ avx512 A = false -> code_at din inm i = code_at din inm j ->
       val (elem_at DT_BF16 o i) = val (elem_at DT_BF16 o j)).
Proof.
  intros HB Hz Hs Ps Hob HR n. pose proof HB as (Hq & _). pose proof (code_max_range din Hq) as Hm.
  assert (Hz22 : (Z.abs zp <= 2 ^ 22)%Z) by lia.
  destruct (dequantize_bf16 _ _ _ _ _ _ _ _ _ _ _ HB Hz22 Hob HR) as (o & -> & L & _ & HE & _).
  destruct (C07_bf16_accuracy A nt oaddr din scale zp inm in_size outm (Ok o) HB Hz Hs Hob HR) as (o' & E & HA). injection E as <-. fold n in HE, HA.
  exists o. split; auto. split; auto. split; [intros i Hi; apply HA; auto|].
  assert (PV : forall i, (i < n)%nat -> din = DT_UINT8 \/ avx512 A = false -> val (elem_at DT_BF16 o i) = RN16 (RN32 (IZR (code_at din inm i - zp) * val scale))).
  { intros i Hi HP. cbn [elem_at]. change (f32_of_bits (bf16_at o i * 65536)) with (bf16_to_f32 (bf16_at o i)). rewrite HE by auto. cbn [bf16_result]. unfold bf16_result.
    pose proof (code_at_lt din inm i Hq). apply stored_product; auto; try lia. destruct HP as [HP|HP]; [left; auto|right]. unfold bf16_vector_path. rewrite HP. reflexivity. }
  assert (SO : forall i j, (i < n)%nat -> (j < n)%nat -> din <> DT_UINT8 -> (code_at din inm i < code_at din inm j)%Z -> val (elem_at DT_BF16 o i) < val (elem_at DT_BF16 o j)).
  { intros i j Hi Hj HN Hlt. destruct (HA i Hi) as [_ A1]. destruct (HA j Hj) as [_ A2].
    assert (HM : (code_max din <= 15)%Z).
    { destruct Hq as [->|[->| ->]]; [change (code_max DT_UINT2) with 3%Z|change (code_max DT_UINT4) with 15%Z|congruence]; lia. }
    pose proof (code_at_le din inm i Hq) as C1. pose proof (code_at_le din inm j Hq) as C2.
    assert (B1 : Rabs (IZR (code_at din inm i - zp)) <= 15) by (apply (abs_IZR_le _ 15); lia).
    assert (B2 : Rabs (IZR (code_at din inm j - zp)) <= 15) by (apply (abs_IZR_le _ 15); lia).
    assert (D : IZR (code_at din inm i - zp) + 1 <= IZR (code_at din inm j - zp)) by (rewrite <- plus_IZR; apply IZR_le; lia).
    rewrite Rabs_mult, (Rabs_pos_eq (val scale)) in A1, A2 by lra. change (bpow radix2 (-13)) with (/ 8192) in A1, A2.
    set (K1 := IZR (code_at din inm i - zp)) in *. set (K2 := IZR (code_at din inm j - zp)) in *. set (s := val scale) in *.
    assert (P1 : Rabs K1 * s <= 15 * s) by (apply Rmult_le_compat_r; lra). assert (P2 : Rabs K2 * s <= 15 * s) by (apply Rmult_le_compat_r; lra).
    assert (P3 : (K1 + 1) * s <= K2 * s) by (apply Rmult_le_compat_r; lra).
    apply Rabs_le_inv in A1. apply Rabs_le_inv in A2. lra. }
  split; [|split]; auto.
  - intros i j Hi Hj Hlt. assert (DE : {din = DT_UINT8} + {din <> DT_UINT8}) by (destruct din; auto; right; discriminate). destruct DE as [E|NE]; [|left; apply SO; auto].
    rewrite !PV by auto. apply RN16_le, RN32_le, Rmult_le_compat_r; [lra|]. apply IZR_le. lia.
  - intros i j Hi Hj HP E. rewrite !PV, E by auto. reflexivity.
Qed.
(** uint8 codes do collapse: with the scale 1.0078125 the codes 254 and 255 are both decoded to 256, on every kernel set. *)
Theorem C48_bf16_uint8_strict_refuted A : exists scale, bf16_scale scale /\ 0 < val scale /\
  returns [254; 255; 0]%Z (repeat 0%Z 4) (dequantize_call A 1 0 DT_UINT8 DT_BF16 scale 0 RO_SET 2 (repeat 0%Z 4)) (Ok (le_bytes 2 0x4380 ++ le_bytes 2 0x4380)).
Proof.
  exists (f32_of_bits 0x3f810000). assert (V : val (f32_of_bits 0x3f810000) = 129 / 128) by (unfold val; cbn; unfold F2R; cbn; lra).
  split; [|split; [rewrite V; lra|]].
  - split; [reflexivity|]. rewrite V, Rabs_pos_eq by lra. split.
    + apply Rle_trans with (bpow radix2 0); [apply bpow_le; lia|cbn; lra].
    + apply Rle_trans with (bpow radix2 1); [cbn; lra|apply bpow_le; lia].
  - one_job A.
Qed.

(** ** C67: the ranking of the elements survives a round trip *)
(** Steps apart at which two elements are guaranteed different codes. *)
Definition resolution (rm : round_mode_t) : R := match rm with RM_NEAREST => 1 | RM_STOCHASTIC => 2 end.
Definition rounded (rm : round_mode_t) (thr y : R) : Z := match rm with RM_NEAREST => round_half_away y | RM_STOCHASTIC => stoch_round thr y end.
Lemma expected_rounded rm d scale zp thr x : expected_code rm d scale zp thr x = clamp 0 (code_max d) (rounded rm (val thr) (scaled (val scale) (val x)) + zp)%Z.
Proof. destruct rm; reflexivity. Qed.
Lemma rounded_mono rm t y y' : y <= y' -> (rounded rm t y <= rounded rm t y')%Z.
Proof. destruct rm; cbn [rounded]; [apply rha_le|apply stoch_round_mono]. Qed.
Lemma rounded_error rm t y : (rm = RM_STOCHASTIC -> 0 <= t) -> Rabs (IZR (rounded rm t y) - y) <= resolution rm / 2.
Proof.
  intros Ht. destruct rm; cbn [rounded resolution].
  - pose proof (rha_error y). lra.
  - pose proof (stoch_error t y (Ht eq_refl)). lra.
Qed.
Lemma expected_mono rm d scale zp thr x x' : quant_type d -> 0 < val scale -> val x <= val x' ->
  (expected_code rm d scale zp thr x <= expected_code rm d scale zp thr x')%Z.
Proof.
  intros Hq Ps Hx. rewrite !expected_rounded. pose proof (rounded_mono rm (val thr) _ _ (scaled_mono (val scale) _ _ Ps Hx)). unfold clamp. lia.
Qed.
(** the values representable with a scale and zero point *)
Definition representable (d : dtype) (scale : f32) (zp : Z) (x : R) : Prop := IZR (0 - zp) * val scale <= x <= IZR (code_max d - zp) * val scale.
Lemma expected_strict rm d scale zp thr x x' : quant_type d -> normal_scale scale -> 0 < val scale -> (0 <= zp <= code_max d)%Z ->
  (rm = RM_STOCHASTIC -> threshold thr) -> representable d scale zp (val x) -> representable d scale zp (val x') ->
  val x + (resolution rm + bpow radix2 (-12)) * val scale <= val x' ->
  (expected_code rm d scale zp thr x < expected_code rm d scale zp thr x')%Z.
Proof.
  intros Hq Hs Ps Hz Ht HX HX' HD. pose proof (code_max_range d Hq) as HM. rewrite !expected_rounded.
  assert (T0 : rm = RM_STOCHASTIC -> 0 <= val thr) by (intros E; destruct (Ht E) as [_ T]; lra).
  set (s := val scale) in *.
  assert (G : forall w, representable d scale zp w -> Rabs (w / s) <= 255 /\ Rabs (scaled s w - w / s) <= / 16384).
  { intros w [W1 W2]. assert (W : IZR (0 - zp) <= w / s <= IZR (code_max d - zp)).
    { split; apply Rmult_le_reg_r with s; auto; unfold Rdiv; rewrite Rmult_assoc, Rinv_l, Rmult_1_r by lra; [exact W1|exact W2]. }
    assert (B1 : (Rabs (IZR (0 - zp)) <= IZR 255)) by (apply abs_IZR_le; lia). apply Rabs_le_inv in B1.
    assert (B2 : (Rabs (IZR (code_max d - zp)) <= IZR 255)) by (apply abs_IZR_le; lia). apply Rabs_le_inv in B2. change (IZR 255) with 255 in *.
    assert (T : Rabs (w / s) <= 255) by (apply Rabs_le; lra). split; auto.
    pose proof (scaled_rel scale w Hs) as SR. fold s in SR. destruct tiny_small as [_ T2]. unfold u32r in SR. lra. }
  destruct (G _ HX) as [X1 X2]. destruct (G _ HX') as [X1' X2']. apply Rabs_le_inv in X2. apply Rabs_le_inv in X2'.
  set (y := scaled s (val x)) in *. set (y' := scaled s (val x')) in *.
  assert (D : val x / s + (resolution rm + bpow radix2 (-12)) <= val x' / s).
  { apply Rmult_le_reg_r with s; auto. replace ((val x / s + (resolution rm + bpow radix2 (-12))) * s) with (val x + (resolution rm + bpow radix2 (-12)) * s) by (field; lra).
    replace (val x' / s * s) with (val x') by (field; lra). exact HD. }
  change (bpow radix2 (-12)) with (/ 4096) in D.
  pose proof (rounded_error rm (val thr) y T0) as R1. pose proof (rounded_error rm (val thr) y' T0) as R2. apply Rabs_le_inv in R1. apply Rabs_le_inv in R2.
  assert (L : (rounded rm (val thr) y < rounded rm (val thr) y')%Z) by (apply lt_IZR; lra).
  assert (Y1 : IZR (0 - zp) - / 16384 <= y).
  { destruct HX as [W _]. assert (IZR (0 - zp) <= val x / s) by (apply Rmult_le_reg_r with s; auto; unfold Rdiv; rewrite Rmult_assoc, Rinv_l, Rmult_1_r by lra; exact W). lra. }
  assert (Y2 : y' <= IZR (code_max d - zp) + / 16384).
  { destruct HX' as [_ W]. assert (val x' / s <= IZR (code_max d - zp)) by (apply Rmult_le_reg_r with s; auto; unfold Rdiv; rewrite Rmult_assoc, Rinv_l, Rmult_1_r by lra; exact W). lra. }
  set (a := rounded rm (val thr) y) in *. set (b := rounded rm (val thr) y') in *.
  assert (RB : (a < code_max d - zp /\ 0 - zp < b)%Z).
  { split; apply lt_IZR; destruct rm; cbn [resolution] in *; lra. }
  fold a b. clearbody a b. assert (HM3 : (3 <= code_max d)%Z) by (destruct Hq as [->|[->| ->]]; [change (code_max DT_UINT2) with 3%Z|change (code_max DT_UINT4) with 15%Z|change (code_max DT_UINT8) with 255%Z]; lia).
  clear - L RB HM3 Hz. unfold clamp. lia.
Qed.

(** Decodings in which a larger code never gives a smaller value and equal codes give equal values. *)
Definition decodes_in_order (A : arch) (d dout : dtype) : Prop := dout = DT_F32 \/ d = DT_UINT8 \/ avx512 A = false.
(** Decodings in which different codes give different values. *)
Definition decodes_apart (d dout : dtype) : Prop := dout = DT_F32 \/ d <> DT_UINT8.

Lemma decode_order A nt oaddr d dout scale zp inm in_size outm r :
  dq_buffers nt d dout inm in_size outm -> (0 <= zp <= code_max d)%Z -> out_scale dout scale -> 0 < val scale -> Forall is_byte outm ->
  returns inm outm (dequantize_call A nt oaddr d dout scale zp RO_SET in_size outm) r ->
  let n := numel dout (length outm) in
  exists o, r = Ok o /\ length o = length outm /\
    (forall i, (i < n)%nat -> finite (elem_at dout o i)) /\
    (decodes_in_order A d dout -> forall i j, (i < n)%nat -> (j < n)%nat -> (code_at d inm i <= code_at d inm j)%Z -> val (elem_at dout o i) <= val (elem_at dout o j)) /\
    (decodes_apart d dout -> forall i j, (i < n)%nat -> (j < n)%nat -> (code_at d inm i < code_at d inm j)%Z -> val (elem_at dout o i) < val (elem_at dout o j)).
Proof.
  intros HB Hz Hs Ps Hob HR n. pose proof HB as (Hq & Hfp & _). pose proof (code_max_range d Hq) as HM. destruct Hfp as [-> | ->].
  - cbn [out_scale] in Hs. assert (Hz30 : (Z.abs zp <= 2 ^ 30)%Z) by lia. assert (Hz19 : (Z.abs zp <= 2 ^ 19)%Z) by lia.
    destruct (C07_dequantize_set_f32 _ _ _ _ _ _ _ _ _ _ HB Hz30 HR) as (o & -> & L & HE & _). fold n in HE.
    assert (FD : forall i, finite (dequant_value scale zp (code_at d inm i))).
    { intros i. pose proof (code_at_le d inm i Hq). apply (dequant_value_ok scale zp (code_at d inm i) Hs). lia. }
    assert (F : forall i, (i < n)%nat -> finite (f32_at o i)) by (intros i Hi; rewrite HE by auto; apply FD).
    exists o. split; auto. split; auto. cbn [elem_at]. split; auto. pose proof (code_at_lt d inm) as CL. split; intros _ i j Hi Hj H; rewrite ?HE by auto.
    + destruct (Z.eq_dec (code_at d inm i) (code_at d inm j)) as [E|NE]; [rewrite E; apply Rle_refl|].
      pose proof (dequant_value_strict scale zp (code_at d inm i) (code_at d inm j) Hs Ps Hz19 (CL i Hq) (CL j Hq) ltac:(lia)) as T.
      unfold ieee_lt in T. fold (dequant_value scale zp (code_at d inm i)) (dequant_value scale zp (code_at d inm j)).
      rewrite fcompare_ok in T by apply FD.
      destruct (Rcompare_spec (val (dequant_value scale zp (code_at d inm i))) (val (dequant_value scale zp (code_at d inm j)))); try discriminate. left; auto.
    + pose proof (dequant_value_strict scale zp (code_at d inm i) (code_at d inm j) Hs Ps Hz19 (CL i Hq) (CL j Hq) H) as T.
      unfold ieee_lt in T. fold (dequant_value scale zp (code_at d inm i)) (dequant_value scale zp (code_at d inm j)).
      rewrite fcompare_ok in T by apply FD.
      destruct (Rcompare_spec (val (dequant_value scale zp (code_at d inm i))) (val (dequant_value scale zp (code_at d inm j)))); try discriminate. auto.
  - cbn [out_scale] in Hs. destruct (C48_bf16_order A nt oaddr d scale zp inm in_size outm r HB Hz Hs Ps Hob HR) as (o & -> & L & F & O1 & O2 & O3). fold n in F, O1, O2, O3.
    exists o. split; auto. split; auto. split; auto. split.
    + intros [E|HD] i j Hi Hj H; [discriminate|]. destruct (Z.eq_dec (code_at d inm i) (code_at d inm j)) as [E|NE]; [right; apply O3; auto|apply O1; auto; lia].
    + intros [E|HD] i j Hi Hj H; [discriminate|]. apply O2; auto.
Qed.

(** ** C67.  The elements of a tensor keep their ranking through quantize and dequantize: an element that is not larger does not come back larger (so the
    place of the maximum still holds the maximum, a sorted tensor stays sorted), and representable elements more than one step (two steps with stochastic
    rounding) apart come back different, in the same order. *)
Theorem C67_ranking A nt oaddr A2 nt2 oaddr2 din dout dq scale zp rm thr inm pk p extra outm r :
  let n := numel dout (length outm) in
  let x := elem_at din inm in
  buffers_ok nt din dq inm pk -> float_type dout -> numel din (length inm) = n -> sizes_ok (length outm) n nt2 -> Forall is_byte outm ->
  out_scale dout scale -> 0 < val scale -> (0 <= zp <= code_max dq)%Z -> (rm = RM_STOCHASTIC -> threshold thr) -> Forall is_byte extra -> extra <> [] ->
  (forall i, (i < n)%nat -> input_ok A rm scale zp thr (x i)) ->
  returns inm pk (quantize_call A nt oaddr din dq scale zp rm thr inm pk) (Ok p) ->
  returns (p ++ extra) outm (dequantize_call A2 nt2 oaddr2 dq dout scale zp RO_SET (length p) outm) r ->
  exists o, r = Ok o /\ length o = length outm /\
    (forall i, (i < n)%nat -> finite (elem_at dout o i)) /\
    (decodes_in_order A2 dq dout -> forall i j, (i < n)%nat -> (j < n)%nat -> val (x i) <= val (x j) -> val (elem_at dout o i) <= val (elem_at dout o j)) /\
    (decodes_apart dq dout -> forall i j, (i < n)%nat -> (j < n)%nat -> representable dq scale zp (val (x i)) -> representable dq scale zp (val (x j)) ->
       val (x i) + (resolution rm + bpow radix2 (-12)) * val scale <= val (x j) -> val (elem_at dout o i) < val (elem_at dout o j)).
Proof.
  intros n x HB Hfp Hn HS Hob Hs Ps Hz Ht He Hne HI HQ HD. pose proof (out_scale_normal dout scale Hs) as Hns. pose proof HB as (Hd & Hq & Hb & HLk & HSz).
  pose proof (code_max_range dq Hq) as HM.
  assert (H1 : rm = RM_STOCHASTIC -> threshold thr /\ (Z.abs zp <= 2 ^ 62)%Z) by (intros E; split; [auto|lia]).
  assert (H2 : rm = RM_NEAREST -> (Z.abs zp <= 2 ^ 22)%Z) by (intros; lia).
  assert (HI' : forall i, (i < numel din (length inm))%nat -> input_ok A rm scale zp thr (elem_at din inm i)) by (rewrite Hn; exact HI).
  destruct (quantize_codes A nt oaddr din dq scale zp rm thr inm pk (Ok p) HB (normal_good _ Hns) H1 H2 HI' HQ) as (p' & E & HL & Hby & HC). injection E as <-. rewrite Hn in HC.
  assert (HB2 : dq_buffers nt2 dq dout (p ++ extra) (length p) outm).
  { unfold dq_buffers. fold n. split; auto. split; auto. split; [apply Forall_app; auto|]. split; [rewrite HL, HLk, Hn; reflexivity|]. rewrite app_length.
    split; [lia|]. split; auto. intros _ _ _ _. destruct extra; [congruence|cbn; lia]. }
  destruct (decode_order A2 nt2 oaddr2 dq dout scale zp (p ++ extra) (length p) outm r HB2 Hz Hs Ps Hob HD) as (o & -> & L & F & O1 & O2). fold n in F, O1, O2.
  assert (CC : forall i, (i < n)%nat -> code_at dq (p ++ extra) i = expected_code rm dq scale zp thr (x i)).
  { intros i Hi. rewrite code_at_app, HC; auto. rewrite HL, HLk, Hn, codes_per_byte_q, bytes_for_per_byte by auto. clear - Hq Hi. destruct Hq as [->|[->| ->]]; cbn [per_byte]; lia. }
  exists o. split; auto. split; auto. split; auto. split.
  - intros HO i j Hi Hj H. apply O1; auto. rewrite !CC by auto. apply expected_mono; auto.
  - intros HO i j Hi Hj R1 R2 H. apply O2; auto. rewrite !CC by auto. apply expected_strict; auto.
Qed.

(** In particular the position of a maximum (minimum) still holds a maximum (minimum), and a sorted tensor stays sorted. *)
Theorem C67_extremes A nt oaddr A2 nt2 oaddr2 din dout dq scale zp rm thr inm pk p extra outm r :
  let n := numel dout (length outm) in
  let x := elem_at din inm in
  buffers_ok nt din dq inm pk -> float_type dout -> numel din (length inm) = n -> sizes_ok (length outm) n nt2 -> Forall is_byte outm ->
  out_scale dout scale -> 0 < val scale -> (0 <= zp <= code_max dq)%Z -> (rm = RM_STOCHASTIC -> threshold thr) -> Forall is_byte extra -> extra <> [] ->
  (forall i, (i < n)%nat -> input_ok A rm scale zp thr (x i)) -> decodes_in_order A2 dq dout ->
  returns inm pk (quantize_call A nt oaddr din dq scale zp rm thr inm pk) (Ok p) ->
  returns (p ++ extra) outm (dequantize_call A2 nt2 oaddr2 dq dout scale zp RO_SET (length p) outm) r ->
  exists o, r = Ok o /\
    (forall m, (m < n)%nat -> (forall i, (i < n)%nat -> val (x i) <= val (x m)) -> forall i, (i < n)%nat -> val (elem_at dout o i) <= val (elem_at dout o m)) /\
    (forall m, (m < n)%nat -> (forall i, (i < n)%nat -> val (x m) <= val (x i)) -> forall i, (i < n)%nat -> val (elem_at dout o m) <= val (elem_at dout o i)) /\
    ((forall i, (S i < n)%nat -> val (x i) <= val (x (S i))) -> forall i, (S i < n)%nat -> val (elem_at dout o i) <= val (elem_at dout o (S i))).
Proof.
  intros n x HB Hfp Hn HS Hob Hs Ps Hz Ht He Hne HI HO HQ HD.
  destruct (C67_ranking A nt oaddr A2 nt2 oaddr2 din dout dq scale zp rm thr inm pk p extra outm r HB Hfp Hn HS Hob Hs Ps Hz Ht He Hne HI HQ HD) as (o & -> & _ & _ & H & _).
  fold n x in H. specialize (H HO). exists o. split; auto. split; [|split].
  - intros m Hm HX i Hi. apply H; auto.
  - intros m Hm HX i Hi. apply H; auto.
  - intros HX i Hi. apply H; auto; lia.
Qed.

(** The fused call on f32 data keeps the ranking too, without any exceptional values. *)
Theorem C67_fused_ranking A nt oaddr dq scale zp rm thr inm outm r :
  let n := numel DT_F32 (length outm) in
  quant_type dq -> length inm = length outm -> sizes_ok (length outm) n nt -> normal_scale scale -> 0 < val scale -> (0 <= zp <= code_max dq)%Z ->
  (rm = RM_STOCHASTIC -> threshold thr) -> (forall i, (i < n)%nat -> quantizable scale (f32_at inm i)) ->
  returns inm outm (fused_call A nt oaddr DT_F32 dq scale zp rm RO_SET thr inm outm) r ->
  exists o, r = Ok o /\ length o = length outm /\
    (forall i, (i < n)%nat -> finite (f32_at o i)) /\
    (forall i j, (i < n)%nat -> (j < n)%nat -> val (f32_at inm i) <= val (f32_at inm j) -> val (f32_at o i) <= val (f32_at o j)) /\
    (forall i j, (i < n)%nat -> (j < n)%nat -> representable dq scale zp (val (f32_at inm i)) -> representable dq scale zp (val (f32_at inm j)) ->
       val (f32_at inm i) + (resolution rm + bpow radix2 (-12)) * val scale <= val (f32_at inm j) -> val (f32_at o i) < val (f32_at o j)).
Proof.
  intros n Hq HL HS Hs Ps Hz Ht HX HR. pose proof (code_max_range dq Hq) as HM. assert (Hz62 : (Z.abs zp <= 2 ^ 62)%Z) by lia. assert (Hz19 : (Z.abs zp <= 2 ^ 19)%Z) by lia.
  destruct (C28_fused_f32 _ _ _ _ _ _ _ _ _ _ _ _ Hq HL HS (normal_good _ Hs) Hz62 Ht HX HR) as (o & -> & Lo & HE & _). fold n in HE.
  set (c := fun i => expected_code rm dq scale zp thr (f32_at inm i)).
  assert (CR : forall i, (0 <= c i <= code_max dq)%Z) by (intros; apply expected_range; auto).
  assert (FD : forall i, finite (dequant_value scale zp (c i))) by (intros i; specialize (CR i); apply (dequant_value_ok scale zp (c i) Hs); lia).
  assert (HV : forall i, (i < n)%nat -> f32_at o i = dequant_value scale zp (c i)) by (intros i Hi; rewrite (f32_at_ld o), HE, ld_f32_bytes by auto; reflexivity).
  assert (ST : forall i j, (c i < c j)%Z -> val (dequant_value scale zp (c i)) < val (dequant_value scale zp (c j))).
  { intros i j H. pose proof (CR i). pose proof (CR j). pose proof (dequant_value_strict scale zp (c i) (c j) Hs Ps Hz19 ltac:(lia) ltac:(lia) H) as T.
    unfold ieee_lt in T. rewrite fcompare_ok in T by apply FD.
    destruct (Rcompare_spec (val (dequant_value scale zp (c i))) (val (dequant_value scale zp (c j)))); try discriminate. auto. }
  exists o. split; auto. split; auto. split; [intros i Hi; rewrite HV by auto; apply FD|]. split.
  - intros i j Hi Hj H. rewrite !HV by auto. pose proof (expected_mono rm dq scale zp thr (f32_at inm i) (f32_at inm j) Hq Ps H) as M. fold (c i) (c j) in M.
    destruct (Z.eq_dec (c i) (c j)) as [->|NE]; [apply Rle_refl|left; apply ST; lia].
  - intros i j Hi Hj R1 R2 H. rewrite !HV by auto. apply ST. apply expected_strict; auto.
Qed.

(** The condition on AVX-512 cannot be dropped for uint2 and uint4: of 129 zeros the last comes back as 0, the others as a negative number. *)
Theorem C67_bf16_avx512_refuted A : avx512 A = true -> exists p o,
  let zeros := repeat 0%Z 516 in
  returns zeros (repeat 0%Z 65) (quantize_call A 1 0 DT_F32 DT_UINT4 tenth 3 RM_NEAREST f_zero zeros (repeat 0%Z 65)) (Ok p) /\
  returns (p ++ [0%Z]) (repeat 0%Z 258) (dequantize_call A 1 0 DT_UINT4 DT_BF16 tenth 3 RO_SET (length p) (repeat 0%Z 258)) (Ok o) /\
  (forall i, (i < 129)%nat -> val (f32_at zeros i) = 0) /\ val (elem_at DT_BF16 o 0) < val (elem_at DT_BF16 o 128).
Proof.
  intros HA. exists (repeat 0x33%Z 64 ++ [3%Z]), (concat (repeat (le_bytes 2 0xb200) 128) ++ [0; 0]%Z). cbv zeta.
  split; [apply returns_one; destruct A; try discriminate; vm_compute; reflexivity|].
  split; [apply returns_one; destruct A; try discriminate; vm_compute; reflexivity|]. split.
  - intros i Hi. assert (E : bits_of_f32 (f32_at (repeat 0%Z 516) i) = 0%Z).
    { assert (H : forallb (fun i => (bits_of_f32 (f32_at (repeat 0%Z 516) i) =? 0)%Z) (seq 0 129) = true) by (vm_compute; reflexivity).
      rewrite forallb_forall in H. apply Z.eqb_eq, H, in_seq. lia. }
    rewrite <- (f32_bits_bits (f32_at (repeat 0%Z 516) i)), E. reflexivity.
  - set (o := concat _ ++ _).
    assert (V0 : elem_at DT_BF16 o 0 = f32_of_bits 0xb2000000) by (rewrite <- (f32_bits_bits (elem_at DT_BF16 o 0)); apply (f_equal f32_of_bits); vm_compute; reflexivity).
    assert (V1 : elem_at DT_BF16 o 128 = f32_of_bits 0) by (rewrite <- (f32_bits_bits (elem_at DT_BF16 o 128)); apply (f_equal f32_of_bits); vm_compute; reflexivity).
    rewrite V0, V1. unfold val; cbn; unfold F2R; cbn; lra.
Qed.
