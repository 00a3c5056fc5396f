(** PropsConstant.v -- C54 for both output types and both rounding modes: the round trip of constant data with the computed parameters. *)
From Coq Require Import ZArith List Lia Bool Arith ZifyBool ZifyNat Reals Lra.
From Flocq Require Import Core Binary Bits.
From Verif Require Import Base Floats Simd Dtypes Spec ApiSpec FloatFacts FloatFacts2 FloatFacts3 QuantLanes Context Api PropsQuantize PropsDequantize PropsRoundTrip
  Bf16Spec Bf16Facts MinMax ConfigSpec ConfigFacts PropsConfig PropsDequantBf16 PropsRoundTripTypes PropsStochastic PropsBadScale PropsRng PropsNaive.
Import ListNotations.
Local Open Scope R_scope.

Lemma one_product k : (Z.abs k <= 255)%Z -> finite (fmul (f32_of_Z k) f_one) /\ val (fmul (f32_of_Z k) f_one) = IZR k.
Proof.
  intros Hk. destruct (f32_of_Z_exact k ltac:(lia)) as [Fb Vb]. destruct f_one_ok as [Fo Vo].
  assert (Rb : RN32 (IZR k * 1) = IZR k) by (rewrite Rmult_1_r; apply RN32_fmt, fmt32_int; lia).
  assert (Ba : Rabs (IZR k) <= 255) by (rewrite <- abs_IZR; apply (IZR_le _ 255), Hk).
  destruct (fmul_ok (f32_of_Z k) f_one Fb Fo) as [F V]; rewrite Vb, Vo, Rb in *; auto.
  apply Rle_lt_trans with (1 := Ba). unfold max32. apply Rlt_trans with (bpow radix2 8); [change (bpow radix2 8) with 256; lra|apply bpow_lt; lia].
Qed.
Lemma one_source d vec zp q : (0 <= zp <= 255)%Z -> (0 <= q <= 255)%Z ->
  finite (bf16_source d vec f_one zp q) /\ val (bf16_source d vec f_one zp q) = IZR (q - zp).
Proof.
  intros Hz Hq.
  assert (D : finite (dequant_value f_one zp q) /\ val (dequant_value f_one zp q) = IZR (q - zp)) by (apply one_product; lia).
  assert (G : finite (fma_value f_one zp q) /\ val (fma_value f_one zp q) = IZR (q - zp)).
  { unfold fma_value. destruct (f32_of_Z_exact q ltac:(lia)) as [Fq Vq]. destruct (f32_of_Z_exact zp ltac:(lia)) as [Fz Vz]. destruct f_one_ok as [Fo Vo].
    assert (Fn : finite (b32_opp (f32_of_Z zp)) /\ val (b32_opp (f32_of_Z zp)) = IZR (- zp)).
    { unfold finite, val, b32_opp. rewrite is_finite_Bopp, B2R_Bopp. split; [exact Fz|]. unfold val in Vz. rewrite Vz, opp_IZR. reflexivity. }
    destruct Fn as [Fn Vn].
    assert (Big : forall k, (Z.abs k <= 255)%Z -> RN32 (IZR k) = IZR k /\ Rabs (RN32 (IZR k)) < max32).
    { intros k Hk. assert (E : RN32 (IZR k) = IZR k) by (apply RN32_fmt, fmt32_int; lia). split; auto. rewrite E.
      assert (Rabs (IZR k) <= 255) by (rewrite <- abs_IZR; apply (IZR_le _ 255), Hk).
      unfold max32. apply Rlt_trans with (bpow radix2 8); [change (bpow radix2 8) with 256; lra|apply bpow_lt; lia]. }
    destruct (Big (- zp)%Z ltac:(lia)) as [E1 L1]. destruct (Big (q - zp)%Z ltac:(lia)) as [E2 L2].
    destruct (fmul_ok (b32_opp (f32_of_Z zp)) f_one Fn Fo) as [Fb Vb]; rewrite Vn, Vo, Rmult_1_r in *; auto. rewrite E1 in Vb.
    assert (X : val (f32_of_Z q) * val f_one + val (fmul (b32_opp (f32_of_Z zp)) f_one) = IZR (q - zp)) by (rewrite Vq, Vo, Vb, opp_IZR, minus_IZR; ring).
    destruct (ffma_ok (f32_of_Z q) f_one (fmul (b32_opp (f32_of_Z zp)) f_one) Fq Fo Fb) as [F V]; rewrite X in *; auto. rewrite V. auto. }
  unfold bf16_source. destruct d; try exact D; destruct vec; auto.
Qed.
Lemma bf16_int k : (Z.abs k <= 255)%Z -> RN16 (IZR k) = IZR k.
Proof.
  intros Hk. apply round_generic; auto with typeclass_instances.
  replace (IZR k) with (F2R (Float radix2 k 0)) by (unfold F2R; cbn; ring).
  apply generic_format_FLT. exists (Float radix2 k 0); [reflexivity| |cbn; lia]. cbn [Fnum]. change (radix2 ^ 8)%Z with 256%Z. lia.
Qed.
Lemma one_bf16 A d vec zp q : (0 <= zp <= 255)%Z -> (0 <= q <= 255)%Z ->
  let w := bf16_to_f32 (bf16_convert A vec (bf16_source d vec f_one zp q)) in finite w /\ val w = IZR (q - zp).
Proof.
  intros Hz Hq w. destruct (one_source d vec zp q Hz Hq) as [F V].
  assert (Ba : Rabs (IZR (q - zp)) <= 255) by (rewrite <- abs_IZR; apply (IZR_le _ 255); lia).
  destruct (convert_ok A vec _ F) as [Fw [Vw|[Sv Vw]]].
  - rewrite V. apply Rle_trans with (bpow radix2 8); [change (bpow radix2 8) with 256; lra|apply bpow_le; lia].
  - split; auto. fold w in Vw. rewrite Vw, V. apply bf16_int. lia.
  - split; auto. fold w in Vw. rewrite Vw. rewrite V, <- abs_IZR in Sv.
    assert (B1 : bpow radix2 (-126) < bpow radix2 0) by (apply bpow_lt; lia). change (bpow radix2 0) with 1 in B1.
    assert (K : IZR (Z.abs (q - zp)) < 1) by lra. apply lt_IZR in K. replace (q - zp)%Z with 0%Z by lia. reflexivity.
Qed.

(** ** C54, both output types and both rounding modes.  All elements of the result are the same integer: t clipped to the codes' range,
    where t is c rounded half away from zero (nearest), or one of the two integers next to c, and c itself if it is one (stochastic). *)
Theorem C54_constant_all_types a blocks A nt oaddr A2 nt2 oaddr2 din dout dq scale zp rm thr inm pk p extra outm r c :
  let n := numel dout (length outm) in
  finite_data din inm n -> (0 < n)%nat -> block_cover n blocks -> (forall i, (i < n)%nat -> val (elem_at din inm i) = c) ->
  Rabs c < bpow radix2 30 -> (rm = RM_NEAREST -> Rabs c <> pred_half) -> (rm = RM_STOCHASTIC -> threshold thr) ->
  compute_quant_config_from_data a din dq inm blocks = Ok (scale, zp) ->
  buffers_ok nt din dq inm pk -> float_type dout -> numel din (length inm) = n -> sizes_ok (length outm) n nt2 -> Forall is_byte outm ->
  Forall is_byte extra -> extra <> [] ->
  returns inm pk (quantize_call A nt oaddr din dq scale zp rm thr inm pk) (Ok p) ->
  returns (p ++ extra) outm (dequantize_call A2 nt2 oaddr2 dq dout scale zp RO_SET (length p) outm) r ->
  zp = (code_max dq / 2)%Z /\ val scale = 1 /\
  exists o t, r = Ok o /\ length o = length outm /\
    match rm with
    | RM_NEAREST => t = round_half_away c
    | RM_STOCHASTIC => (t = Zfloor c \/ t = Zceil c) /\ Rabs (IZR t - c) <= 1
    end /\
    (forall i, (i < n)%nat -> finite (elem_at dout o i) /\ val (elem_at dout o i) = IZR (clamp (- zp) (code_max dq - zp) t)) /\
    (* integers of the range come back exactly *)
    (forall k i, c = IZR k -> (- zp <= k <= code_max dq - zp)%Z -> (i < n)%nat -> val (elem_at dout o i) = c).
Proof.
  intros n HD Hn HBl HC Hc Hp Ht EC HBu Hfo Hnn HS2 Hob He Hne HQ HDq. pose proof HBu as (Hfp & Hq & _).
  rewrite (C24_constant a din dq inm n blocks c Hfp Hq HD Hn HBl HC) in EC. injection EC as <- <-.
  assert (M : mid_code dq = (code_max dq / 2)%Z) by (destruct Hq as [->|[->| ->]]; reflexivity).
  split; auto. split; [apply f_one_ok|].
  pose proof (code_max_range dq Hq) as Hm. set (z := mid_code dq) in *. assert (Hz : (0 <= z <= 127)%Z) by (rewrite M; lia).
  assert (F : fmt32 c) by (rewrite <- (HC 0%nat Hn); apply val_fmt).
  assert (Sc : forall i, (i < n)%nat -> scaled (val f_one) (val (elem_at din inm i)) = c).
  { intros i Hi. unfold scaled. rewrite (HC i Hi). apply one_scaled. exact F. }
  assert (HI : forall i, (i < numel din (length inm))%nat -> input_ok A rm f_one z thr (elem_at din inm i)).
  { rewrite Hnn. intros i Hi.
    assert (Q : quantizable f_one (elem_at din inm i)) by (split; [apply HD; auto|rewrite Sc by auto; exact Hc]).
    unfold input_ok. destruct rm; [|split; [exact Q|split; [apply Ht; reflexivity|lia]]]. split; [|lia]. split; auto. intros _. rewrite Sc by auto. apply Hp. reflexivity. }
  set (t := match rm with RM_NEAREST => round_half_away c | RM_STOCHASTIC => stoch_round (val thr) c end).
  assert (EX : forall i, (i < n)%nat -> expected_code rm dq f_one z thr (elem_at din inm i) = clamp 0 (code_max dq) (t + z)).
  { intros i Hi. unfold t. destruct rm; cbn [expected_code]; [unfold quant_code|unfold stoch_code]; rewrite Sc by auto; reflexivity. }
  set (q := clamp 0 (code_max dq) (t + z)) in *. assert (Hqr : (0 <= q <= code_max dq)%Z) by (unfold q, clamp; lia).
  assert (BK : (q - z = clamp (- z) (code_max dq - z) t)%Z) by (unfold q, clamp; lia).
  assert (HO : exists o, r = Ok o /\ length o = length outm /\ forall i, (i < n)%nat -> finite (elem_at dout o i) /\ val (elem_at dout o i) = IZR (q - z)).
  { assert (HST : rm = RM_STOCHASTIC -> threshold thr /\ (Z.abs z <= 2 ^ 62)%Z) by (intros E; split; [auto|lia]).
    assert (HNE : rm = RM_NEAREST -> (Z.abs z <= 2 ^ 22)%Z) by (intros _; lia).
    destruct Hfo as [->| ->].
    - assert (Z30 : (Z.abs z <= 2 ^ 30)%Z) by lia.
      destruct (C14_codes_round_trip A A2 nt nt2 oaddr oaddr2 din dq f_one f_one z z rm thr inm pk p extra outm r HBu one_is_good HST HNE HI HQ (eq_sym Hnn) HS2 He Hne Z30 HDq) as (o & -> & HL & HO).
      rewrite Hnn in HO. exists o. split; auto. split; auto. intros i Hi. cbn [elem_at]. rewrite HO by auto. rewrite EX by auto. apply one_product. lia.
    - assert (Z22 : (Z.abs z <= 2 ^ 22)%Z) by lia.
      destruct (C14_codes_round_trip_bf16 A A2 nt nt2 oaddr oaddr2 din dq f_one f_one z z rm thr inm pk p extra outm r HBu one_is_good HST HNE HI HQ (eq_sym Hnn) HS2 Hob He Hne Z22 HDq) as (o & -> & HL & HO & _).
      exists o. split; auto. split; auto. intros i Hi. cbn [elem_at]. change (f32_of_bits (bf16_at o i * 65536)) with (bf16_to_f32 (bf16_at o i)).
      specialize (HO i Hi). cbv zeta in HO. rewrite HO, EX by auto. apply one_bf16; lia. }
  destruct HO as (o & -> & HL & HO). exists o, t. split; auto. split; auto. split; [|split].
  - unfold t. destruct rm; auto. pose proof (proj1 (proj2 (Ht eq_refl))) as T0. split; [|apply stoch_error; exact T0].
    pose proof (stoch_between (val thr) c T0) as SB. assert (ZC : (Zceil c <= Zfloor c + 1)%Z).
    { apply Zceil_glb. rewrite plus_IZR. pose proof (Zfloor_ub c). lra. }
    lia.
  - intros i Hi. rewrite <- BK. auto.
  - intros k i -> Hk Hi. destruct (HO i Hi) as [_ ->]. rewrite BK. f_equal.
    assert (TK : t = k) by (unfold t; destruct rm; [apply rha_IZR|apply stoch_round_int; apply (Ht eq_refl)]). rewrite TK. unfold clamp. lia.
Qed.
