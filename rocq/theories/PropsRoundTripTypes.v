(** PropsRoundTripTypes.v -- C14, C16 and C23 for every combination of float types: f32 or bf16 data in, f32 or bf16 data out; and the
    round-trip error of stochastic rounding. *)
From Coq Require Import ZArith List Lia Bool Reals Lra Psatz.
From Flocq Require Import Core Binary Bits Relative.
From Verif Require Import Base Floats Simd Dtypes Spec ApiSpec QuantKernels DequantKernels ExecFacts FloatFacts QuantFacts QuantKernelFacts
  QuantGenericFacts DequantFacts DequantGenericFacts QuantLanes Context ContextFacts Footprint QuantizeFacts DequantizeFacts Api PropsQuantize Schedule
  PropsMemory FloatFacts2 PropsDequantize PropsRoundTrip PathSpec PropsPaths RoundTripFacts PropsIdempotent MinMax MinMaxFacts ConfigSpec F64Facts ConfigFacts PropsConfig
  PropsRepresent Bf16Spec Bf16Facts FloatFacts3 PropsDequantBf16.
Import ListNotations.

(** The packed buffer that quantize made, followed by [extra] bytes, is a valid input for dequantize. *)
Lemma packed_buffers nt nt2 din dout dq inm pk p extra outm :
  buffers_ok nt din dq inm pk -> float_type dout -> length p = length pk -> Forall is_byte p -> Forall is_byte extra -> extra <> [] ->
  numel dout (length outm) = numel din (length inm) -> sizes_ok (length outm) (numel dout (length outm)) nt2 ->
  dq_buffers nt2 dq dout (p ++ extra) (length p) outm /\ forall i, i < numel din (length inm) -> code_at dq (p ++ extra) i = code_at dq p i.
Proof.
  intros (Hfp & Hq & Hb & Hl & HS1) Hd HLp Hby He Hne Hn HS2. split.
  - repeat split; auto; try apply HS2.
    + apply Forall_app; auto.
    + rewrite HLp, Hl, Hn. reflexivity.
    + rewrite app_length. lia.
    + intros _ _ _ _. rewrite app_length. destruct extra; [congruence|cbn; lia].
  - intros i Hi. apply code_at_app; auto. rewrite HLp, Hl, codes_per_byte_q, bytes_for_per_byte by auto. destruct Hq as [->|[->| ->]]; cbn [per_byte]; lia.
Qed.

(** ** C14 for bf16 outputs: each element is decoded from the code that quantize computed for the same index. *)
Theorem C14_codes_round_trip_bf16 A A' nt nt' oaddr oaddr' din dq scale scale' zp zp' rm thr inm pk p extra outm r :
  buffers_ok nt din dq inm pk -> good_scale scale ->
  (rm = RM_STOCHASTIC -> threshold thr /\ (Z.abs zp <= 2 ^ 62)%Z) -> (rm = RM_NEAREST -> (Z.abs zp <= 2 ^ 22)%Z) ->
  (forall i, i < numel din (length inm) -> input_ok A rm scale zp thr (elem_at din inm i)) ->
  returns inm pk (quantize_call A nt oaddr din dq scale zp rm thr inm pk) (Ok p) ->
  let n := numel DT_BF16 (length outm) in
  n = numel din (length inm) -> sizes_ok (length outm) n nt' -> Forall is_byte outm ->
  Forall is_byte extra -> extra <> [] -> (Z.abs zp' <= 2 ^ 22)%Z ->
  returns (p ++ extra) outm (dequantize_call A' nt' oaddr' dq DT_BF16 scale' zp' RO_SET (length p) outm) r ->
  exists o, r = Ok o /\ length o = length outm /\
    (forall i, i < n -> let vec := bf16_vector_path A' dq n nt' i in
      bf16_at o i = bf16_convert A' vec (bf16_source dq vec scale' zp' (expected_code rm dq scale zp thr (elem_at din inm i)))) /\
    (avx512 A' = false -> forall i, i < n -> bf16_at o i = bf16_of_f32 (fmul (f32_of_Z (expected_code rm dq scale zp thr (elem_at din inm i) - zp')) scale')).
Proof.
  intros HB Hsc Hst Hnr HI HR n Hn HS' Hob He Hne' Hz' HR'.
  destruct (quantize_codes _ _ _ _ _ _ _ _ _ _ _ _ HB Hsc Hst Hnr HI HR) as (p' & E & HL & Hby & HC). injection E as <-.
  destruct (packed_buffers nt nt' din DT_BF16 dq inm pk p extra outm HB (or_intror eq_refl) HL Hby He Hne' Hn HS') as [HB' HCe].
  destruct (C07_dequantize_set_bf16 _ _ _ _ _ _ _ _ _ _ HB' Hz' Hob HR') as (o & -> & Lo & H1 & H2 & _). fold n in H1, H2.
  exists o. split; auto. split; auto. split.
  - intros i Hi vec. specialize (H1 i Hi). cbv zeta in H1. fold vec in H1. rewrite H1. rewrite HCe by (rewrite <- Hn; auto). rewrite HC by (rewrite <- Hn; auto). reflexivity.
  - intros Ha i Hi. rewrite H2 by auto. rewrite HCe by (rewrite <- Hn; auto). rewrite HC by (rewrite <- Hn; auto). reflexivity.
Qed.

Local Open Scope R_scope.
(** Distance of the stored code from the data, in steps, if the library rounded the scaled value to an integer at most K away. *)
Lemma steps_near d scale zp x k delta K : quant_type d -> normal_scale scale -> 0 < val scale -> (0 <= zp <= code_max d)%Z -> 0 <= delta <= / 4 -> / 2 <= K <= 1 ->
  Rabs (IZR k - scaled (val scale) x) <= K + bpow radix2 (-25) ->
  IZR (0 - zp) - / 2 - delta <= x / val scale <= IZR (code_max d - zp) + / 2 + delta ->
  let m := (clamp 0 (code_max d) (k + zp) - zp)%Z in
  (Z.abs m <= 255)%Z /\ Rabs (IZR m - x / val scale) <= K + delta + / 19000.
Proof.
  intros Hd Hs Hp Hz Hdl HK Hk [L U]. pose proof (code_max_range d Hd) as Hm. pose proof (scaled_rel scale x Hs) as R. intros m0.
  set (c := clamp 0 (code_max d) (k + zp)) in *. assert (Hc : (0 <= c <= code_max d)%Z) by (unfold c, clamp; lia).
  set (m := (c - zp)%Z). change m0 with m. assert (Hm' : (Z.abs m <= 255)%Z) by (unfold m; lia).
  set (t := (x / val scale)) in *. set (y := scaled (val scale) x) in *.
  assert (B1 : (Rabs (IZR (0 - zp)) <= IZR 255)) by (apply abs_IZR_le; lia). apply Rabs_le_inv in B1.
  assert (B2 : (Rabs (IZR (code_max d - zp)) <= IZR 255)) by (apply abs_IZR_le; lia). apply Rabs_le_inv in B2.
  assert (T : (Rabs t <= 256)) by (apply Rabs_le; lra).
  destruct tiny_small as [_ T2]. change (bpow radix2 (-25)) with (/ 33554432) in Hk.
  assert (D : (Rabs (y - t) <= / 20000)).
  { assert (tiny <= bpow radix2 (-20)) by (unfold tiny; apply bpow_le; lia). change (bpow radix2 (-20)) with (/ 1048576) in *. unfold u32r in R. lra. }
  split; auto. apply Rabs_le_inv in Hk. apply Rabs_le_inv in D. apply Rabs_le.
  destruct (Z.le_gt_cases 0 (k + zp)) as [G1|G1]; [destruct (Z.le_gt_cases (k + zp) (code_max d)) as [G2|G2]|].
  - assert (m = k) as -> by (unfold m, c, clamp; lia). lra.
  - assert (Em : m = (code_max d - zp)%Z) by (unfold m, c, clamp; lia). rewrite Em in *.
    assert (IZR (code_max d - zp) + 1 <= IZR k) by (rewrite <- plus_IZR; apply IZR_le; lia). lra.
  - assert (Em : m = (0 - zp)%Z) by (unfold m, c, clamp; lia). rewrite Em in *.
    assert (IZR k <= IZR (0 - zp) - 1) by (rewrite <- minus_IZR; apply IZR_le; lia). lra.
Qed.

Lemma stoch_error thr y : 0 <= thr -> Rabs (IZR (stoch_round thr y) - y) <= 1.
Proof.
  intros Ht. unfold stoch_round. pose proof (Zfloor_lb (Rabs y)) as L. pose proof (Zfloor_ub (Rabs y)) as U.
  set (n := Zfloor (Rabs y)) in *. assert (G : forall n' : Z, n' = n \/ n' = (n + 1)%Z -> Rabs (IZR (if Rlt_bool y 0 then - n' else n')%Z - y) <= 1).
  { intros n' H. assert (IZR n' = IZR n \/ IZR n' = IZR n + 1) as H' by (destruct H as [->| ->]; [auto|right; rewrite plus_IZR; reflexivity]).
    destruct (Rlt_bool_spec y 0) as [N|N].
    - rewrite opp_IZR. rewrite (Rabs_left y) in * by auto. apply Rabs_le. lra.
    - rewrite (Rabs_pos_eq y) in * by auto. apply Rabs_le. lra. }
  destruct (Rlt_bool thr (Rabs y - IZR n)); apply G; auto.
Qed.

(** How far the code stored for an element is from the scaled value: half a step for nearest rounding (every path), one step for stochastic. *)
Definition code_error (rm : round_mode_t) : R := match rm with RM_NEAREST => / 2 | RM_STOCHASTIC => 1 end.
Lemma quantize_near_rm A nt oaddr din dout scale zp rm thr inm outm r :
  buffers_ok nt din dout inm outm -> good_scale scale -> (Z.abs zp <= 2 ^ 22)%Z -> (rm = RM_STOCHASTIC -> threshold thr) ->
  let n := numel din (length inm) in
  (forall i, (i < n)%nat -> quantizable scale (elem_at din inm i)) ->
  returns inm outm (quantize_call A nt oaddr din dout scale zp rm thr inm outm) r ->
  exists o, r = Ok o /\ length o = length outm /\ Forall is_byte o /\
    forall i, (i < n)%nat -> exists k, code_at dout o i = clamp 0 (code_max dout) (k + zp) /\
      Rabs (IZR k - scaled (val scale) (val (elem_at din inm i))) <= code_error rm + bpow radix2 (-25).
Proof.
  intros HB Hsc Hz Ht n HI HR. destruct rm.
  - apply (quantize_near A nt oaddr din dout scale zp thr inm outm r HB Hsc Hz HI HR).
  - destruct (quantize_codes A nt oaddr din dout scale zp RM_STOCHASTIC thr inm outm r HB Hsc) as (o & -> & L & Hby & HC); auto.
    + intros _. split; auto. lia.
    + intros i Hi. cbn [input_ok]. specialize (HI i Hi). specialize (Ht eq_refl). unfold input_ok. intuition lia.
    + exists o. split; auto. split; auto. split; auto. intros i Hi. exists (stoch_round (val thr) (scaled (val scale) (val (elem_at din inm i)))).
      rewrite HC by auto. split; [reflexivity|]. pose proof (bpow_gt_0 radix2 (-25)). cbn [code_error].
      pose proof (stoch_error (val thr) (scaled (val scale) (val (elem_at din inm i))) (proj1 (proj2 (Ht eq_refl)))). lra.
Qed.

(** The scales for which dequantization is accurate: f32 output needs no subnormal scale, bf16 output a little more room. *)
Definition out_scale (dout : dtype) (scale : f32) : Prop := match dout with DT_BF16 => bf16_scale scale | _ => normal_scale scale end.
Lemma out_scale_normal dout s : out_scale dout s -> normal_scale s.
Proof. destruct dout; cbn [out_scale]; auto. apply bf16_scale_normal. Qed.
(** Error allowed for storing a value of magnitude a: none beyond f32 rounding, or half an ulp of bf16. *)
Definition store_error (dout : dtype) (a : R) : R := match dout with DT_BF16 => / 256 * a | _ => 0 end.

Lemma round_trip_types A nt oaddr A2 nt2 oaddr2 din dout dq scale zp rm thr inm pk p extra outm r delta :
  let n := numel dout (length outm) in
  buffers_ok nt din dq inm pk -> float_type dout -> numel din (length inm) = n -> sizes_ok (length outm) n nt2 -> Forall is_byte outm ->
  out_scale dout scale -> 0 < val scale ->
  (0 <= zp <= code_max dq)%Z -> (rm = RM_STOCHASTIC -> threshold thr) -> Forall is_byte extra -> extra <> [] -> 0 <= delta <= / 4 ->
  (forall i, (i < n)%nat -> quantizable scale (elem_at din inm i)) ->
  returns inm pk (quantize_call A nt oaddr din dq scale zp rm thr inm pk) (Ok p) ->
  returns (p ++ extra) outm (dequantize_call A2 nt2 oaddr2 dq dout scale zp RO_SET (length p) outm) r ->
  exists o, r = Ok o /\ length o = length outm /\
    forall i, (i < n)%nat -> let x := val (elem_at din inm i) in
      IZR (0 - zp) - / 2 - delta <= x / val scale <= IZR (code_max dq - zp) + / 2 + delta ->
      finite (elem_at dout o i) /\
      Rabs (val (elem_at dout o i) - x) <= val scale * (code_error rm + delta + store_error dout (Rabs x / val scale + 2) + bpow radix2 (-12)).
Proof.
  intros n HB Hdo Hn HS2 Hob Hs Hp Hz Ht He Hne Hdl HI HQ HD. pose proof HB as (Hfp & Hq & Hb & Hl & HS1). pose proof (code_max_range dq Hq) as Hm.
  pose proof (out_scale_normal _ _ Hs) as Hsn.
  assert (Hz22 : (Z.abs zp <= 2 ^ 22)%Z) by (clear - Hz Hm; lia). assert (Hz30 : (Z.abs zp <= 2 ^ 30)%Z) by (clear - Hz Hm; lia).
  destruct (quantize_near_rm A nt oaddr din dq scale zp rm thr inm pk (Ok p) HB (normal_good _ Hsn) Hz22 Ht) as (p' & E & HLp & Hby & HC); auto.
  { rewrite Hn. auto. }
  injection E as <-. rewrite Hn in HC.
  destruct (packed_buffers nt nt2 din dout dq inm pk p extra outm HB Hdo HLp Hby He Hne ltac:(rewrite Hn; reflexivity) HS2) as [HB' HCe]. rewrite Hn in HCe.
  assert (HK : / 2 <= code_error rm <= 1) by (destruct rm; cbn; lra).
  (* the decoded value of code c *)
  assert (DEC : exists o, r = Ok o /\ length o = length outm /\ forall i, (i < n)%nat ->
     let m := (code_at dq (p ++ extra) i - zp)%Z in
     finite (elem_at dout o i) /\ Rabs (val (elem_at dout o i) / val scale - IZR m) <= store_error dout (Rabs (IZR m)) + / 7000).
  { clear HI HQ HC Hdl Ht HK. destruct Hdo as [-> | ->].
    - destruct (C07_dequantize_set_f32 _ _ _ _ _ _ _ _ _ _ HB' Hz30 HD) as (o & -> & HLo & HE & _ & _). fold n in HE.
      exists o. split; auto. split; auto. intros i Hi m. cbn [elem_at]. rewrite HE by auto. set (c := code_at dq (p ++ extra) i) in *.
      pose proof (code_at_le dq (p ++ extra) i Hq) as Hc. fold c in Hc.
      assert (Hm' : (Z.abs m <= 255)%Z) by (unfold m; lia).
      destruct (dequant_value_ok scale zp c Hsn ltac:(fold m; lia)) as [F V]. unfold dequant_value in F, V. split; auto. rewrite V. fold m.
      pose proof (product_near scale m Hsn) as P. cbn [store_error].
      assert (B3 : (Rabs (IZR m) <= IZR 255)) by (apply abs_IZR_le; lia). destruct tiny_small as [_ T2].
      assert (tiny <= bpow radix2 (-20)) by (unfold tiny; apply bpow_le; lia). change (bpow radix2 (-20)) with (/ 1048576) in *. unfold u32r in P. lra.
    - destruct (C07_bf16_accuracy _ _ _ _ _ _ _ _ _ _ HB' Hz Hs Hob HD) as (o & -> & HE). fold n in HE.
      destruct (C07_dequantize_set_bf16 _ _ _ _ _ _ _ _ _ _ HB' Hz22 Hob HD) as (o' & Eo & HLo & _). injection Eo as <-.
      exists o. split; auto. split; auto. intros i Hi m. destruct (HE i Hi) as [F N]. split; auto. fold m in N.
      set (w := val (elem_at DT_BF16 o i)) in *. cbn [store_error].
      rewrite (Rabs_mult (IZR m)), (Rabs_pos_eq (val scale)) in N by lra.
      replace (w - IZR m * val scale) with ((w / val scale - IZR m) * val scale) in N by (field; lra).
      rewrite Rabs_mult, (Rabs_pos_eq (val scale)) in N by lra.
      replace (/ 256 * (Rabs (IZR m) * val scale) + bpow radix2 (-13) * val scale) with ((/ 256 * Rabs (IZR m) + bpow radix2 (-13)) * val scale) in N by ring.
      apply Rmult_le_reg_r in N; auto. change (bpow radix2 (-13)) with (/ 8192) in N. lra. }
  destruct DEC as (o & -> & HLo & DEC). exists o. split; auto. split; auto. intros i Hi x Hx. destruct (DEC i Hi) as [F V]. split; auto.
  destruct (HC i Hi) as (k & C & K). rewrite HCe, C in V by auto.
  destruct (steps_near dq scale zp x k delta (code_error rm) Hq Hsn Hp Hz Hdl HK K Hx) as [M1 M2].
  set (m := (clamp 0 (code_max dq) (k + zp) - zp)%Z) in *. set (w := val (elem_at dout o i)) in *. cbv zeta in V.
  replace (w - x) with (val scale * ((w / val scale - IZR m) + (IZR m - x / val scale))) by (field; lra).
  rewrite Rabs_mult, (Rabs_pos_eq (val scale)) by lra. apply Rmult_le_compat_l; [lra|]. eapply Rle_trans; [apply Rabs_triang|].
  assert (SM : store_error dout (Rabs (IZR m)) <= store_error dout (Rabs x / val scale + 2)).
  { destruct Hdo as [-> | ->]; cbn [store_error]; [lra|]. apply Rmult_le_compat_l; [lra|].
    assert (E2 : Rabs (x / val scale) = Rabs x / val scale).
    { unfold Rdiv. rewrite Rabs_mult, Rabs_inv by lra. rewrite (Rabs_pos_eq (val scale)) by lra. reflexivity. }
    pose proof (Rabs_triang (IZR m - x / val scale) (x / val scale)) as TT. replace (IZR m - x / val scale + x / val scale) with (IZR m) in TT by ring. lra. }
  change (bpow radix2 (-12)) with (/ 4096). lra.
Qed.

(** ** C16 for every combination of types, both rounding modes, every path of every kernel set.  A value inside the representable range comes back
    within half a step (nearest) or one step (stochastic), plus, for bf16 output, half a bf16 ulp of the result; tolerance 2^-12 of a step. *)
Theorem C16_all_types A nt oaddr A2 nt2 oaddr2 din dout dq scale zp rm thr inm pk p extra outm r :
  let n := numel dout (length outm) in
  buffers_ok nt din dq inm pk -> float_type dout -> numel din (length inm) = n -> sizes_ok (length outm) n nt2 -> Forall is_byte outm ->
  out_scale dout scale -> 0 < val scale -> (0 <= zp <= code_max dq)%Z -> (rm = RM_STOCHASTIC -> threshold thr) -> Forall is_byte extra -> extra <> [] ->
  (forall i, (i < n)%nat -> quantizable scale (elem_at din inm i)) ->
  returns inm pk (quantize_call A nt oaddr din dq scale zp rm thr inm pk) (Ok p) ->
  returns (p ++ extra) outm (dequantize_call A2 nt2 oaddr2 dq dout scale zp RO_SET (length p) outm) r ->
  exists o, r = Ok o /\ length o = length outm /\
    forall i, (i < n)%nat -> let x := val (elem_at din inm i) in
      IZR (0 - zp) * val scale <= x <= IZR (code_max dq - zp) * val scale ->
      finite (elem_at dout o i) /\
      Rabs (val (elem_at dout o i) - x) <=
        val scale * (match rm with RM_NEAREST => / 2 | RM_STOCHASTIC => 1 end + bpow radix2 (-12)) +
        match dout with DT_BF16 => / 256 * (Rabs x + 2 * val scale) | _ => 0 end.
Proof.
  intros n HB Hdo Hn HS2 Hob Hs Hp Hz Ht He Hne HI HQ HD.
  destruct (round_trip_types A nt oaddr A2 nt2 oaddr2 din dout dq scale zp rm thr inm pk p extra outm r 0 HB Hdo Hn HS2 Hob Hs Hp Hz Ht He Hne ltac:(lra) HI HQ HD) as (o & -> & HLo & H).
  exists o. split; auto. split; auto. intros i Hi x [L U]. specialize (H i Hi). cbv zeta in H. fold x in H. destruct H as [F H].
  { assert (IZR (0 - zp) <= x / val scale <= IZR (code_max dq - zp)); [|lra].
    split; apply Rmult_le_reg_r with (val scale); auto; replace (x / val scale * val scale) with x by (field; lra); auto. }
  split; auto. eapply Rle_trans; [exact H|]. apply Req_le. destruct Hdo as [-> | ->]; cbn [store_error code_error]; destruct rm; cbn [code_error]; field; lra.
Qed.

(** ** C23 for every combination of types and both rounding modes. *)
Theorem C23_all_types a blocks A nt oaddr A2 nt2 oaddr2 din dout dq scale zp rm thr inm pk p extra outm r lo hi :
  let n := numel dout (length outm) in
  a <> SSE42 -> finite_data din inm n -> block_cover n blocks ->
  data_range din inm n lo hi -> lo <= 0 <= hi -> bpow radix2 (-112) <= hi - lo <= bpow radix2 100 ->
  compute_quant_config_from_data a din dq inm blocks = Ok (scale, zp) ->
  buffers_ok nt din dq inm pk -> float_type dout -> numel din (length inm) = n -> sizes_ok (length outm) n nt2 -> Forall is_byte outm ->
  (rm = RM_STOCHASTIC -> threshold thr) -> Forall is_byte extra -> extra <> [] ->
  returns inm pk (quantize_call A nt oaddr din dq scale zp rm thr inm pk) (Ok p) ->
  returns (p ++ extra) outm (dequantize_call A2 nt2 oaddr2 dq dout scale zp RO_SET (length p) outm) r ->
  exists o, r = Ok o /\ length o = length outm /\
    forall i, (i < n)%nat -> let x := val (elem_at din inm i) in
      finite (elem_at dout o i) /\
      Rabs (val (elem_at dout o i) - x) <=
        val scale * (match rm with RM_NEAREST => / 2 | RM_STOCHASTIC => 1 end + bpow radix2 (-11)) +
        match dout with DT_BF16 => / 256 * (Rabs x + 2 * val scale) | _ => 0 end.
Proof.
  intros n Ha HD HBl HR H0 HB EC HBu Hdo Hn HS2 Hob Ht He Hne HQ HDq. pose proof HBu as (Hfp & Hq & _). pose proof (bpow_gt_0 radix2 (-112)) as P0.
  assert (H : lo < hi) by lra.
  assert (HB' : bpow radix2 (-118) <= hi - lo <= bpow radix2 100) by (assert (bpow radix2 (-118) <= bpow radix2 (-112)) by (apply bpow_le; lia); lra).
  destruct (C21_documented_parameters a din dq inm n blocks lo hi Ha Hfp Hq HD HBl HR H) as (s & E & Fs & Vs).
  rewrite EC in E. injection E as <- ->.
  assert (I1 : in32 lo) by (destruct HR as ((i & Hi & <-) & _); apply in32_val, HD; auto).
  assert (I2 : in32 hi) by (destruct HR as (_ & (i & Hi & <-) & _); apply in32_val, HD; auto).
  destruct (config_scale_rel dq lo hi Hq I1 I2 HB') as (e & Hee & Es & Bs1 & Bs2).
  destruct (config_zp_near dq lo hi Hq I1 I2 H H0) as (T & Z & N). pose proof (bpow_gt_0 radix2 (-126)) as P1.
  destruct (step_bounds dq lo hi Hq I1 I2 H) as (d & Hd & Ed & _). pose proof (code_max_R dq Hq) as Q.
  assert (Hs : out_scale dout scale).
  { assert (Ns : normal_scale scale) by (split; auto; rewrite Vs; rewrite Rabs_pos_eq; lra). destruct Hdo as [-> | ->]; cbn [out_scale]; auto.
    split; auto. rewrite Vs, Rabs_pos_eq by lra. split; auto. rewrite Es, Ed. set (w := (hi - lo) / IZR (code_max dq)).
    assert (W : bpow radix2 (-112) / 255 <= w).
    { unfold w, Rdiv. apply Rmult_le_compat; [lra|lra|lra|]. apply Rinv_le; lra. }
    replace (bpow radix2 (-120)) with (bpow radix2 (-112) / 256) by (change (-120)%Z with (-112 + -8)%Z; rewrite bpow_plus; reflexivity).
    assert (D1 : 255 / 256 <= (1 + d) * (1 + e)).
    { apply Rabs_le_inv in Hd. apply Rabs_le_inv in Hee. unfold u64r, u32r in *. nra. }
    rewrite Rmult_assoc. apply Rle_trans with (bpow radix2 (-112) / 255 * (255 / 256)); [lra|]. apply Rmult_le_compat; lra. }
  pose proof (out_scale_normal _ _ Hs) as Hsn.
  assert (Hp : 0 < val scale) by lra.
  assert (FIT : forall i, (i < n)%nat -> IZR (0 - config_zp dq lo hi) - / 2 - / 8192 <= val (elem_at din inm i) / val scale <= IZR (code_max dq - config_zp dq lo hi) + / 2 + / 8192).
  { intros i Hi. rewrite Vs. apply config_fits; auto. destruct HR as (_ & _ & HR). apply (HR i Hi). }
  assert (H30 : forall i, (i < n)%nat -> quantizable scale (elem_at din inm i)).
  { intros i Hi. split; [apply HD; auto|]. specialize (FIT i Hi). pose proof (scaled_rel scale (val (elem_at din inm i)) Hsn) as SR. set (t := val (elem_at din inm i) / val scale) in *.
    pose proof (code_max_range dq Hq) as Hm. 
    assert (B1 : (Rabs (IZR (0 - config_zp dq lo hi)) <= IZR 255)) by (apply abs_IZR_le; lia). apply Rabs_le_inv in B1.
    assert (B2 : (Rabs (IZR (code_max dq - config_zp dq lo hi)) <= IZR 255)) by (apply abs_IZR_le; lia). apply Rabs_le_inv in B2.
    assert (Tt : Rabs t <= 256) by (apply Rabs_le; lra). destruct tiny_small as [_ T2]. set (y := scaled _ _) in *.
    assert (D : Rabs (y - t) <= 1) by (unfold u32r in SR; lra). apply Rabs_le_inv in Tt. apply Rabs_le_inv in D.
    apply Rle_lt_trans with 300; [apply Rabs_le; lra|]. change (bpow radix2 30) with 1073741824. lra. }
  destruct (round_trip_types A nt oaddr A2 nt2 oaddr2 din dout dq scale (config_zp dq lo hi) rm thr inm pk p extra outm r (/ 8192) HBu Hdo Hn HS2 Hob Hs Hp Z Ht He Hne ltac:(lra) H30 HQ HDq) as (o & -> & HLo & HO).
  exists o. split; auto. split; auto. intros i Hi x. specialize (HO i Hi). cbv zeta in HO. fold x in HO. destruct HO as [F HO]; [apply FIT; auto|]. split; auto.
  eapply Rle_trans; [exact HO|]. set (K := match rm with RM_NEAREST => / 2 | RM_STOCHASTIC => 1 end). replace (code_error rm) with K by (destruct rm; reflexivity).
  change (bpow radix2 (-12)) with (/ 4096). change (bpow radix2 (-11)) with (/ 2048).
  assert (G : val scale * (K + / 8192 + / 4096) <= val scale * (K + / 2048)) by (apply Rmult_le_compat_l; lra).
  destruct Hdo as [-> | ->]; cbn [store_error]; [replace (val scale * (K + / 8192 + 0 + / 4096)) with (val scale * (K + / 8192 + / 4096)) by ring; lra|].
  replace (val scale * (K + / 8192 + / 256 * (Rabs x / val scale + 2) + / 4096)) with (val scale * (K + / 8192 + / 4096) + / 256 * (Rabs x + 2 * val scale)) by (field; lra). lra.
Qed.
