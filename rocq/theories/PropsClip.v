(** PropsClip.v -- C72: data outside the representable range are clipped to it and nothing else happens to them; parameters computed from one
    tensor (calibration) used on another. *)
From Coq Require Import ZArith List Lia Bool Arith ZifyBool ZifyNat Reals Lra Psatz.
From Flocq Require Import Core Binary Bits.
From Verif Require Import Base Floats Simd Dtypes Spec ApiSpec QuantKernels DequantKernels ExecFacts FloatFacts QuantFacts QuantKernelFacts
  QuantGenericFacts DequantFacts DequantGenericFacts QuantLanes Context ContextFacts Footprint QuantizeFacts DequantizeFacts Api PropsQuantize Schedule
  PropsMemory FloatFacts2 PropsDequantize PropsRoundTrip RoundTripFacts PropsIdempotent MinMax MinMaxFacts ConfigSpec F64Facts ConfigFacts PropsConfig PropsRepresent
  Bf16Spec Bf16Facts FloatFacts3 PropsDequantBf16 PropsRoundTripTypes.
Import ListNotations.

Local Open Scope R_scope.
(** distance of [x] from the interval [lo, hi] *)
Definition outside (lo hi x : R) : R := Rmax 0 (Rmax (lo - x) (x - hi)).
Lemma outside_ge lo hi x : 0 <= outside lo hi x /\ lo - x <= outside lo hi x /\ x - hi <= outside lo hi x.
Proof.
  unfold outside. pose proof (Rmax_l 0 (Rmax (lo - x) (x - hi))). pose proof (Rmax_r 0 (Rmax (lo - x) (x - hi))).
  pose proof (Rmax_l (lo - x) (x - hi)). pose proof (Rmax_r (lo - x) (x - hi)). lra.
Qed.
Lemma outside_le lo hi x b : 0 <= b -> lo - x <= b -> x - hi <= b -> outside lo hi x <= b.
Proof. intros H1 H2 H3. unfold outside. apply Rmax_lub; [exact H1|]. apply Rmax_lub; assumption. Qed.

(** how far the clamped code is from the scaled value, whatever the value *)
Lemma steps_out d scale zp x k K : quant_type d -> normal_scale scale -> 0 < val scale -> (0 <= zp <= code_max d)%Z -> / 2 <= K <= 1 ->
  Rabs (IZR k - scaled (val scale) x) <= K + bpow radix2 (-25) ->
  let t := x / val scale in
  let m := (clamp 0 (code_max d) (k + zp) - zp)%Z in
  (Z.abs m <= 255)%Z /\ Rabs (IZR m - t) <= K + / 8000 + outside (IZR (0 - zp) - / 2) (IZR (code_max d - zp) + / 2) t /\ Rabs (IZR m) <= Rabs t + 2.
Proof.
  intros Hd Hs Hp Hz HK Hk. pose proof (code_max_range d Hd) as Hm. pose proof (scaled_rel scale x Hs) as R. cbv zeta.
  set (c := clamp 0 (code_max d) (k + zp)) in *. assert (Hc : (0 <= c <= code_max d)%Z) by (unfold c, clamp; lia).
  set (m := (c - zp)%Z). assert (Hm' : (Z.abs m <= 255)%Z) by (unfold m; lia).
  set (t := (x / val scale)) in *. set (y := scaled (val scale) x) in *.
  assert (B1 : (Rabs (IZR (0 - zp)) <= IZR 255)) by (apply abs_IZR_le; lia). apply Rabs_le_inv in B1.
  assert (B2 : (Rabs (IZR (code_max d - zp)) <= IZR 255)) by (apply abs_IZR_le; lia). apply Rabs_le_inv in B2.
  assert (B3 : IZR (0 - zp) <= 0) by (apply (IZR_le _ 0); lia). assert (B4 : 0 <= IZR (code_max d - zp)) by (apply (IZR_le 0); lia).
  destruct (outside_ge (IZR (0 - zp) - / 2) (IZR (code_max d - zp) + / 2) t) as (O1 & O2 & O3). set (D := outside _ _ t) in *. clearbody D.
  destruct tiny_small as [_ T2]. change (bpow radix2 (-25)) with (/ 33554432) in Hk. apply Rabs_le_inv in Hk.
  assert (T3 : tiny <= / 1048576) by (unfold tiny; change (/ 1048576) with (bpow radix2 (-20)); apply bpow_le; lia). unfold u32r in R. split; auto.
  destruct (Rle_lt_dec (Rabs t) 400) as [TS|TL].
  - assert (E : (Rabs (y - t) <= / 10000)) by lra. apply Rabs_le_inv in E.
    assert (M : IZR m = IZR k /\ IZR (0 - zp) <= IZR k <= IZR (code_max d - zp) \/ IZR m = IZR (code_max d - zp) /\ IZR (code_max d - zp) + 1 <= IZR k \/ IZR m = IZR (0 - zp) /\ IZR k <= IZR (0 - zp) - 1).
    { destruct (Z.le_gt_cases 0 (k + zp)) as [G1|G1]; [destruct (Z.le_gt_cases (k + zp) (code_max d)) as [G2|G2]|].
      - left. assert (m = k) as -> by (unfold m, c, clamp; lia). split; auto. split; apply IZR_le; lia.
      - right; left. split; [f_equal; unfold m, c, clamp; lia|]. rewrite <- plus_IZR. apply IZR_le. lia.
      - right; right. split; [f_equal; unfold m, c, clamp; lia|]. rewrite <- minus_IZR. apply IZR_le. lia. }
    pose proof (Rle_abs t) as A1. pose proof (Rle_abs (- t)) as A2. rewrite Rabs_Ropp in A2.
    destruct M as [[-> M]|[[-> M]|[-> M]]]; split; try (apply Rabs_le; lra).
  - assert (E : Rabs (y - t) <= Rabs t * / 1000000 + / 1000000) by lra. apply Rabs_le_inv in E.
    destruct (Rle_lt_dec 0 t) as [P|P].
    + rewrite (Rabs_pos_eq t) in * by lra. assert (K1 : 300 < IZR k) by lra. assert (K2 : (255 < k)%Z) by (apply lt_IZR; lra).
      assert (EM : m = (code_max d - zp)%Z) by (unfold m, c, clamp; lia). rewrite EM. split; apply Rabs_le; lra.
    + rewrite (Rabs_left t) in * by lra. assert (K1 : IZR k < -300) by lra. assert (K2 : (k < -255)%Z) by (apply lt_IZR; lra).
      assert (EM : m = (0 - zp)%Z) by (unfold m, c, clamp; lia). rewrite EM. split; apply Rabs_le; lra.
Qed.

(** ** Any finite value: the round-trip error is the usual one plus the distance from the representable range. *)
Theorem C72_clipped A nt oaddr A2 nt2 oaddr2 din dout dq scale zp rm thr inm pk p extra outm r :
  let n := numel dout (length outm) in
  buffers_ok nt din dq inm pk -> float_type dout -> numel din (length inm) = n -> sizes_ok (length outm) n nt2 -> Forall is_byte outm ->
  out_scale dout scale -> 0 < val scale -> (0 <= zp <= code_max dq)%Z -> (rm = RM_STOCHASTIC -> threshold thr) -> Forall is_byte extra -> extra <> [] ->
  (forall i, (i < n)%nat -> quantizable scale (elem_at din inm i)) ->
  returns inm pk (quantize_call A nt oaddr din dq scale zp rm thr inm pk) (Ok p) ->
  returns (p ++ extra) outm (dequantize_call A2 nt2 oaddr2 dq dout scale zp RO_SET (length p) outm) r ->
  exists o, r = Ok o /\ length o = length outm /\
    forall i, (i < n)%nat -> let x := val (elem_at din inm i) in
      finite (elem_at dout o i) /\
      Rabs (val (elem_at dout o i) - x) <=
        val scale * (match rm with RM_NEAREST => / 2 | RM_STOCHASTIC => 1 end + bpow radix2 (-11)) +
        match dout with DT_BF16 => / 256 * (Rabs x + 2 * val scale) | _ => 0 end +
        outside ((IZR (0 - zp) - / 2) * val scale) ((IZR (code_max dq - zp) + / 2) * val scale) x.
Proof.
  intros n HB Hdo Hn HS2 Hob Hs Hp Hz Ht He Hne HI HQ HD. pose proof HB as (Hfp & Hq & Hb & Hl & HS1). pose proof (code_max_range dq Hq) as Hm.
  pose proof (out_scale_normal _ _ Hs) as Hsn.
  assert (Hz22 : (Z.abs zp <= 2 ^ 22)%Z) by (clear - Hz Hm; lia). assert (Hz30 : (Z.abs zp <= 2 ^ 30)%Z) by (clear - Hz Hm; lia).
  destruct (quantize_near_rm A nt oaddr din dq scale zp rm thr inm pk (Ok p) HB (normal_good _ Hsn) Hz22 Ht) as (p' & E & HLp & Hby & HC); auto.
  { rewrite Hn. auto. }
  injection E as <-. rewrite Hn in HC.
  destruct (packed_buffers nt nt2 din dout dq inm pk p extra outm HB Hdo HLp Hby He Hne ltac:(rewrite Hn; reflexivity) HS2) as [HB' HCe]. rewrite Hn in HCe.
  assert (HK : / 2 <= code_error rm <= 1) by (destruct rm; cbn; lra).
  (* the decoded value of code c *)
  assert (DEC : exists o, r = Ok o /\ length o = length outm /\ forall i, (i < n)%nat ->
     let m := (code_at dq (p ++ extra) i - zp)%Z in
     finite (elem_at dout o i) /\ Rabs (val (elem_at dout o i) / val scale - IZR m) <= store_error dout (Rabs (IZR m)) + / 7000).
  { clear HI HQ HC Ht HK. destruct Hdo as [-> | ->].
    - destruct (C07_dequantize_set_f32 _ _ _ _ _ _ _ _ _ _ HB' Hz30 HD) as (o & -> & HLo & HE & _ & _). fold n in HE.
      exists o. split; auto. split; auto. intros i Hi m. cbn [elem_at]. rewrite HE by auto. set (c := code_at dq (p ++ extra) i) in *.
      pose proof (code_at_le dq (p ++ extra) i Hq) as Hc. fold c in Hc.
      assert (Hm' : (Z.abs m <= 255)%Z) by (unfold m; lia).
      destruct (dequant_value_ok scale zp c Hsn ltac:(fold m; lia)) as [F V]. unfold dequant_value in F, V. split; auto. rewrite V. fold m.
      pose proof (product_near scale m Hsn) as P. cbn [store_error].
      assert (B3 : (Rabs (IZR m) <= IZR 255)) by (apply abs_IZR_le; lia). destruct tiny_small as [_ T2].
      assert (tiny <= bpow radix2 (-20)) by (unfold tiny; apply bpow_le; lia). change (bpow radix2 (-20)) with (/ 1048576) in *. unfold u32r in P. lra.
    - destruct (C07_bf16_accuracy _ _ _ _ _ _ _ _ _ _ HB' Hz Hs Hob HD) as (o & -> & HE). fold n in HE.
      destruct (C07_dequantize_set_bf16 _ _ _ _ _ _ _ _ _ _ HB' Hz22 Hob HD) as (o' & Eo & HLo & _). injection Eo as <-.
      exists o. split; auto. split; auto. intros i Hi m. destruct (HE i Hi) as [F N]. split; auto. fold m in N.
      set (w := val (elem_at DT_BF16 o i)) in *. cbn [store_error].
      rewrite (Rabs_mult (IZR m)), (Rabs_pos_eq (val scale)) in N by lra.
      replace (w - IZR m * val scale) with ((w / val scale - IZR m) * val scale) in N by (field; lra).
      rewrite Rabs_mult, (Rabs_pos_eq (val scale)) in N by lra.
      replace (/ 256 * (Rabs (IZR m) * val scale) + bpow radix2 (-13) * val scale) with ((/ 256 * Rabs (IZR m) + bpow radix2 (-13)) * val scale) in N by ring.
      apply Rmult_le_reg_r in N; auto. change (bpow radix2 (-13)) with (/ 8192) in N. lra. }
  destruct DEC as (o & -> & HLo & DEC). exists o. split; auto. split; auto. intros i Hi x. destruct (DEC i Hi) as [F V]. split; auto.
  destruct (HC i Hi) as (k & C & K). rewrite HCe, C in V by auto.
  destruct (steps_out dq scale zp x k (code_error rm) Hq Hsn Hp Hz HK K) as (M1 & M2 & M3).
  set (m := (clamp 0 (code_max dq) (k + zp) - zp)%Z) in *. set (w := val (elem_at dout o i)) in *. cbv zeta in V.
  set (lo := IZR (0 - zp) - / 2) in *. set (hi := IZR (code_max dq - zp) + / 2) in *.
  assert (EO : outside (lo * val scale) (hi * val scale) x = val scale * outside lo hi (x / val scale)).
  { unfold outside. rewrite <- !RmaxRmult by lra. f_equal; [ring|]. f_equal; field; lra. }
  rewrite EO. set (D := outside lo hi (x / val scale)) in *.
  replace (w - x) with (val scale * ((w / val scale - IZR m) + (IZR m - x / val scale))) by (field; lra).
  assert (E2 : Rabs (x / val scale) = Rabs x / val scale).
  { unfold Rdiv. rewrite Rabs_mult, Rabs_inv by lra. rewrite (Rabs_pos_eq (val scale)) by lra. reflexivity. }
  rewrite E2 in M3.
  assert (SM : match dout with DT_BF16 => / 256 * (Rabs x + 2 * val scale) | _ => 0 end >= val scale * store_error dout (Rabs (IZR m))).
  { destruct Hdo as [-> | ->]; cbn [store_error]; [lra|]. assert (XE : Rabs x = val scale * (Rabs x / val scale)) by (field; lra). rewrite XE at 1.
    assert (val scale * Rabs (IZR m) <= val scale * (Rabs x / val scale + 2)) by (apply Rmult_le_compat_l; lra). lra. }
  rewrite Rabs_mult, (Rabs_pos_eq (val scale)) by lra.
  apply Rle_trans with (val scale * (store_error dout (Rabs (IZR m)) + / 7000 + (code_error rm + / 8000 + D))).
  - apply Rmult_le_compat_l; [lra|]. eapply Rle_trans; [apply Rabs_triang|]. lra.
  - change (bpow radix2 (-11)) with (/ 2048). assert (val scale * (/ 7000 + / 8000) <= val scale * / 2048) by (apply Rmult_le_compat_l; lra).
    change (match rm with RM_NEAREST => / 2 | RM_STOCHASTIC => 1 end) with (code_error rm). lra.
Qed.

(** ** Parameters computed from calibration data whose range [lo, hi] includes zero, used on any other finite data: the usual error plus the
    distance of the value from the calibrated range. *)
Theorem C72_calibrated a blocks cal ncal dcal lo hi A nt oaddr A2 nt2 oaddr2 din dout dq scale zp rm thr inm pk p extra outm r :
  let n := numel dout (length outm) in
  a <> SSE42 -> float_type dcal -> finite_data dcal cal ncal -> block_cover ncal blocks ->
  data_range dcal cal ncal lo hi -> lo <= 0 <= hi -> bpow radix2 (-112) <= hi - lo <= bpow radix2 100 ->
  compute_quant_config_from_data a dcal dq cal blocks = Ok (scale, zp) ->
  buffers_ok nt din dq inm pk -> float_type dout -> numel din (length inm) = n -> sizes_ok (length outm) n nt2 -> Forall is_byte outm ->
  (rm = RM_STOCHASTIC -> threshold thr) -> Forall is_byte extra -> extra <> [] ->
  (forall i, (i < n)%nat -> quantizable scale (elem_at din inm i)) ->
  returns inm pk (quantize_call A nt oaddr din dq scale zp rm thr inm pk) (Ok p) ->
  returns (p ++ extra) outm (dequantize_call A2 nt2 oaddr2 dq dout scale zp RO_SET (length p) outm) r ->
  exists o, r = Ok o /\ length o = length outm /\
    forall i, (i < n)%nat -> let x := val (elem_at din inm i) in
      finite (elem_at dout o i) /\
      Rabs (val (elem_at dout o i) - x) <=
        val scale * (match rm with RM_NEAREST => / 2 | RM_STOCHASTIC => 1 end + bpow radix2 (-10)) +
        match dout with DT_BF16 => / 256 * (Rabs x + 2 * val scale) | _ => 0 end +
        outside lo hi x.
Proof.

  intros n Ha Hdc HD HBl HR H0 HB EC HBu Hdo Hn HS2 Hob Ht He Hne HI HQ HDq. pose proof HBu as (Hfp & Hq & _). pose proof (bpow_gt_0 radix2 (-112)) as P0.
  assert (H : lo < hi) by lra.
  assert (HB' : bpow radix2 (-118) <= hi - lo <= bpow radix2 100) by (assert (bpow radix2 (-118) <= bpow radix2 (-112)) by (apply bpow_le; lia); lra).
  destruct (C21_documented_parameters a dcal dq cal ncal blocks lo hi Ha Hdc Hq HD HBl HR H) as (s & E & Fs & Vs).
  rewrite EC in E. injection E as <- ->.
  assert (I1 : in32 lo) by (destruct HR as ((i & Hi & <-) & _); apply in32_val, HD; auto).
  assert (I2 : in32 hi) by (destruct HR as (_ & (i & Hi & <-) & _); apply in32_val, HD; auto).
  destruct (config_scale_rel dq lo hi Hq I1 I2 HB') as (e & Hee & Es & Bs1 & Bs2).
  destruct (config_zp_near dq lo hi Hq I1 I2 H H0) as (T & Z & N). pose proof (bpow_gt_0 radix2 (-126)) as P1.
  destruct (step_bounds dq lo hi Hq I1 I2 H) as (d & Hd & Ed & _). pose proof (code_max_R dq Hq) as Q.
  assert (Hs : out_scale dout scale).
  { assert (Ns : normal_scale scale) by (split; auto; rewrite Vs; rewrite Rabs_pos_eq; lra). destruct Hdo as [-> | ->]; cbn [out_scale]; auto.
    split; auto. rewrite Vs, Rabs_pos_eq by lra. split; auto. rewrite Es, Ed. set (w := (hi - lo) / IZR (code_max dq)).
    assert (W : bpow radix2 (-112) / 255 <= w).
    { unfold w, Rdiv. apply Rmult_le_compat; [lra|lra|lra|]. apply Rinv_le; lra. }
    replace (bpow radix2 (-120)) with (bpow radix2 (-112) / 256) by (change (-120)%Z with (-112 + -8)%Z; rewrite bpow_plus; reflexivity).
    assert (D1 : 255 / 256 <= (1 + d) * (1 + e)).
    { apply Rabs_le_inv in Hd. apply Rabs_le_inv in Hee. unfold u64r, u32r in *. nra. }
    rewrite Rmult_assoc. apply Rle_trans with (bpow radix2 (-112) / 255 * (255 / 256)); [lra|]. apply Rmult_le_compat; lra. }
  assert (Hp : 0 < val scale) by lra.
  pose proof (config_fits dq lo hi lo Hq I1 I2 HB' H0 ltac:(lra)) as F1. pose proof (config_fits dq lo hi hi Hq I1 I2 HB' H0 ltac:(lra)) as F2.
  cbv zeta in F1, F2. rewrite <- Vs in F1, F2.
  destruct (C72_clipped A nt oaddr A2 nt2 oaddr2 din dout dq scale (config_zp dq lo hi) rm thr inm pk p extra outm r HBu Hdo Hn HS2 Hob Hs Hp Z Ht He Hne HI HQ HDq) as (o & -> & HLo & HO).
  exists o. split; auto. split; auto. intros i Hi x. destruct (HO i Hi) as [F B]. split; auto. fold x in B. eapply Rle_trans; [exact B|].
  set (zp := config_zp dq lo hi) in *. set (s := val scale) in *. set (K := match rm with RM_NEAREST => / 2 | RM_STOCHASTIC => 1 end).
  set (L := IZR (0 - zp)) in *. set (U := IZR (code_max dq - zp)) in *.
  assert (G1 : (L - / 2) * s <= lo + s / 8192).
  { assert (X : (L - / 2 - / 8192) * s <= lo / s * s) by (apply Rmult_le_compat_r; lra). replace (lo / s * s) with lo in X by (field; lra). lra. }
  assert (G2 : hi - s / 8192 <= (U + / 2) * s).
  { assert (X : hi / s * s <= (U + / 2 + / 8192) * s) by (apply Rmult_le_compat_r; lra). replace (hi / s * s) with hi in X by (field; lra). lra. }
  assert (O : outside ((L - / 2) * s) ((U + / 2) * s) x <= outside lo hi x + s / 8192).
  { destruct (outside_ge lo hi x) as (O1 & O2 & O3). apply outside_le; lra. }
  change (bpow radix2 (-11)) with (/ 2048). change (bpow radix2 (-10)) with (/ 1024).
  assert (s * (K + / 2048) + s / 8192 <= s * (K + / 1024)) by (replace (s * (K + / 2048) + s / 8192) with (s * (K + / 2048 + / 8192)) by field; apply Rmult_le_compat_l; lra).
  lra.
Qed.
