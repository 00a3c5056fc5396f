(** PropsReadme.v -- C52: the tolerance documented for the round trip data -> parameters -> quantize -> dequantize. *)
From Coq Require Import ZArith List Lia Bool Arith ZifyBool ZifyNat Reals Lra Psatz.
From Flocq Require Import Core Binary Bits Relative.
From Verif Require Import Base Floats Simd Dtypes Spec ApiSpec QuantKernels DequantKernels ExecFacts FloatFacts QuantFacts QuantKernelFacts
  QuantGenericFacts DequantFacts DequantGenericFacts QuantLanes Context ContextFacts Footprint QuantizeFacts DequantizeFacts Api PropsQuantize Schedule
  PropsMemory FloatFacts2 PropsDequantize PropsRoundTrip PathSpec PropsPaths RoundTripFacts PropsIdempotent MinMax MinMaxFacts ConfigSpec F64Facts ConfigFacts PropsConfig
  PropsRepresent Bf16Spec Bf16Facts FloatFacts3 PropsDequantBf16 PropsRoundTripTypes.
Import ListNotations.
Local Open Scope R_scope.

(** if zero is at most half a step outside the range of the data, every value is still within half a step (and a bit) of a representable one *)
Lemma config_fits_near dq lo hi x : quant_type dq -> in32 lo -> in32 hi -> bpow radix2 (-118) <= hi - lo <= bpow radix2 100 -> lo <= x <= hi ->
  let s := config_scale dq lo hi in let zp := config_zp dq lo hi in
  lo <= s / 2 -> - (s / 2) <= hi ->
  IZR (0 - zp) - / 2 - / 8192 <= x / s <= IZR (code_max dq - zp) + / 2 + / 8192.
Proof.
  intros Hq Hl Hh HB Hx s zp N1 N2. pose proof (bpow_gt_0 radix2 (-118)) as P0. assert (H : lo < hi) by lra.
  destruct (Rle_dec lo 0) as [L0|L0]; [destruct (Rle_dec 0 hi) as [H0|H0]; [apply config_fits; auto|]|].
  - (* hi < 0 *)
    destruct (config_zp_outside dq lo hi Hq Hl Hh H) as [_ ZN]. unfold zp. rewrite ZN by lra.
    destruct (config_scale_rel dq lo hi Hq Hl Hh HB) as (e & He & Es & Bs & _). fold s in Es, Bs.
    destruct (step_bounds dq lo hi Hq Hl Hh H) as (d & Hd & E & B1 & _). pose proof (code_max_R dq Hq) as Q. pose proof (bpow_gt_0 radix2 (-126)) as P1.
    set (S := config_step dq lo hi) in *. rewrite Z.sub_diag, minus_IZR. set (q := IZR (code_max dq)) in *. pose proof (bpow_gt_0 radix2 (-157)) as P2.
    apply Rabs_le_inv in He. apply Rabs_le_inv in Hd. unfold u32r in He. unfold u64r in Hd.
    split.
    + apply Rmult_le_reg_r with s; [lra|]. replace (x / s * s) with x by (field; lra).
      assert (hi - lo <= s * (q + / 10000)); [|lra].
      rewrite Es, E. replace ((hi - lo) / q * (1 + d) * (1 + e) * (q + / 10000)) with ((hi - lo) * ((1 + / 10000 / q) * ((1 + d) * (1 + e)))) by (field; lra).
      rewrite <- (Rmult_1_r (hi - lo)) at 1. apply Rmult_le_compat_l; [lra|].
      assert (/ 10000 / 255 <= / 10000 / q) by (apply Rmult_le_compat_l; [lra|apply Rinv_le; lra]). set (w := / 10000 / q) in *.
      assert (M : 1 - / 8000000 <= (1 + d) * (1 + e)) by nra. set (m := (1 + d) * (1 + e)) in *. nra.
    + assert (x / s <= 0); [|lra]. apply Rmult_le_reg_r with s; [lra|]. replace (x / s * s) with x by (field; lra). lra.
  - (* 0 < lo *)
    destruct (config_zp_outside dq lo hi Hq Hl Hh H) as [ZP _]. unfold zp. rewrite ZP by lra.
    destruct (config_scale_rel dq lo hi Hq Hl Hh HB) as (e & He & Es & Bs & _). fold s in Es, Bs.
    destruct (step_bounds dq lo hi Hq Hl Hh H) as (d & Hd & E & B1 & _). pose proof (code_max_R dq Hq) as Q. pose proof (bpow_gt_0 radix2 (-126)) as P1.
    set (S := config_step dq lo hi) in *. rewrite !Z.sub_0_r. set (q := IZR (code_max dq)) in *. pose proof (bpow_gt_0 radix2 (-157)) as P2.
    apply Rabs_le_inv in He. apply Rabs_le_inv in Hd. unfold u32r in He. unfold u64r in Hd.
    split.
    + assert (0 <= x / s); [|lra]. apply Rmult_le_reg_r with s; [lra|]. replace (x / s * s) with x by (field; lra). lra.
    + apply Rmult_le_reg_r with s; [lra|]. replace (x / s * s) with x by (field; lra).
      assert (hi - lo <= s * (q + / 10000)); [|lra].
      rewrite Es, E. replace ((hi - lo) / q * (1 + d) * (1 + e) * (q + / 10000)) with ((hi - lo) * ((1 + / 10000 / q) * ((1 + d) * (1 + e)))) by (field; lra).
      rewrite <- (Rmult_1_r (hi - lo)) at 1. apply Rmult_le_compat_l; [lra|].
      assert (/ 10000 / 255 <= / 10000 / q) by (apply Rmult_le_compat_l; [lra|apply Rinv_le; lra]). set (w := / 10000 / q) in *.
      assert (M : 1 - / 8000000 <= (1 + d) * (1 + e)) by nra. set (m := (1 + d) * (1 + e)) in *. nra.
Qed.

(** ** C52: data -> parameters -> quantize -> dequantize, when zero lies inside the range of the data or at most half a step outside it
    (C23 asks for zero inside; torch.rand data, as in the README example, has its minimum a little above zero) *)
Theorem C52_near_zero a blocks A nt oaddr A2 nt2 oaddr2 din dout dq scale zp rm thr inm pk p extra outm r lo hi :
  let n := numel dout (length outm) in
  a <> SSE42 -> finite_data din inm n -> block_cover n blocks ->
  data_range din inm n lo hi -> lo <= val scale / 2 -> - (val scale / 2) <= hi -> bpow radix2 (-112) <= hi - lo <= bpow radix2 100 ->
  compute_quant_config_from_data a din dq inm blocks = Ok (scale, zp) ->
  buffers_ok nt din dq inm pk -> float_type dout -> numel din (length inm) = n -> sizes_ok (length outm) n nt2 -> Forall is_byte outm ->
  (rm = RM_STOCHASTIC -> threshold thr) -> Forall is_byte extra -> extra <> [] ->
  returns inm pk (quantize_call A nt oaddr din dq scale zp rm thr inm pk) (Ok p) ->
  returns (p ++ extra) outm (dequantize_call A2 nt2 oaddr2 dq dout scale zp RO_SET (length p) outm) r ->
  0 < val scale /\
  Rabs (val scale - (hi - lo) / IZR (code_max dq)) <= bpow radix2 (-23) * ((hi - lo) / IZR (code_max dq)) /\
  exists o, r = Ok o /\ length o = length outm /\
    forall i, (i < n)%nat -> let x := val (elem_at din inm i) in
      finite (elem_at dout o i) /\
      Rabs (val (elem_at dout o i) - x) <=
        val scale * (match rm with RM_NEAREST => / 2 | RM_STOCHASTIC => 1 end + bpow radix2 (-11)) +
        match dout with DT_BF16 => / 256 * (Rabs x + 2 * val scale) | _ => 0 end.
Proof.
  intros n Ha HD HBl HR N1 N2 HB EC HBu Hdo Hn HS2 Hob Ht He Hne HQ HDq. pose proof HBu as (Hfp & Hq & _). pose proof (bpow_gt_0 radix2 (-112)) as P0.
  assert (H : lo < hi) by lra.
  assert (HB' : bpow radix2 (-118) <= hi - lo <= bpow radix2 100) by (assert (bpow radix2 (-118) <= bpow radix2 (-112)) by (apply bpow_le; lia); lra).
  destruct (C21_documented_parameters a din dq inm n blocks lo hi Ha Hfp Hq HD HBl HR H) as (s & E & Fs & Vs).
  rewrite EC in E. injection E as <- ->.
  assert (I1 : in32 lo) by (destruct HR as ((i & Hi & <-) & _); apply in32_val, HD; auto).
  assert (I2 : in32 hi) by (destruct HR as (_ & (i & Hi & <-) & _); apply in32_val, HD; auto).
  destruct (config_scale_rel dq lo hi Hq I1 I2 HB') as (e & Hee & Es & Bs1 & Bs2).
  assert (Z : (0 <= config_zp dq lo hi <= code_max dq)%Z).
  { pose proof (code_max_range dq Hq) as Hm. unfold config_zp, clamp. lia. }
  pose proof (bpow_gt_0 radix2 (-126)) as P1.
  destruct (step_bounds dq lo hi Hq I1 I2 H) as (d & Hd & Ed & _). pose proof (code_max_R dq Hq) as Q.
  assert (Hs : out_scale dout scale).
  { assert (Ns : normal_scale scale) by (split; auto; rewrite Vs; rewrite Rabs_pos_eq; lra). destruct Hdo as [-> | ->]; cbn [out_scale]; auto.
    split; auto. rewrite Vs, Rabs_pos_eq by lra. split; auto. rewrite Es, Ed. set (w := (hi - lo) / IZR (code_max dq)).
    assert (W : bpow radix2 (-112) / 255 <= w).
    { unfold w, Rdiv. apply Rmult_le_compat; [lra|lra|lra|]. apply Rinv_le; lra. }
    replace (bpow radix2 (-120)) with (bpow radix2 (-112) / 256) by (change (-120)%Z with (-112 + -8)%Z; rewrite bpow_plus; reflexivity).
    assert (D1 : 255 / 256 <= (1 + d) * (1 + e)).
    { apply Rabs_le_inv in Hd. apply Rabs_le_inv in Hee. unfold u64r, u32r in *. nra. }
    rewrite Rmult_assoc. apply Rle_trans with (bpow radix2 (-112) / 255 * (255 / 256)); [lra|]. apply Rmult_le_compat; lra. }
  pose proof (out_scale_normal _ _ Hs) as Hsn.
  assert (Hp : 0 < val scale) by lra. split; auto. split.
  { rewrite Vs, Es, Ed. set (w := (hi - lo) / IZR (code_max dq)). assert (W0 : 0 <= w) by (unfold w, Rdiv; apply Rmult_le_pos; [lra|apply Rlt_le, Rinv_0_lt_compat; lra]).
    replace (w * (1 + d) * (1 + e) - w) with (w * (d + e + d * e)) by ring. rewrite Rabs_mult, (Rabs_pos_eq w), Rmult_comm by auto. apply Rmult_le_compat_r; auto.
    apply Rabs_le_inv in Hd. apply Rabs_le_inv in Hee. unfold u64r, u32r in *. change (bpow radix2 (-23)) with (/ 8388608).
    assert (Rabs (d * e) <= / 1000000000000).
    { rewrite Rabs_mult. assert (Rabs d <= / 1000000) by (apply Rabs_le; lra). assert (Rabs e <= / 1000000) by (apply Rabs_le; lra).
      apply Rle_trans with (/ 1000000 * / 1000000); [apply Rmult_le_compat; auto; apply Rabs_pos|lra]. }
    apply Rabs_le_inv in H0. apply Rabs_le. lra. }
  assert (FIT : forall i, (i < n)%nat -> IZR (0 - config_zp dq lo hi) - / 2 - / 8192 <= val (elem_at din inm i) / val scale <= IZR (code_max dq - config_zp dq lo hi) + / 2 + / 8192).
  { intros i Hi. rewrite Vs in *. apply config_fits_near; auto. destruct HR as (_ & _ & HR). apply (HR i Hi). }
  assert (H30 : forall i, (i < n)%nat -> quantizable scale (elem_at din inm i)).
  { intros i Hi. split; [apply HD; auto|]. specialize (FIT i Hi). pose proof (scaled_rel scale (val (elem_at din inm i)) Hsn) as SR. set (t := val (elem_at din inm i) / val scale) in *.
    pose proof (code_max_range dq Hq) as Hm. 
    assert (B1 : (Rabs (IZR (0 - config_zp dq lo hi)) <= IZR 255)) by (apply abs_IZR_le; lia). apply Rabs_le_inv in B1.
    assert (B2 : (Rabs (IZR (code_max dq - config_zp dq lo hi)) <= IZR 255)) by (apply abs_IZR_le; lia). apply Rabs_le_inv in B2.
    assert (Tt : Rabs t <= 256) by (apply Rabs_le; lra). destruct tiny_small as [_ T2]. set (y := scaled _ _) in *.
    assert (D : Rabs (y - t) <= 1) by (unfold u32r in SR; lra). apply Rabs_le_inv in Tt. apply Rabs_le_inv in D.
    apply Rle_lt_trans with 300; [apply Rabs_le; lra|]. change (bpow radix2 30) with 1073741824. lra. }
  destruct (round_trip_types A nt oaddr A2 nt2 oaddr2 din dout dq scale (config_zp dq lo hi) rm thr inm pk p extra outm r (/ 8192) HBu Hdo Hn HS2 Hob Hs Hp Z Ht He Hne ltac:(lra) H30 HQ HDq) as (o & -> & HLo & HO).
  exists o. split; auto. split; auto. intros i Hi x. specialize (HO i Hi). cbv zeta in HO. fold x in HO. destruct HO as [F HO]; [apply FIT; auto|]. split; auto.
  eapply Rle_trans; [exact HO|]. set (K := match rm with RM_NEAREST => / 2 | RM_STOCHASTIC => 1 end). replace (code_error rm) with K by (destruct rm; reflexivity).
  change (bpow radix2 (-12)) with (/ 4096). change (bpow radix2 (-11)) with (/ 2048).
  assert (G : val scale * (K + / 8192 + / 4096) <= val scale * (K + / 2048)) by (apply Rmult_le_compat_l; lra).
  destruct Hdo as [-> | ->]; cbn [store_error]; [replace (val scale * (K + / 8192 + 0 + / 4096)) with (val scale * (K + / 8192 + / 4096)) by ring; lra|].
  replace (val scale * (K + / 8192 + / 256 * (Rabs x / val scale + 2) + / 4096)) with (val scale * (K + / 8192 + / 4096) + / 256 * (Rabs x + 2 * val scale)) by (field; lra). lra.
Qed.


(** f32 output: the documented tolerance is met for every quantized type whenever the range of the data is at most 6 wide ([-1, 1] in the tests, [0, 1) in the README). *)
Theorem C52_readme_f32 a blocks A nt oaddr A2 nt2 oaddr2 din dq scale zp thr inm pk p extra outm r lo hi :
  let n := numel DT_F32 (length outm) in
  a <> SSE42 -> finite_data din inm n -> block_cover n blocks ->
  data_range din inm n lo hi -> lo <= val scale / 2 -> - (val scale / 2) <= hi -> bpow radix2 (-112) <= hi - lo <= 6 ->
  compute_quant_config_from_data a din dq inm blocks = Ok (scale, zp) ->
  buffers_ok nt din dq inm pk -> numel din (length inm) = n -> sizes_ok (length outm) n nt2 -> Forall is_byte outm ->
  Forall is_byte extra -> extra <> [] ->
  returns inm pk (quantize_call A nt oaddr din dq scale zp RM_NEAREST thr inm pk) (Ok p) ->
  returns (p ++ extra) outm (dequantize_call A2 nt2 oaddr2 dq DT_F32 scale zp RO_SET (length p) outm) r ->
  exists o, r = Ok o /\ length o = length outm /\
    forall i, (i < n)%nat -> Rabs (val (elem_at DT_F32 o i) - val (elem_at din inm i)) <= val scale * (1 / 2) + 1 / 1000.
Proof.
  intros n Ha HD HBl HR N1 N2 HB EC HBu Hn HS2 Hob He Hne HQ HDq. pose proof HBu as (_ & Hq & _).
  assert (B6 : 6 <= bpow radix2 100) by (apply Rle_trans with (bpow radix2 3); [change (bpow radix2 3) with 8; lra|apply bpow_le; lia]).
  destruct (C52_near_zero a blocks A nt oaddr A2 nt2 oaddr2 din DT_F32 dq scale zp RM_NEAREST thr inm pk p extra outm r lo hi) as (Hp & Hsc & o & -> & HL & HO); auto; try lra; try (left; reflexivity); try discriminate.
  exists o. split; auto. split; auto. intros i Hi. destruct (HO i Hi) as [_ X]. eapply Rle_trans; [exact X|]. change (bpow radix2 (-11)) with (/ 2048).
  pose proof (code_max_R dq Hq) as Q. pose proof (bpow_gt_0 radix2 (-112)). 
  assert (W : (hi - lo) / IZR (code_max dq) <= 2).
  { apply Rmult_le_reg_r with (IZR (code_max dq)); [lra|]. replace ((hi - lo) / IZR (code_max dq) * IZR (code_max dq)) with (hi - lo) by (field; lra). lra. }
  change (bpow radix2 (-23)) with (/ 8388608) in Hsc. apply Rabs_le_inv in Hsc. lra.
Qed.

(** bf16 output: the corrected tolerances.  Data in [-1, 1] (the tests): scale / 2 + 0.01, for every quantized type; data in [0, 1] and at least 15 steps
    (the README example): scale / 2 + 0.005. *)
Theorem C52_readme_bf16 a blocks A nt oaddr A2 nt2 oaddr2 din dq scale zp thr inm pk p extra outm r lo hi :
  let n := numel DT_BF16 (length outm) in
  a <> SSE42 -> finite_data din inm n -> block_cover n blocks ->
  data_range din inm n lo hi -> lo <= val scale / 2 -> - (val scale / 2) <= hi -> bpow radix2 (-112) <= hi - lo -> -1 <= lo -> hi <= 1 ->
  compute_quant_config_from_data a din dq inm blocks = Ok (scale, zp) ->
  buffers_ok nt din dq inm pk -> numel din (length inm) = n -> sizes_ok (length outm) n nt2 -> Forall is_byte outm ->
  Forall is_byte extra -> extra <> [] ->
  returns inm pk (quantize_call A nt oaddr din dq scale zp RM_NEAREST thr inm pk) (Ok p) ->
  returns (p ++ extra) outm (dequantize_call A2 nt2 oaddr2 dq DT_BF16 scale zp RO_SET (length p) outm) r ->
  exists o, r = Ok o /\ length o = length outm /\
    forall i, (i < n)%nat -> let e := Rabs (val (elem_at DT_BF16 o i) - val (elem_at din inm i)) in
      e <= val scale * (1 / 2) + 1 / 100 /\
      (0 <= lo -> dq <> DT_UINT2 -> e <= val scale * (1 / 2) + 5 / 1000).
Proof.
  intros n Ha HD HBl HR N1 N2 HB L1 H1 EC HBu Hn HS2 Hob He Hne HQ HDq. pose proof HBu as (_ & Hq & _).
  assert (B6 : 2 <= bpow radix2 100) by (change 2 with (bpow radix2 1); apply bpow_le; lia).
  destruct (C52_near_zero a blocks A nt oaddr A2 nt2 oaddr2 din DT_BF16 dq scale zp RM_NEAREST thr inm pk p extra outm r lo hi) as (Hp & Hsc & o & -> & HL & HO); auto; try lra; try (right; reflexivity); try discriminate.
  exists o. split; auto. split; auto. intros i Hi e. destruct (HO i Hi) as [_ X]. fold e in X. change (bpow radix2 (-11)) with (/ 2048) in X.
  pose proof (code_max_R dq Hq) as Q. pose proof (bpow_gt_0 radix2 (-112)). 
  assert (Xb : Rabs (val (elem_at din inm i)) <= 1) by (destruct HR as (_ & _ & HR); specialize (HR i Hi); apply Rabs_le; lra).
  change (bpow radix2 (-23)) with (/ 8388608) in Hsc. apply Rabs_le_inv in Hsc. split.
  - assert (W : (hi - lo) / IZR (code_max dq) <= 2 / 3).
    { apply Rmult_le_reg_r with (IZR (code_max dq)); [lra|]. replace ((hi - lo) / IZR (code_max dq) * IZR (code_max dq)) with (hi - lo) by (field; lra). lra. }
    lra.
  - intros L0 N2'. assert (Q15 : 15 <= IZR (code_max dq)) by (apply (IZR_le 15); destruct Hq as [->|[->| ->]]; [congruence|vm_compute; discriminate..]).
    assert (W : (hi - lo) / IZR (code_max dq) <= 1 / 15).
    { apply Rmult_le_reg_r with (IZR (code_max dq)); [lra|]. replace ((hi - lo) / IZR (code_max dq) * IZR (code_max dq)) with (hi - lo) by (field; lra). lra. }
    lra.
Qed.

(** bf16 output: the documented tolerance itself is NOT guaranteed.  Three bf16 values in [-1, 1], uint8, as in python/tests/test_torch.py: -1, 1/256 and -193/256.
    -193/256 comes back as -192/256: the error 0.0039 is 31% more than scale * 0.5 + 1e-3 + 1e-5 * |x| (atol, and the default rtol, of torch.allclose). *)
Definition test_data : mem := le_bytes 2 0xBF80 ++ le_bytes 2 0x3B80 ++ le_bytes 2 0xBF41.
(** ... and three bf16 values in [0, 1), uint4, as in the README example: 0, 197/256 and 151/256; 151/256 comes back as 144/256, 2.5% too far. *)
Definition readme_data : mem := le_bytes 2 0 ++ le_bytes 2 0x3F45 ++ le_bytes 2 0x3F17.

Definition misses (A : arch) (dq : dtype) (m : mem) : Prop :=
  exists scale zp p o,
    compute_quant_config_from_data A DT_BF16 dq m [(0, 3)%nat] = Ok (scale, zp) /\ 0 < val scale /\
    returns m (repeat 0%Z (bytes_for dq 3)) (quantize_call A 1 0 DT_BF16 dq scale zp RM_NEAREST f_zero m (repeat 0%Z (bytes_for dq 3))) (Ok p) /\
    returns (p ++ [0%Z]) (repeat 0%Z 6) (dequantize_call A 1 0 dq DT_BF16 scale zp RO_SET (length p) (repeat 0%Z 6)) (Ok o) /\
    exists i, (i < 3)%nat /\ let x := val (elem_at DT_BF16 m i) in
      Rabs (val (elem_at DT_BF16 o i) - x) > (val scale * (1 / 2) + 1 / 1000) + 1 / 100000 * Rabs x.

Lemma one_thread {X} (l : list X) : interleave [l] l.
Proof. induction l as [|x l IH]; [constructor; auto|]. apply (il_step [] x l [] l). exact IH. Qed.

Lemma returns_one m o c p : match c with Ok [l] => run_trace m l o | _ => Abort end = Ok p -> returns m o c (Ok p).
Proof. destruct c as [[|l [|]]| |]; try discriminate. intros <-. constructor. apply one_thread. Qed.
Ltac one_job A := apply returns_one; destruct A; vm_compute; reflexivity.

Lemma config_bits A dq m K z : bind (compute_quant_config_from_data A DT_BF16 dq m [(0, 3)%nat]) (fun c => Ok (bits_of_f32 (fst c), snd c)) = Ok (K, z) ->
  compute_quant_config_from_data A DT_BF16 dq m [(0, 3)%nat] = Ok (f32_of_bits K, z).
Proof.
  destruct (compute_quant_config_from_data A DT_BF16 dq m [(0, 3)%nat]) as [[s z']| |]; cbn; try discriminate. intros E. injection E as <- <-.
  do 2 f_equal. symmetry. apply (binary_float_of_bits_of_binary_float 23 8 eq_refl eq_refl eq_refl).
Qed.

Theorem C52_bf16_tolerance_refuted A : misses A DT_UINT8 test_data /\ misses A DT_UINT4 readme_data.
Proof.
  split.
  - exists (f32_of_bits 0x3B810101), 254%Z, [0; 255; 63]%Z, (le_bytes 2 0xBF80 ++ le_bytes 2 0x3B81 ++ le_bytes 2 0xBF40).
    split; [apply config_bits; destruct A; vm_compute; reflexivity|].
    assert (V : val (f32_of_bits 0x3B810101) = IZR 0x810101 / 2147483648) by (unfold val; cbn; unfold F2R; cbn; lra).
    rewrite V. split; [lra|]. split; [one_job A|]. split; [one_job A|].
    exists 2%nat. split; [lia|].
    assert (X1 : val (elem_at DT_BF16 test_data 2) = -193 / 256) by (unfold val; cbn; unfold F2R; cbn; lra).
    assert (X2 : val (elem_at DT_BF16 (le_bytes 2 0xBF80 ++ le_bytes 2 0x3B81 ++ le_bytes 2 0xBF40) 2) = -192 / 256) by (unfold val; cbn; unfold F2R; cbn; lra).
    cbv zeta. rewrite X1, X2. rewrite Rabs_pos_eq by lra. rewrite Rabs_left by lra. lra.
  - exists (f32_of_bits 0x3D522222), 0%Z, [240; 11]%Z, (le_bytes 2 0 ++ le_bytes 2 0x3F45 ++ le_bytes 2 0x3F10).
    split; [apply config_bits; destruct A; vm_compute; reflexivity|].
    assert (V : val (f32_of_bits 0x3D522222) = IZR 0xD22222 / 268435456) by (unfold val; cbn; unfold F2R; cbn; lra).
    rewrite V. split; [lra|]. split; [one_job A|]. split; [one_job A|].
    exists 2%nat. split; [lia|].
    assert (X1 : val (elem_at DT_BF16 readme_data 2) = 151 / 256) by (unfold val; cbn; unfold F2R; cbn; lra).
    assert (X2 : val (elem_at DT_BF16 (le_bytes 2 0 ++ le_bytes 2 0x3F45 ++ le_bytes 2 0x3F10) 2) = 144 / 256) by (unfold val; cbn; unfold F2R; cbn; lra).
    cbv zeta. rewrite X1, X2. rewrite Rabs_left by lra. rewrite Rabs_pos_eq by lra. lra.
Qed.

(** ** The half-to-even reference (torch.quantize_per_tensor rounds half to even, the library half away from zero) *)
(** Rounding to the nearest integer, ties to even. *)
Definition is_tie (y : R) : Prop := y = IZR (Zfloor y) + / 2.
Definition half_even (y : R) : Z :=
  let k := Zfloor y in
  if Rlt_bool (y - IZR k) (/ 2) then k else if Rlt_bool (/ 2) (y - IZR k) then (k + 1)%Z else if Z.even k then k else (k + 1)%Z.

Lemma away_cases y : let k := Zfloor y in
  (y - IZR k < / 2 -> round_half_away y = k) /\ (/ 2 < y - IZR k -> round_half_away y = (k + 1)%Z) /\
  (y - IZR k = / 2 -> round_half_away y = k \/ round_half_away y = (k + 1)%Z).
Proof.
  intros k. pose proof (Zfloor_lb y) as L. pose proof (Zfloor_ub y) as U. fold k in L, U. rewrite round_half_away_ZnearestA. split; [|split]; intros H.
  - apply Znearest_imp. apply Rabs_lt. lra.
  - apply Znearest_imp. rewrite plus_IZR. apply Rabs_lt. lra.
  - destruct (Znearest_DN_or_UP (Z.leb 0) y) as [E|E]; rewrite E; [left; reflexivity|right]. apply Zceil_imp. rewrite plus_IZR, minus_IZR, plus_IZR. fold k. lra.
Qed.

Lemma even_cases y : (is_tie y -> Z.abs (round_half_away y - half_even y) <= 1)%Z /\ (~ is_tie y -> round_half_away y = half_even y).
Proof.
  destruct (away_cases y) as (A1 & A2 & A3). unfold is_tie, half_even. set (k := Zfloor y) in *. split; intros T.
  - rewrite Rlt_bool_false by lra. rewrite Rlt_bool_false by lra. destruct A3 as [E|E]; [lra|..]; rewrite E; destruct (Z.even k); lia.
  - destruct (Rlt_bool_spec (y - IZR k) (/ 2)) as [L|L]; auto. destruct (Rlt_bool_spec (/ 2) (y - IZR k)) as [L'|L']; auto. exfalso. apply T. lra.
Qed.

(** Every code is the one the half-to-even reference gives, except where the scaled value lies exactly halfway between two integers: there it may be one off. *)
Theorem C52_half_even_reference A nt oaddr din dq scale zp thr inm outm r :
  buffers_ok nt din dq inm outm -> good_scale scale -> (Z.abs zp <= 2 ^ 22)%Z ->
  (forall i, (i < numel din (length inm))%nat -> nearest_ok A scale (elem_at din inm i)) ->
  returns inm outm (quantize_call A nt oaddr din dq scale zp RM_NEAREST thr inm outm) r ->
  exists o, r = Ok o /\ length o = length outm /\
    forall i, (i < numel din (length inm))%nat ->
      let y := RN32 (val (elem_at din inm i) * RN32 (1 / val scale)) in
      let reference := clamp 0 (2 ^ Z.of_nat (bit_size dq) - 1) (half_even y + zp) in
      (~ is_tie y -> code_at dq o i = reference) /\ (Z.abs (code_at dq o i - reference) <= 1)%Z.
Proof.
  intros HB Hs Hz HI HR. destruct (C01_quantize_nearest A nt oaddr din dq scale zp thr inm outm r HB Hs Hz HI HR) as (o & -> & HL & HO).
  exists o. split; auto. split; auto. intros i Hi y reference. rewrite (HO i Hi). fold y. destruct (even_cases y) as [E1 E2]. split.
  - intros T. unfold reference. rewrite E2; auto.
  - unfold reference. assert (D : (Z.abs (round_half_away y - half_even y) <= 1)%Z).
    { destruct (Req_dec y (IZR (Zfloor y) + / 2)) as [T|T]; [apply E1, T|rewrite E2 by exact T; lia]. }
    unfold clamp. lia.
Qed.
(** ... and at a tie it can be one off (so the dequantized tensors differ by a whole step: "allclose(dequantized_torch, dequantized_pi, atol=1e-3)" of
    python/tests/test_torch.py is not guaranteed): {0, 3, 0.5} with uint2 has scale 1; 0.5 becomes 1, half-to-even gives 0. *)
Definition tie_data : mem := le_bytes 2 0 ++ le_bytes 2 0x4040 ++ le_bytes 2 0x3F00.
Theorem C52_half_even_differs A : exists scale zp p,
  compute_quant_config_from_data A DT_BF16 DT_UINT2 tie_data [(0, 3)%nat] = Ok (scale, zp) /\ val scale = 1 /\ zp = 0%Z /\
  returns tie_data [0%Z] (quantize_call A 1 0 DT_BF16 DT_UINT2 scale zp RM_NEAREST f_zero tie_data [0%Z]) (Ok p) /\
  val (elem_at DT_BF16 tie_data 2) = / 2 /\ half_even (/ 2) = 0%Z /\ code_at DT_UINT2 p 2 = 1%Z.
Proof.
  exists (f32_of_bits 0x3F800000), 0%Z, [28%Z]. split; [apply config_bits; destruct A; vm_compute; reflexivity|].
  split; [unfold val; cbn; unfold F2R; cbn; lra|]. split; auto. split; [one_job A|]. split; [unfold val; cbn; unfold F2R; cbn; lra|].
  split; [|reflexivity]. assert (K : Zfloor (/ 2) = 0%Z) by (apply Zfloor_imp; cbn; lra).
  unfold half_even. rewrite K. rewrite Rlt_bool_false by lra. rewrite Rlt_bool_false by lra. reflexivity.
Qed.
