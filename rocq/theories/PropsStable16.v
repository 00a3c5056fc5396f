(** PropsStable16.v -- C61 through bf16: round trips whose float side is bf16 (or f32, as one likes, trip by trip) do not degrade uint2 and uint4
    tensors, on any CPU including the AVX-512 kernels; they do degrade uint8 tensors. *)
From Coq Require Import ZArith List Lia Bool Arith ZifyBool ZifyNat Reals Lra.
From Flocq Require Import Core Binary Bits.
From Verif Require Import Base Floats Simd Dtypes Spec ApiSpec QuantKernels DequantKernels ExecFacts FloatFacts QuantFacts QuantKernelFacts
  QuantGenericFacts DequantFacts DequantGenericFacts QuantLanes Context ContextFacts Footprint QuantizeFacts DequantizeFacts Api PropsQuantize Schedule
  PropsMemory FloatFacts2 PropsDequantize PropsRoundTrip RoundTripFacts PropsIdempotent MinMax MinMaxFacts ConfigSpec F64Facts ConfigFacts PropsConfig
  PropsRepresent PropsReadme PropsDequantBf16 PropsStable.
Import ListNotations.
Open Scope R_scope.

Ltac Zify.zify_post_hook ::= Z.div_mod_to_equations.

(** The quantized types with at most 16 codes. *)
Definition small_type (d : dtype) : Prop := d = DT_UINT2 \/ d = DT_UINT4.
(** One trip through floats of type [dout]: dequantize the packed tensor, compute parameters for the result, quantize the result with them.  Every step may
    run on another CPU, with another number of threads, another cut into blocks; [extra] is what follows the packed bytes in memory. *)
Inductive float_trip (d : dtype) (n : nat) : f32 * Z * mem -> f32 * Z * mem -> Prop :=
| FloatTrip dout A nt oaddr a blocks A' nt' oaddr' thr extra outm o pk scale zp p scale' zp' p' :
    float_type dout -> Forall is_byte extra -> extra <> [] -> Forall is_byte outm -> length outm = (stride dout * n)%nat -> length pk = bytes_for d n ->
    sizes_ok (length outm) n nt -> sizes_ok (length outm) n nt' -> a <> SSE42 -> block_cover n blocks ->
    returns (p ++ extra) outm (dequantize_call A nt oaddr d dout scale zp RO_SET (length p) outm) (Ok o) ->
    compute_quant_config_from_data a dout d o blocks = Ok (scale', zp') ->
    returns o pk (quantize_call A' nt' oaddr' dout d scale' zp' RM_NEAREST thr o pk) (Ok p') ->
    float_trip d n (scale, zp, p) (scale', zp', p').
Inductive float_trips (d : dtype) (n : nat) : nat -> f32 * Z * mem -> f32 * Z * mem -> Prop :=
| NoFloatTrip t : float_trips d n 0 t t
| MoreFloatTrips k t t' t'' : float_trips d n k t t' -> float_trip d n t' t'' -> float_trips d n (S k) t t''.

Lemma small_quant d : small_type d -> quant_type d /\ (3 <= code_max d <= 15)%Z.
Proof.
  intros [-> | ->]; split; try (left; reflexivity); try (right; left; reflexivity);
    [change (code_max DT_UINT2) with 3%Z|change (code_max DT_UINT4) with 15%Z]; lia.
Qed.

(** what a dequantized buffer holds: finite values within 1/256 of themselves and 2^-13 steps of (code - zp) * scale *)
Lemma decoded_near A nt oaddr d dout scale zp inm in_size outm o :
  let n := numel dout (length outm) in
  dq_buffers nt d dout inm in_size outm -> moderate_scale scale -> (0 <= zp <= code_max d)%Z -> Forall is_byte outm ->
  returns inm outm (dequantize_call A nt oaddr d dout scale zp RO_SET in_size outm) (Ok o) ->
  length o = length outm /\ Forall is_byte o /\ forall i, (i < n)%nat -> finite (elem_at dout o i) /\
    Rabs (val (elem_at dout o i) - IZR (code_at d inm i - zp) * val scale) <= (/ 256 * Rabs (IZR (code_at d inm i - zp)) + / 8192) * val scale.
Proof.
  intros n HB Hm Hz Hby HD. pose proof HB as (Hq & Hfp & _). pose proof (code_max_range d Hq) as HM. destruct (moderate_normal _ Hm) as [Hs Hp].
  destruct Hfp as [-> | ->].
  - assert (Hz30 : (Z.abs zp <= 2 ^ 30)%Z) by lia. destruct (dequantized A nt oaddr d scale zp inm in_size outm o HB Hz30 Hby HD) as (HL & Hbo & HX). fold n in HX.
    split; auto. split; auto. intros i Hi. cbn [elem_at]. rewrite HX by auto.
    pose proof (code_at_le d inm i Hq) as HC. assert (Hk0 : (Z.abs (code_at d inm i - zp) <= 2 ^ 20)%Z) by lia.
    destruct (dequant_value_ok scale zp (code_at d inm i) Hs Hk0) as [F V]. split; auto. rewrite V.
    destruct (product_rel scale (code_at d inm i - zp) Hs) as (e & He & E). rewrite E. set (K := IZR (code_at d inm i - zp)) in *. pose proof (Rabs_pos K) as PK.
    replace (K * val scale * (1 + e) - K * val scale) with (e * (K * val scale)) by ring. rewrite !Rabs_mult, (Rabs_pos_eq (val scale)) by lra.
    rewrite <- Rmult_assoc. apply Rmult_le_compat_r; [lra|]. unfold u32r in He.
    apply Rle_trans with (/ 256 * Rabs K); [apply Rmult_le_compat_r; lra|lra].
  - assert (Hz22 : (Z.abs zp <= 2 ^ 22)%Z) by lia.
    destruct (dequantize_bf16 _ _ _ _ _ _ _ _ _ _ _ HB Hz22 Hby HD) as (o' & E & HL & Hbo & _). injection E as <-. split; auto. split; auto.
    assert (Hs16 : bf16_scale scale).
    { split; [apply Hm|]. rewrite Rabs_pos_eq by lra. destruct Hm as (_ & M1 & M2).
      assert (bpow radix2 (-120) <= bpow radix2 (-110)) by (apply bpow_le; lia). assert (bpow radix2 90 <= bpow radix2 100) by (apply bpow_le; lia). lra. }
    destruct (C07_bf16_accuracy A nt oaddr d scale zp inm in_size outm (Ok o) HB Hz Hs16 Hby HD) as (o' & E & HE). injection E as <-. fold n in HE.
    intros i Hi. destruct (HE i Hi) as [F B]. split; auto. rewrite Rabs_mult, (Rabs_pos_eq (val scale)) in B by lra. change (bpow radix2 (-13)) with (/ 8192) in B. lra.
Qed.

(** its range when both end codes occur *)
Lemma near_range d dout o inm n s zp : quant_type d -> 0 < s -> (0 <= zp <= code_max d)%Z -> full_range d inm n ->
  (forall i, (i < n)%nat -> Rabs (val (elem_at dout o i) - IZR (code_at d inm i - zp) * s) <= (/ 256 * Rabs (IZR (code_at d inm i - zp)) + / 8192) * s) ->
  exists lo hi, data_range dout o n lo hi /\
    Rabs (lo - IZR (0 - zp) * s) <= (/ 256 * IZR zp + / 8192) * s /\ Rabs (hi - IZR (code_max d - zp) * s) <= (/ 256 * IZR (code_max d - zp) + / 8192) * s.
Proof.
  intros Hq Hs Hz ((i0 & L0 & C0) & (i1 & L1 & C1)) HX.
  assert (EX : forall m, (0 < m)%nat -> exists a b, (a < m)%nat /\ (b < m)%nat /\ forall i, (i < m)%nat -> val (elem_at dout o a) <= val (elem_at dout o i) <= val (elem_at dout o b)).
  { induction m as [|m IH]; [lia|]. intros _. destruct (Nat.eq_dec m 0) as [->|Hm].
    - exists 0%nat, 0%nat. split; [lia|]. split; [lia|]. intros i Hi. replace i with 0%nat by lia. lra.
    - destruct IH as (a & b & Ha & Hb & H); [lia|]. set (v := fun i => val (elem_at dout o i)) in *. change (forall i, (i < m)%nat -> v a <= v i <= v b) in H.
      exists (if Rle_dec (v a) (v m) then a else m), (if Rle_dec (v m) (v b) then b else m).
      split; [destruct (Rle_dec (v a) (v m)); lia|]. split; [destruct (Rle_dec (v m) (v b)); lia|]. intros i Hi. change (val (elem_at dout o i)) with (v i).
      change (val (elem_at dout o (if Rle_dec (v a) (v m) then a else m))) with (v (if Rle_dec (v a) (v m) then a else m)).
      change (val (elem_at dout o (if Rle_dec (v m) (v b) then b else m))) with (v (if Rle_dec (v m) (v b) then b else m)).
      destruct (Nat.eq_dec i m) as [->|Hne]; [|specialize (H i ltac:(lia))]; destruct (Rle_dec (v a) (v m)); destruct (Rle_dec (v m) (v b)); try lra;
        specialize (H a Ha); lra. }
  destruct (EX n ltac:(lia)) as (a & b & Ha & Hb & H). exists (val (elem_at dout o a)), (val (elem_at dout o b)).
  assert (Z0 : 0 <= IZR zp) by (apply IZR_le; lia). assert (Z1 : 0 <= IZR (code_max d - zp)) by (apply IZR_le; lia).
  split; [split; [exists a; auto|split; [exists b; auto|exact H]]|].
  assert (G : forall i, (i < n)%nat -> - (IZR zp * s + (/ 256 * IZR zp + / 8192) * s) <= val (elem_at dout o i) <= IZR (code_max d - zp) * s + (/ 256 * IZR (code_max d - zp) + / 8192) * s).
  { intros i Hi. specialize (HX i Hi). pose proof (code_at_le d inm i Hq) as HC.
    assert (K1 : - IZR zp <= IZR (code_at d inm i - zp)) by (rewrite <- opp_IZR; apply IZR_le; lia).
    assert (K2 : IZR (code_at d inm i - zp) <= IZR (code_max d - zp)) by (apply IZR_le; lia).
    set (K := IZR (code_at d inm i - zp)) in *. set (x := val (elem_at dout o i)) in *. apply Rabs_le_inv in HX.
    unfold Rabs in HX. destruct (Rcase_abs K) in HX; split; nra. }
  pose proof (G a Ha) as Ga. pose proof (G b Hb) as Gb. pose proof (H i0 L0) as H0. pose proof (H i1 L1) as H1.
  pose proof (HX i0 L0) as X0. pose proof (HX i1 L1) as X1. rewrite C0 in X0. rewrite C1 in X1.
  assert (E0 : IZR (0 - zp) = - IZR zp) by (rewrite minus_IZR; lra). rewrite E0 in *. rewrite Rabs_Ropp, (Rabs_pos_eq (IZR zp)) in X0 by lra.
  rewrite (Rabs_pos_eq (IZR (code_max d - zp))) in X1 by lra. apply Rabs_le_inv in X0. apply Rabs_le_inv in X1. split; apply Rabs_le; lra.
Qed.

(** a zero point is what the position of zero rounds to, also when zero is slightly outside the range *)
Lemma config_zp_is dq lo hi zp : (0 <= zp <= code_max dq)%Z -> (code_max dq <= 255)%Z -> Rabs (- lo / config_step dq lo hi - IZR zp) <= / 4 -> config_zp dq lo hi = zp.
Proof.
  intros Hz HM N. set (S := config_step dq lo hi) in *. set (t0 := - lo / S) in *.
  set (w := RN64 (0 - RN64 (lo / S))).
  assert (W : w = RN64 t0).
  { unfold w, t0. rewrite Rminus_0_l. unfold Rdiv. rewrite Ropp_mult_distr_l_reverse. rewrite !RN64_opp. f_equal.
    apply RN64_fmt. apply generic_format_round; auto with typeclass_instances. }
  assert (ZR : 0 <= IZR zp <= 255) by (split; apply IZR_le; lia). apply Rabs_le_inv in N.
  assert (WE : Rabs (w - t0) <= / 1000000000) by (rewrite W; apply RN64_err; apply Rabs_le; lra). apply Rabs_le_inv in WE.
  pose proof (rha_error w) as RE. apply Rabs_le_inv in RE.
  assert (EZ : round_half_away w = zp) by (apply int_near, Rabs_def1; lra).
  unfold config_zp. fold S w. rewrite EZ. unfold clamp. lia.
Qed.

(** the parameters computed for such a range *)
Lemma near_params d lo hi s zp : small_type d -> bpow radix2 (-110) <= s <= bpow radix2 90 -> (0 <= zp <= code_max d)%Z -> in32 lo -> in32 hi ->
  Rabs (lo - IZR (0 - zp) * s) <= (/ 256 * IZR zp + / 8192) * s -> Rabs (hi - IZR (code_max d - zp) * s) <= (/ 256 * IZR (code_max d - zp) + / 8192) * s ->
  lo < hi /\ config_zp d lo hi = zp /\ Rabs (config_scale d lo hi - s) <= / 200 * s /\ bpow radix2 (-126) <= config_scale d lo hi <= bpow radix2 100.
Proof.
  intros Hd [ML MU] Hz I1 I2 X1 X2. destruct (small_quant d Hd) as [Hq HM]. pose proof (bpow_gt_0 radix2 (-110)) as P0.
  set (m := IZR (code_max d)) in *. set (z := IZR zp) in *. assert (Hmr : 3 <= m <= 15) by (split; apply IZR_le; lia).
  assert (Hz' : 0 <= z <= m) by (split; apply IZR_le; lia).
  assert (Ez : IZR (0 - zp) = - z) by (rewrite minus_IZR; unfold z; lra). assert (Emz : IZR (code_max d - zp) = m - z) by (rewrite minus_IZR; reflexivity).
  rewrite Ez in X1. rewrite Emz in X2. clear Ez Emz.
  assert (SP : 0 < s) by lra.
  set (t1 := lo / s + z). set (t2 := hi / s - (m - z)).
  assert (E1 : lo = (t1 - z) * s) by (unfold t1; field; lra). assert (E2 : hi = (t2 + (m - z)) * s) by (unfold t2; field; lra).
  assert (T1 : - (/ 256 * z + / 8192) <= t1 <= / 256 * z + / 8192).
  { replace (lo - - z * s) with (t1 * s) in X1 by (rewrite E1; ring). rewrite Rabs_mult, (Rabs_pos_eq s) in X1 by lra. apply Rmult_le_reg_r in X1; [|lra]. apply Rabs_le_inv in X1. lra. }
  assert (T2 : - (/ 256 * (m - z) + / 8192) <= t2 <= / 256 * (m - z) + / 8192).
  { replace (hi - (m - z) * s) with (t2 * s) in X2 by (rewrite E2; ring). rewrite Rabs_mult, (Rabs_pos_eq s) in X2 by lra. apply Rmult_le_reg_r in X2; [|lra]. apply Rabs_le_inv in X2. lra. }
  clear X1 X2. clearbody t1 t2.
  set (g := (t2 - t1) / m). assert (EW : hi - lo = m * s * (1 + g)) by (rewrite E1, E2; unfold g; field; lra).
  assert (Hg : - (/ 240) <= g <= / 240).
  { unfold g. split; apply Rmult_le_reg_r with m; try lra; unfold Rdiv; rewrite Rmult_assoc, Rinv_l by lra; lra. }
  clearbody g.
  assert (Hms : 3 * s <= m * s <= 15 * s) by (split; apply Rmult_le_compat_r; lra).
  assert (W1 : s <= hi - lo) by (rewrite EW; nra). assert (W2 : hi - lo <= 16 * s) by (rewrite EW; nra).
  assert (HB : bpow radix2 (-118) <= hi - lo <= bpow radix2 100).
  { split.
    - apply Rle_trans with (bpow radix2 (-110)); [apply bpow_le; lia|lra].
    - apply Rle_trans with (16 * bpow radix2 90); [lra|]. change 16 with (bpow radix2 4). rewrite <- bpow_plus. apply bpow_le. lia. }
  assert (HLH : lo < hi) by lra.
  destruct (step_bounds d lo hi Hq I1 I2 HLH) as (e1 & He1 & ES & B1 & _).
  destruct (config_scale_rel d lo hi Hq I1 I2 HB) as (e2 & He2 & EC & BC).
  apply Rabs_le_inv in He1. apply Rabs_le_inv in He2. unfold u64r in He1. unfold u32r in He2. fold m in ES.
  assert (ES' : config_step d lo hi = s * ((1 + g) * (1 + e1))) by (rewrite ES, EW; field; lra).
  set (h := (1 + g) * (1 + e1)) in *. assert (Hh : 1 - / 230 <= h <= 1 + / 230) by (unfold h; split; nra).
  split; auto. split; [|split]; auto.
  - apply config_zp_is; auto; [lia|]. fold z. rewrite ES', E1. 
    assert (Ih : 1 - / 220 <= / h <= 1 + / 220) by (split; apply Rmult_le_reg_r with h; try lra; rewrite Rinv_l by lra; nra).
    replace (- ((t1 - z) * s) / (s * h) - z) with (z * (/ h - 1) - t1 * / h) by (field; lra).
    set (j := / h) in *. clearbody j. apply Rabs_le. split; nra.
  - rewrite EC, ES'. replace (s * h * (1 + e2) - s) with ((h * (1 + e2) - 1) * s) by ring. rewrite Rabs_mult, (Rabs_pos_eq s) by lra.
    apply Rmult_le_compat_r; [lra|]. apply Rabs_le. split; nra.
Qed.

(** the codes come back *)
Lemma near_code d s scale' zp q x : small_type d -> 0 < s -> normal_scale scale' -> Rabs (val scale' - s) <= / 200 * s ->
  (0 <= zp <= code_max d)%Z -> (0 <= q <= code_max d)%Z -> finite x -> Rabs (val x - IZR (q - zp) * s) <= (/ 256 * Rabs (IZR (q - zp)) + / 8192) * s ->
  quantizable scale' x /\ quant_code d (val scale') zp (val x) = q /\ Rabs (scaled (val scale') (val x)) <> pred_half.
Proof.
  intros Hd Hs Hs' HD Hz Hc Fx HX. destruct (small_quant d Hd) as [Hq HM].
  assert (Hk : Rabs (IZR (q - zp)) <= IZR 15) by (apply abs_IZR_le; lia). change (IZR 15) with 15 in Hk.
  set (K := IZR (q - zp)) in *. pose proof (Rabs_pos K) as HP. apply Rabs_le_inv in HD.
  assert (N : Rabs (val x / val scale' - K) <= / 7).
  { assert (P' : 0 < val scale') by lra.
    set (h := val scale' / s). assert (Hh : 1 - / 200 <= h <= 1 + / 200).
    { unfold h. split; apply Rmult_le_reg_r with s; try lra; unfold Rdiv; rewrite Rmult_assoc, Rinv_l by lra; lra. }
    assert (Ih : 1 - / 199 <= / h <= 1 + / 199) by (split; apply Rmult_le_reg_r with h; try lra; rewrite Rinv_l by lra; nra).
    set (t := val x / s - K). assert (Ht : Rabs t <= / 16).
    { replace (val x - K * s) with (t * s) in HX by (unfold t; field; lra). rewrite Rabs_mult, (Rabs_pos_eq s) in HX by lra. apply Rmult_le_reg_r in HX; [|lra]. lra. }
    replace (val x / val scale' - K) with (t * / h + K * (/ h - 1)) by (unfold t, h; field; lra).
    eapply Rle_trans; [apply Rabs_triang|]. rewrite !Rabs_mult.
    assert (B1 : Rabs (/ h) <= 1 + / 199) by (apply Rabs_le; lra). assert (B2 : Rabs (/ h - 1) <= / 199) by (apply Rabs_le; lra).
    assert (B3 : Rabs t * Rabs (/ h) <= / 16 * (1 + / 199)) by (apply Rmult_le_compat; auto using Rabs_pos).
    assert (B4 : Rabs K * Rabs (/ h - 1) <= 15 * / 199) by (apply Rmult_le_compat; auto using Rabs_pos). lra. }
  destruct (requant_code d scale' zp q x (/ 7) Hq Hs') as (R1 & R2 & R3); auto; fold K; unfold u32r in *; try lra; try lia.
  split; auto. split; auto. apply R3. fold K. lra.
Qed.

(** what dequantizing to [dout] and computing parameters gives, and what quantizing with them does *)
Lemma float_steps dout A nt oaddr a blocks extra outm d n scale zp p o : small_type d -> moderate_scale scale -> (0 <= zp <= code_max d)%Z ->
  length p = bytes_for d n -> Forall is_byte p -> full_range d p n ->
  float_type dout -> Forall is_byte extra -> extra <> [] -> Forall is_byte outm -> length outm = (stride dout * n)%nat ->
  sizes_ok (length outm) n nt -> a <> SSE42 -> block_cover n blocks ->
  returns (p ++ extra) outm (dequantize_call A nt oaddr d dout scale zp RO_SET (length p) outm) o ->
  exists o' scale', o = Ok o' /\ compute_quant_config_from_data a dout d o' blocks = Ok (scale', zp) /\ finite scale' /\
    Rabs (val scale' - val scale) <= / 200 * val scale /\
    forall A' nt' oaddr' thr pk r, length pk = bytes_for d n -> sizes_ok (length outm) n nt' ->
      returns o' pk (quantize_call A' nt' oaddr' dout d scale' zp RM_NEAREST thr o' pk) r ->
      exists p', r = Ok p' /\ length p' = length p /\ Forall is_byte p' /\ forall i, (i < n)%nat -> code_at d p' i = code_at d p i.
Proof.
  intros Hd Hm Hz HLp Hb HF Hfp He Hne Hbo HLo HS Ha HBl HD. destruct (small_quant d Hd) as [Hq HM]. destruct (moderate_normal _ Hm) as [Hs Hp].
  assert (Hn : numel dout (length outm) = n) by (rewrite HLo; destruct Hfp as [-> | ->]; unfold numel; [change (stride DT_F32) with 4%nat|change (stride DT_BF16) with 2%nat]; lia).
  assert (HB : dq_buffers nt d dout (p ++ extra) (length p) outm).
  { unfold dq_buffers. rewrite Hn. split; auto. split; auto. split; [apply Forall_app; auto|]. split; auto. rewrite app_length.
    split; [lia|]. split; auto. intros _ _ _ _. destruct extra; [congruence|cbn; lia]. }
  assert (exists o', o = Ok o') as [o' ->].
  { destruct Hfp as [-> | ->].
    - assert (Hz30 : (Z.abs zp <= 2 ^ 30)%Z) by lia. destruct (C07_dequantize_set_f32 _ _ _ _ _ _ _ _ _ _ HB Hz30 HD) as (o' & E & _). exists o'; exact E.
    - assert (Hz22 : (Z.abs zp <= 2 ^ 22)%Z) by lia. destruct (dequantize_bf16 _ _ _ _ _ _ _ _ _ _ _ HB Hz22 Hbo HD) as (o' & E & _). exists o'; exact E. }
  assert (HCd : forall i, (i < n)%nat -> code_at d (p ++ extra) i = code_at d p i).
  { intros i Hi. apply code_at_app; auto. rewrite HLp, codes_per_byte_q, bytes_for_per_byte by auto. clear - Hq Hi. destruct Hq as [->|[->| ->]]; cbn [per_byte]; lia. }
  pose proof (full_range_ext d p (p ++ extra) n HCd HF) as HF'.
  destruct (decoded_near A nt oaddr d dout scale zp (p ++ extra) (length p) outm o' HB Hm Hz Hbo HD) as (HL & Hby & HX). rewrite Hn in HX.
  destruct (near_range d dout o' (p ++ extra) n (val scale) zp Hq Hp Hz HF' (fun i Hi => proj2 (HX i Hi))) as (lo & hi & HR & X1 & X2).
  assert (HFin : finite_data dout o' n) by (split; auto; split; [rewrite HL; exact HLo|]; intros i Hi; apply HX; auto).
  assert (I1 : in32 lo) by (destruct HR as ((i & Hi & <-) & _); apply in32_val, HFin; auto).
  assert (I2 : in32 hi) by (destruct HR as (_ & (i & Hi & <-) & _); apply in32_val, HFin; auto).
  destruct (near_params d lo hi (val scale) zp Hd (proj2 Hm) Hz I1 I2 X1 X2) as (LH & EZ & ES & BC).
  destruct (C21_documented_parameters a dout d o' n blocks _ _ Ha Hfp Hq HFin HBl HR LH) as (s2 & EC & Fs & Vs).
  rewrite EZ in *. rewrite <- Vs in ES, BC. pose proof (bpow_gt_0 radix2 (-126)) as P.
  assert (Hs' : normal_scale s2) by (split; auto; rewrite Rabs_pos_eq; lra).
  exists o', s2. split; auto. split; auto. split; auto. split; auto. intros A' nt' oaddr' thr pk r HLk HS' HQ.
  assert (Hno : numel dout (length o') = n) by (rewrite HL; exact Hn).
  assert (HB' : buffers_ok nt' dout d o' pk).
  { unfold buffers_ok. rewrite Hno, HL. auto. }
  assert (R : forall i, (i < n)%nat -> quantizable s2 (elem_at dout o' i) /\ quant_code d (val s2) zp (val (elem_at dout o' i)) = code_at d (p ++ extra) i /\
     Rabs (scaled (val s2) (val (elem_at dout o' i))) <> pred_half).
  { intros i Hi. apply (near_code d (val scale)); auto; try apply HX; auto. apply code_at_le; auto. }
  assert (Hz22 : (Z.abs zp <= 2 ^ 22)%Z) by lia.
  destruct (C01_quantize_nearest A' nt' oaddr' dout d s2 zp thr o' pk r HB' (normal_good _ Hs') Hz22) as (p' & -> & HLp' & HCo); auto.
  { rewrite Hno. intros i Hi. destruct (R i Hi) as (R1 & _ & R3). split; auto. }
  destruct (quantize_near A' nt' oaddr' dout d s2 zp thr o' pk (Ok p') HB' (normal_good _ Hs') Hz22) as (p2 & E2 & _ & Hbp & _); auto.
  { rewrite Hno. intros i Hi. apply (R i Hi). }
  injection E2 as <-. exists p'. split; auto. split; [congruence|]. split; auto. rewrite Hno in HCo.
  intros i Hi. etransitivity; [apply HCo; exact Hi|]. destruct (R i Hi) as (_ & R2 & _). etransitivity; [exact R2|apply HCd; auto].
Qed.

(** ** C61 through bf16 or f32, one trip: the zero point and the codes are the old ones, the scale moves by at most 1/200 of itself. *)
Theorem C61_float_trip d n scale zp p scale' zp' p' : small_type d -> moderate_scale scale -> (0 <= zp <= code_max d)%Z ->
  length p = bytes_for d n -> Forall is_byte p -> full_range d p n -> float_trip d n (scale, zp, p) (scale', zp', p') ->
  zp' = zp /\ finite scale' /\ Rabs (val scale' - val scale) <= / 200 * val scale /\
  length p' = length p /\ Forall is_byte p' /\ forall i, (i < n)%nat -> code_at d p' i = code_at d p i.
Proof.
  intros Hd Hm Hz HLp Hb HF HT.
  inversion HT as [dout A nt oaddr a blocks A' nt' oaddr' thr extra outm o pk s0 z0 p0 s' z' p1 Hfp He Hne Hbo HLo HLk HS HS' Ha HBl HD HC HQ]; subst.
  destruct (float_steps dout A nt oaddr a blocks extra outm d n scale zp p (Ok o) Hd Hm Hz HLp Hb HF Hfp He Hne Hbo HLo HS Ha HBl HD) as (o' & s2 & E & EC & Fs & Ds & HX).
  injection E as <-. rewrite HC in EC. injection EC as <- ->. destruct (HX A' nt' oaddr' thr pk (Ok p') HLk HS' HQ) as (p2 & E & HH). injection E as <-.
  split; auto.
Qed.

(** Such a trip always completes. *)
Theorem C61_float_trip_completes d n scale zp p dout A nt oaddr a blocks A' nt' oaddr' thr extra outm pk : small_type d -> moderate_scale scale ->
  (0 <= zp <= code_max d)%Z -> length p = bytes_for d n -> Forall is_byte p -> full_range d p n ->
  float_type dout -> Forall is_byte extra -> extra <> [] -> Forall is_byte outm -> length outm = (stride dout * n)%nat -> length pk = bytes_for d n ->
  sizes_ok (length outm) n nt -> sizes_ok (length outm) n nt' -> a <> SSE42 -> block_cover n blocks ->
  exists o scale' p',
    returns (p ++ extra) outm (dequantize_call A nt oaddr d dout scale zp RO_SET (length p) outm) (Ok o) /\
    compute_quant_config_from_data a dout d o blocks = Ok (scale', zp) /\
    returns o pk (quantize_call A' nt' oaddr' dout d scale' zp RM_NEAREST thr o pk) (Ok p') /\
    float_trip d n (scale, zp, p) (scale', zp, p').
Proof.
  intros Hd Hm Hz HLp Hb HF Hfp He Hne Hbo HLo HLk HS HS' Ha HBl.
  destruct (returns_total (p ++ extra) outm (dequantize_call A nt oaddr d dout scale zp RO_SET (length p) outm)) as [r HR].
  destruct (float_steps dout A nt oaddr a blocks extra outm d n scale zp p r Hd Hm Hz HLp Hb HF Hfp He Hne Hbo HLo HS Ha HBl HR) as (o & s2 & -> & EC & Fs & Ds & HX).
  destruct (returns_total o pk (quantize_call A' nt' oaddr' dout d s2 zp RM_NEAREST thr o pk)) as [r' HR'].
  destruct (HX A' nt' oaddr' thr pk r' HLk HS' HR') as (p2 & -> & _). exists o, s2, p2. split; auto. split; auto. split; auto.
  exact (FloatTrip d n dout A nt oaddr a blocks A' nt' oaddr' thr extra outm o pk scale zp p s2 zp p2 Hfp He Hne Hbo HLo HLk HS HS' Ha HBl HR EC HR').
Qed.

Lemma pow_bounds k : (k <= 1000)%nat -> / 1024 <= (199 / 200) ^ k /\ (201 / 200) ^ k <= 1024.
Proof.
  intros Hk. assert (M1 : (201 / 200) ^ k <= (201 / 200) ^ 1000) by (apply Rle_pow; [lra|auto]).
  assert (M2 : (199 / 200) ^ 1000 <= (199 / 200) ^ k).
  { replace 1000%nat with (k + (1000 - k))%nat by lia. rewrite pow_add. rewrite <- (Rmult_1_r ((199 / 200) ^ k)) at 2.
    apply Rmult_le_compat_l; [apply pow_le; lra|]. rewrite <- (pow1 (1000 - k)). apply pow_incr. lra. }
  split.
  - eapply Rle_trans; [|exact M2]. change 1000%nat with (10 * (10 * 10))%nat. rewrite !pow_mult.
    assert (A1 : 951 / 1000 <= (199 / 200) ^ 10) by (cbn [pow]; lra).
    assert (A2 : 605 / 1000 <= (951 / 1000) ^ 10) by (cbn [pow]; lra). assert (A3 : / 1024 <= (605 / 1000) ^ 10) by (cbn [pow]; lra).
    eapply Rle_trans; [exact A3|]. apply pow_incr. split; [lra|]. eapply Rle_trans; [exact A2|]. apply pow_incr. lra.
  - eapply Rle_trans; [exact M1|]. change 1000%nat with (10 * (10 * 10))%nat. rewrite !pow_mult.
    assert (A1 : (201 / 200) ^ 10 <= 1052 / 1000) by (cbn [pow]; lra).
    assert (A2 : (1052 / 1000) ^ 10 <= 17 / 10) by (cbn [pow]; lra). assert (A3 : (17 / 10) ^ 10 <= 1024) by (cbn [pow]; lra).
    eapply Rle_trans; [|exact A3]. apply pow_incr. split; [apply pow_le, pow_le; lra|]. eapply Rle_trans; [|exact A2]. apply pow_incr.
    split; [apply pow_le; lra|exact A1].
Qed.

(** ** ... and up to a thousand trips, each through bf16 or f32, each step on any CPU. *)
Theorem C61_float_trips d n k scale zp p scale' zp' p' : small_type d -> (k <= 1000)%nat ->
  finite scale -> bpow radix2 (-100) <= val scale <= bpow radix2 80 -> (0 <= zp <= code_max d)%Z ->
  length p = bytes_for d n -> Forall is_byte p -> full_range d p n ->
  float_trips d n k (scale, zp, p) (scale', zp', p') ->
  zp' = zp /\ finite scale' /\ val scale * (199 / 200) ^ k <= val scale' <= val scale * (201 / 200) ^ k /\
  length p' = length p /\ Forall is_byte p' /\ forall i, (i < n)%nat -> code_at d p' i = code_at d p i.
Proof.
  intros Hd Hk Fs [BL BU] Hz HLp Hb HF HT. pose proof (bpow_gt_0 radix2 (-100)) as P0.
  remember (scale, zp, p) as t0 eqn:E0. remember (scale', zp', p') as t1 eqn:E1. revert scale' zp' p' E1.
  induction HT as [t|k t [[s1 z1] p1] t'' HT IH HT1]; intros scale' zp' p' E1; subst.
  - injection E1 as <- <- <-. cbn [pow]. repeat (split; auto); lra.
  - destruct (IH ltac:(lia) eq_refl s1 z1 p1 eq_refl) as (-> & F1 & D1 & L1 & B1 & C1). clear IH.
    destruct (pow_bounds k ltac:(lia)) as [Q1 Q2].
    assert (Hm1 : moderate_scale s1).
    { split; auto. split.
      - apply Rle_trans with (bpow radix2 (-100) * / 1024); [right; change (/ 1024) with (bpow radix2 (-10)); rewrite <- bpow_plus; reflexivity|].
        eapply Rle_trans; [|apply D1]. apply Rmult_le_compat; lra.
      - apply Rle_trans with (bpow radix2 80 * 1024); [|right; change 1024 with (bpow radix2 10); rewrite <- bpow_plus; reflexivity].
        eapply Rle_trans; [apply D1|]. apply Rmult_le_compat; try lra. apply pow_le. lra. }
    destruct (C61_float_trip d n s1 zp p1 scale' zp' p' Hd Hm1 Hz) as (-> & F2 & D2 & L2 & B2 & C2); auto; try congruence.
    { apply (full_range_ext d p p1 n); auto. }
    split; auto. split; auto. split; [|split; [congruence|split; auto]].
    + apply Rabs_le_inv in D2. cbn [pow]. assert (S1 : 0 < val s1) by (destruct Hm1 as (_ & M & _); pose proof (bpow_gt_0 radix2 (-110)); lra).
      set (u := (199 / 200) ^ k) in *. set (v := (201 / 200) ^ k) in *. replace (val scale * (199 / 200 * u)) with (199 / 200 * (val scale * u)) by ring.
      replace (val scale * (201 / 200 * v)) with (201 / 200 * (val scale * v)) by ring. split; lra.
    + intros i Hi. rewrite C2, C1; auto.
Qed.

(** Chains of any mixture exist: for every choice [dout] of a float type per trip and every CPU, up to a thousand trips are possible. *)
Theorem C61_float_trips_possible d n k scale zp p (A a : arch) (dout : nat -> dtype) : small_type d -> (k <= 1000)%nat ->
  finite scale -> bpow radix2 (-100) <= val scale <= bpow radix2 80 -> (0 <= zp <= code_max d)%Z ->
  length p = bytes_for d n -> Forall is_byte p -> full_range d p n -> (Z.of_nat n < 2 ^ 59)%Z -> a <> SSE42 -> (forall j, float_type (dout j)) ->
  exists scale' zp' p', float_trips d n k (scale, zp, p) (scale', zp', p').
Proof.
  intros Hd Hk Fs BS Hz HLp Hb HF Hn Ha Hfp. induction k as [|k IH].
  - exists scale, zp, p. constructor.
  - destruct (IH ltac:(lia)) as (s1 & z1 & p1 & T). clear IH. assert (Hk1 : (k <= 1000)%nat) by lia.
    destruct (C61_float_trips d n k scale zp p s1 z1 p1 Hd Hk1 Fs BS Hz HLp Hb HF T) as (-> & F1 & D1 & L1 & B1 & C1).
    pose proof (bpow_gt_0 radix2 (-100)) as P0. destruct (pow_bounds k Hk1) as [Q1 Q2]. destruct BS as [BL BU].
    assert (Hm1 : moderate_scale s1).
    { split; auto. split.
      - apply Rle_trans with (bpow radix2 (-100) * / 1024); [right; change (/ 1024) with (bpow radix2 (-10)); rewrite <- bpow_plus; reflexivity|].
        eapply Rle_trans; [|apply D1]. apply Rmult_le_compat; lra.
      - apply Rle_trans with (bpow radix2 80 * 1024); [|right; change 1024 with (bpow radix2 10); rewrite <- bpow_plus; reflexivity].
        eapply Rle_trans; [apply D1|]. apply Rmult_le_compat; try lra. apply pow_le. lra. }
    set (t := dout k). assert (Ht : float_type t) by apply Hfp. clearbody t.
    assert (HS : sizes_ok (length (repeat 0%Z (stride t * n))) n 1).
    { rewrite repeat_length. unfold sizes_ok. destruct Ht as [-> | ->]; [change (stride DT_F32) with 4%nat|change (stride DT_BF16) with 2%nat]; lia. }
    assert (Hn0 : (0 < n)%nat) by (destruct HF as ((i & Hi & _) & _); lia).
    assert (BC : block_cover n [(0, n)%nat]).
    { split; [intros b [<-|[]]; cbn; lia|]. intros j Hj. exists (0, n)%nat. split; [left; auto|cbn; lia]. }
    assert (LP1 : length p1 = bytes_for d n) by congruence.
    assert (Z0 : forall m, Forall is_byte (repeat 0%Z m)) by (intros m; apply Forall_forall; intros x0 Hx; apply repeat_spec in Hx; subst; unfold is_byte; lia).
    destruct (C61_float_trip_completes d n s1 zp p1 t A 1 0 a [(0, n)%nat] A 1 0 f_zero [0%Z] (repeat 0%Z (stride t * n)) (repeat 0%Z (bytes_for d n)) Hd Hm1 Hz LP1 B1
      (full_range_ext d p p1 n C1 HF) Ht (Z0 1%nat) ltac:(discriminate) (Z0 _) (repeat_length _ _) (repeat_length _ _) HS HS Ha BC) as (o & s2 & p2 & _ & _ & _ & TT).
    exists s2, zp, p2. exact (MoreFloatTrips d n k _ _ _ T TT).
Qed.

(** From the data: f32 or bf16 data whose range includes 0, zero not close to half-way between two codes, quantized with the parameters computed for it. *)
Theorem C61_float_workflow a blocks A nt oaddr din dq scale zp thr inm pk p lo hi k scale' zp' p' :
  let n := numel din (length inm) in
  a <> SSE42 -> finite_data din inm n -> block_cover n blocks -> data_range din inm n lo hi -> lo <= 0 <= hi ->
  bpow radix2 (-90) <= hi - lo <= bpow radix2 80 -> zero_off_tie dq lo hi -> small_type dq ->
  compute_quant_config_from_data a din dq inm blocks = Ok (scale, zp) ->
  buffers_ok nt din dq inm pk ->
  returns inm pk (quantize_call A nt oaddr din dq scale zp RM_NEAREST thr inm pk) (Ok p) ->
  (k <= 1000)%nat -> float_trips dq n k (scale, zp, p) (scale', zp', p') ->
  zp' = zp /\ val scale * (199 / 200) ^ k <= val scale' <= val scale * (201 / 200) ^ k /\
  length p' = length p /\ forall i, (i < n)%nat -> code_at dq p' i = code_at dq p i.
Proof.
  intros n Ha HD HBl HR H0 HB HT Hsm EC HBu HQ Hk HTr. pose proof HBu as (Hd & Hq & _ & HLp & _). pose proof (bpow_gt_0 radix2 (-90)) as P0.
  assert (H : lo < hi) by lra.
  assert (HB1 : bpow radix2 (-100) <= hi - lo <= bpow radix2 88).
  { split; [apply Rle_trans with (bpow radix2 (-90))|apply Rle_trans with (bpow radix2 80)]; try apply HB; apply bpow_le; lia. }
  assert (HB' : bpow radix2 (-118) <= hi - lo <= bpow radix2 100).
  { split; [apply Rle_trans with (bpow radix2 (-90))|apply Rle_trans with (bpow radix2 80)]; try apply HB; apply bpow_le; lia. }
  assert (HF : full_range dq p n).
  { refine (proj1 (C61_workflow a blocks A nt oaddr din dq scale zp thr inm pk p lo hi 0 scale zp p Ha HD HBl HR H0 HB1 HT EC HBu HQ _ (NoTrip _ _ _))). lia. }
  destruct (C21_documented_parameters a din dq inm n blocks lo hi Ha Hd Hq HD HBl HR H) as (s & E & Fs & Vs).
  rewrite EC in E. injection E as <- ->.
  assert (I1 : in32 lo) by (destruct HR as ((i & Hi & <-) & _); apply in32_val, HD; auto).
  assert (I2 : in32 hi) by (destruct HR as (_ & (i & Hi & <-) & _); apply in32_val, HD; auto).
  destruct (config_scale_rel dq lo hi Hq I1 I2 HB') as (e & He & Es & Bs). destruct (step_bounds dq lo hi Hq I1 I2 H) as (g & Hg & ES & _).
  destruct (config_zp_near dq lo hi Hq I1 I2 H H0) as (T & Z & N). pose proof (code_max_R dq Hq) as Q. pose proof (code_max_range dq Hq) as Hm.
  pose proof (bpow_gt_0 radix2 (-126)) as P1. assert (Hs : normal_scale scale) by (split; auto; rewrite Vs, Rabs_pos_eq; lra).
  assert (MS : bpow radix2 (-100) <= val scale <= bpow radix2 80).
  { rewrite Vs, Es, ES. apply Rabs_le_inv in He. apply Rabs_le_inv in Hg. unfold u32r in He. unfold u64r in Hg.
    set (w := hi - lo) in *. set (m := IZR (code_max dq)) in *. set (h := (1 + g) * (1 + e)). assert (Hh : 255 / 256 <= h <= 1 + / 2) by (unfold h; split; nra).
    replace (w / m * (1 + g) * (1 + e)) with (w / m * h) by (unfold h; ring).
    assert (W1 : w / 255 <= w / m) by (apply Rmult_le_compat_l; [lra|apply Rinv_le; lra]).
    assert (W2 : w / m <= w / 3) by (apply Rmult_le_compat_l; [lra|apply Rinv_le; lra]). set (v := w / m) in *. split.
    - apply Rle_trans with (/ 256 * w); [|nra]. apply Rle_trans with (/ 256 * bpow radix2 (-90)); [|lra]. change (/ 256) with (bpow radix2 (-8)).
      rewrite <- bpow_plus. apply bpow_le. lia.
    - apply Rle_trans with (w * 1); [nra|]. rewrite Rmult_1_r. lra. }
  assert (LB : length p = bytes_for dq n /\ Forall is_byte p).
  { assert (QZ : forall i, (i < n)%nat -> quantizable scale (elem_at din inm i)).
    { intros i Hi. split; [apply HD; auto|]. destruct HR as (_ & _ & HR). pose proof (config_fits dq lo hi (val (elem_at din inm i)) Hq I1 I2 HB' H0 (HR i Hi)) as F.
      cbv zeta in F. rewrite <- Vs in F. pose proof (scaled_rel scale (val (elem_at din inm i)) Hs) as SR. set (t := val (elem_at din inm i) / val scale) in *.
      assert (B1 : (Rabs (IZR (0 - config_zp dq lo hi)) <= IZR 255)%R) by (apply abs_IZR_le; lia). apply Rabs_le_inv in B1.
      assert (B2 : (Rabs (IZR (code_max dq - config_zp dq lo hi)) <= IZR 255)%R) by (apply abs_IZR_le; lia). apply Rabs_le_inv in B2.
      assert (Tt : Rabs t <= 256) by (apply Rabs_le; lra). destruct tiny_small as [_ T2]. set (y := scaled _ _) in *.
      assert (D : Rabs (y - t) <= 1) by (unfold u32r in SR; lra). apply Rabs_le_inv in Tt. apply Rabs_le_inv in D.
      apply Rle_lt_trans with 300; [apply Rabs_le; lra|]. change (bpow radix2 30) with 1073741824. lra. }
    assert (Hz22 : (Z.abs (config_zp dq lo hi) <= 2 ^ 22)%Z) by lia.
    destruct (quantize_near A nt oaddr din dq scale (config_zp dq lo hi) thr inm pk (Ok p) HBu (normal_good _ Hs) Hz22) as (p2 & E & HL2 & Hb2 & _); auto.
    injection E as <-. split; [rewrite HL2, HLp; reflexivity|auto]. }
  destruct LB as [LB1 LB2].
  destruct (C61_float_trips dq n k scale (config_zp dq lo hi) p scale' zp' p' Hsm Hk Fs MS Z LB1 LB2 HF HTr) as (R1 & R2 & R3 & R4 & R5 & R6). auto.
Qed.

(** uint8: FALSE.  Codes {0, 96, 255} with scale 1.0078125 and zero point 0 are decoded to the bf16 values {0, 97, 256}; the parameters computed for these
    give 97 the code 97, on every CPU. *)
Theorem C61_bf16_uint8_refuted A : exists scale scale' p',
  full_range DT_UINT8 [0; 96; 255]%Z 3 /\ moderate_scale scale /\
  returns [0; 96; 255; 0]%Z (repeat 0%Z 6) (dequantize_call A 1 0 DT_UINT8 DT_BF16 scale 0 RO_SET 3 (repeat 0%Z 6)) (Ok (le_bytes 2 0 ++ le_bytes 2 0x42c2 ++ le_bytes 2 0x4380)) /\
  compute_quant_config_from_data A DT_BF16 DT_UINT8 (le_bytes 2 0 ++ le_bytes 2 0x42c2 ++ le_bytes 2 0x4380) [(0, 3)%nat] = Ok (scale', 0%Z) /\
  returns (le_bytes 2 0 ++ le_bytes 2 0x42c2 ++ le_bytes 2 0x4380) (repeat 0%Z 3)
    (quantize_call A 1 0 DT_BF16 DT_UINT8 scale' 0 RM_NEAREST f_zero (le_bytes 2 0 ++ le_bytes 2 0x42c2 ++ le_bytes 2 0x4380) (repeat 0%Z 3)) (Ok p') /\
  code_at DT_UINT8 p' 1 = 97%Z.
Proof.
  exists (f32_of_bits 0x3f810000), (f32_of_bits 0x3f808081), [0; 97; 255]%Z.
  split; [split; [exists 0%nat|exists 2%nat]; split; try lia; reflexivity|].
  split.
  { assert (V : val (f32_of_bits 0x3f810000) = 129 / 128) by (unfold val; cbn; unfold F2R; cbn; lra). split; [reflexivity|]. rewrite V. split.
    - apply Rle_trans with (bpow radix2 0); [apply bpow_le; lia|cbn; lra].
    - apply Rle_trans with (bpow radix2 1); [cbn; lra|apply bpow_le; lia]. }
  split; [one_job A|]. split; [apply config_bits; destruct A; vm_compute; reflexivity|]. split; [one_job A|reflexivity].
Qed.
