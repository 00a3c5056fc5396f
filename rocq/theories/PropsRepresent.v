(** PropsRepresent.v -- C16 on every path (including the two scaled values where the x86 vector rounding is off by one) and
    C23: the computed parameters represent the data. *)
From Coq Require Import ZArith List Lia Bool Reals Lra Psatz.
From Flocq Require Import Core Binary Bits Relative.
From Verif Require Import Base Floats Simd Dtypes Spec ApiSpec QuantKernels DequantKernels ExecFacts FloatFacts QuantFacts QuantKernelFacts
  QuantGenericFacts DequantFacts DequantGenericFacts QuantLanes Context ContextFacts Footprint QuantizeFacts DequantizeFacts Api PropsQuantize Schedule
  PropsMemory FloatFacts2 PropsDequantize PropsRoundTrip PathSpec PropsPaths RoundTripFacts PropsIdempotent MinMax MinMaxFacts ConfigSpec F64Facts ConfigFacts PropsConfig.
Import ListNotations.

(** Every path stores (the clamped sum of the zero point and) an integer within 1/2 + 2^-25 of the scaled value. *)
Lemma quantize_near A nt oaddr din dout scale zp thr inm outm r :
  buffers_ok nt din dout inm outm -> good_scale scale -> (Z.abs zp <= 2 ^ 22)%Z ->
  let n := numel din (length inm) in
  (forall i, i < n -> quantizable scale (elem_at din inm i)) ->
  returns inm outm (quantize_call A nt oaddr din dout scale zp RM_NEAREST thr inm outm) r ->
  exists o, r = Ok o /\ length o = length outm /\ Forall is_byte o /\
    forall i, i < n -> exists k, code_at dout o i = clamp 0 (code_max dout) (k + zp) /\
      (Rabs (IZR k - scaled (val scale) (val (elem_at din inm i))) <= / 2 + bpow radix2 (-25))%R.
Proof.
  intros HB Hsc Hz n HI HR.
  destruct (quantize_every_byte A nt oaddr din dout scale zp thr inm outm r HB Hsc Hz (fun i Hi _ => HI i Hi) HR) as [E HC]. fold n in E, HC.
  destruct (C10_exact_codes A nt oaddr din dout scale zp thr inm outm r HB Hsc Hz HI HR) as (o & Eo & Lo & HE). fold n in HE.
  exists o. split; auto. split; auto. split.
  - rewrite Eo in E. injection E as ->. destruct HB as (_ & Hq & _). apply Forall_forall. intros x Hx. apply in_map_iff in Hx. destruct Hx as (k & <- & _).
    rewrite byte_of_packed by auto. apply packed_byte_range; auto.
  - intros i Hi. specialize (HE i Hi). cbv zeta in HE. set (y := scaled (val scale) (val (elem_at din inm i))) in *. destruct HE as (H1 & H2 & H3).
    pose proof (bpow_gt_0 radix2 (-25)) as P. pose proof (rha_error y) as RE.
    assert (Dec : (x86_vector A /\ vector_path A din dout oaddr n nt i = true /\ (y = pred_half \/ y = - pred_half)%R) \/
                  ~ (x86_vector A /\ vector_path A din dout oaddr n nt i = true /\ Rabs y = pred_half)).
    { destruct (Req_dec (Rabs y) pred_half) as [Ey|Ey]; [|right; tauto].
      assert (Ey' : (y = pred_half \/ y = - pred_half)%R) by (rewrite <- Ey; unfold Rabs; destruct Rcase_abs; [right; ring|auto]).
      destruct (vector_path A din dout oaddr n nt i); [|right; intros (_ & ? & _); discriminate].
      assert (HA : x86_vector A \/ ~ x86_vector A) by (unfold x86_vector; destruct A; auto; right; intros [?|[?|[?|?]]]; discriminate).
      destruct HA; [left|right]; tauto. }
    destruct Dec as [(HA & HV & [Ey|Ey])|N].
    + exists 1%Z. destruct (H1 HA HV Ey) as [-> _]. split; auto. rewrite Ey. unfold pred_half. apply Rabs_le. lra.
    + exists (-1)%Z. destruct (H2 HA HV Ey) as [-> _]. split; auto. rewrite Ey. unfold pred_half. apply Rabs_le. lra.
    + exists (round_half_away y). rewrite H3 by auto. split; auto. lra.
Qed.

(** Error of one element, in steps. *)
Lemma represent_error d scale zp x k delta : quant_type d -> normal_scale scale -> (0 < val scale)%R -> (0 <= zp <= code_max d)%Z -> (0 <= delta <= / 4)%R ->
  (Rabs (IZR k - scaled (val scale) x) <= / 2 + bpow radix2 (-25))%R ->
  (IZR (0 - zp) - / 2 - delta <= x / val scale <= IZR (code_max d - zp) + / 2 + delta)%R ->
  (Rabs (val (dequant_value scale zp (clamp 0 (code_max d) (k + zp))) - x) <= val scale * (/ 2 + delta + bpow radix2 (-13)))%R.
Proof.
  intros Hd Hs Hp Hz Hdl Hk [L U]. pose proof (code_max_range d Hd) as Hm. pose proof (scaled_rel scale x Hs) as R.
  set (c := clamp 0 (code_max d) (k + zp)). assert (Hc : (0 <= c <= code_max d)%Z) by (unfold c, clamp; lia).
  set (m := (c - zp)%Z). assert (Hm' : (Z.abs m <= 255)%Z) by (unfold m; lia).
  destruct (dequant_value_ok scale zp c Hs ltac:(fold m; lia)) as [_ V]. fold m in V. rewrite V.
  pose proof (product_near scale m Hs) as P. set (p := RN32 (IZR m * val scale)) in *.
  set (t := (x / val scale)%R) in *. set (y := scaled (val scale) x) in *.
  assert (B1 : (Rabs (IZR (0 - zp)) <= IZR 255)%R) by (apply abs_IZR_le; lia). apply Rabs_le_inv in B1.
  assert (B2 : (Rabs (IZR (code_max d - zp)) <= IZR 255)%R) by (apply abs_IZR_le; lia). apply Rabs_le_inv in B2.
  assert (B3 : (Rabs (IZR m) <= IZR 255)%R) by (apply abs_IZR_le; lia).
  assert (T : (Rabs t <= 256)%R) by (apply Rabs_le; lra).
  destruct tiny_small as [_ T2]. change (bpow radix2 (-13)) with (/ 8192)%R. change (bpow radix2 (-25)) with (/ 33554432)%R in Hk.
  assert (D : (Rabs (y - t) <= / 20000)%R).
  { assert (tiny <= bpow radix2 (-20))%R by (unfold tiny; apply bpow_le; lia). change (bpow radix2 (-20)) with (/ 1048576)%R in *. unfold u32r in R. lra. }
  assert (PM : (Rabs (p / val scale - IZR m) <= / 60000)%R) by (unfold u32r in P; lra).
  assert (M : (Rabs (IZR m - t) <= / 2 + delta + / 19000)%R).
  { apply Rabs_le_inv in Hk. apply Rabs_le_inv in D. apply Rabs_le.
    destruct (Z.le_gt_cases 0 (k + zp)) as [G1|G1]; [destruct (Z.le_gt_cases (k + zp) (code_max d)) as [G2|G2]|].
    - assert (m = k) as -> by (unfold m, c, clamp; lia). lra.
    - assert (Em : m = (code_max d - zp)%Z) by (unfold m, c, clamp; lia). rewrite Em in *.
      assert (IZR (code_max d - zp) + 1 <= IZR k)%R by (rewrite <- plus_IZR; apply IZR_le; lia). lra.
    - assert (Em : m = (0 - zp)%Z) by (unfold m, c, clamp; lia). rewrite Em in *.
      assert (IZR k <= IZR (0 - zp) - 1)%R by (rewrite <- minus_IZR; apply IZR_le; lia). lra. }
  replace (p - x)%R with (val scale * ((p / val scale - IZR m) + (IZR m - t)))%R by (unfold t; field; lra).
  rewrite Rabs_mult, (Rabs_pos_eq (val scale)) by lra. apply Rmult_le_compat_l; [lra|]. eapply Rle_trans; [apply Rabs_triang|]. lra.
Qed.

(** Quantize and dequantize back, for data within half a step (and delta) of the representable range. *)
Lemma round_trip_all A nt oaddr A2 nt2 oaddr2 dq scale zp thr inm pk p extra outm r delta :
  let n := numel DT_F32 (length outm) in
  buffers_ok nt DT_F32 dq inm pk -> length inm = length outm -> sizes_ok (length outm) n nt2 -> normal_scale scale -> (0 < val scale)%R ->
  (0 <= zp <= code_max dq)%Z -> (forall i, i < n -> finite (f32_at inm i)) -> Forall is_byte extra -> extra <> [] -> (0 <= delta <= / 4)%R ->
  (forall i, (i < n)%nat -> Rabs (scaled (val scale) (val (f32_at inm i))) < bpow radix2 30)%R ->
  returns inm pk (quantize_call A nt oaddr DT_F32 dq scale zp RM_NEAREST thr inm pk) (Ok p) ->
  returns (p ++ extra) outm (dequantize_call A2 nt2 oaddr2 dq DT_F32 scale zp RO_SET (length p) outm) r ->
  exists o, r = Ok o /\ length o = length outm /\
    forall i, i < n -> let x := val (f32_at inm i) in
      (IZR (0 - zp) - / 2 - delta <= x / val scale <= IZR (code_max dq - zp) + / 2 + delta)%R ->
      (Rabs (val (f32_at o i) - x) <= val scale * (/ 2 + delta + bpow radix2 (-13)))%R.
Proof.
  intros n HB HL HS2 Hs Hp Hz HF He Hne Hdl Hq30 HQ HD. pose proof HB as (Hfp & Hq & Hb & Hl & HS1). pose proof (code_max_range dq Hq) as Hm.
  assert (Hn : numel DT_F32 (length inm) = n) by (unfold n; rewrite HL; reflexivity).
  destruct (quantize_near A nt oaddr DT_F32 dq scale zp thr inm pk (Ok p) HB (normal_good _ Hs) ltac:(lia)) as (p' & E & HLp & Hby & HC); auto.
  { rewrite Hn. intros i Hi. split; [apply HF; auto|apply Hq30; auto]. }
  injection E as <-. rewrite Hn in HC.
  assert (HB' : dq_buffers nt2 dq DT_F32 (p ++ extra) (length p) outm).
  { repeat split; auto; try (left; reflexivity); try apply HS2.
    - apply Forall_app; auto.
    - rewrite HLp, Hl, Hn. reflexivity.
    - rewrite app_length. lia.
    - intros _ _ _ _. rewrite app_length. destruct extra; [congruence|cbn; lia]. }
  assert (Hz30 : (Z.abs zp <= 2 ^ 30)%Z) by (clear - Hz Hm; lia).
  destruct (C07_dequantize_set_f32 _ _ _ _ _ _ _ _ _ _ HB' Hz30 HD) as (o & -> & HLo & HE & _ & _). fold n in HE.
  exists o. split; auto. split; auto. intros i Hi x Hx. rewrite HE by auto. destruct (HC i Hi) as (k & C & K).
  assert (C' : code_at dq (p ++ extra) i = code_at dq p i).
  { apply code_at_app; auto. rewrite HLp, Hl, Hn, codes_per_byte_q, bytes_for_per_byte by auto. destruct Hq as [->|[->| ->]]; cbn [per_byte]; lia. }
  rewrite C', C. apply (represent_error dq scale zp x k delta); auto.
Qed.

(** ** C16 (all paths): every value within the representable range [code 0, code 2^bits-1] comes back with an error of at most
    scale * (1/2 + 2^-13) on every CPU, thread count and buffer alignment -- no exception for the values where the vector rounding differs. *)
Theorem C16_every_path A nt oaddr A2 nt2 oaddr2 dq scale zp thr inm pk p extra outm r :
  let n := numel DT_F32 (length outm) in
  buffers_ok nt DT_F32 dq inm pk -> length inm = length outm -> sizes_ok (length outm) n nt2 -> normal_scale scale -> (0 < val scale)%R ->
  (0 <= zp <= code_max dq)%Z -> (forall i, i < n -> finite (f32_at inm i)) -> Forall is_byte extra -> extra <> [] ->
  (forall i, (i < n)%nat -> Rabs (scaled (val scale) (val (f32_at inm i))) < bpow radix2 30)%R ->
  returns inm pk (quantize_call A nt oaddr DT_F32 dq scale zp RM_NEAREST thr inm pk) (Ok p) ->
  returns (p ++ extra) outm (dequantize_call A2 nt2 oaddr2 dq DT_F32 scale zp RO_SET (length p) outm) r ->
  exists o, r = Ok o /\ length o = length outm /\
    forall i, i < n -> let x := val (f32_at inm i) in
      (IZR (0 - zp) * val scale <= x <= IZR (code_max dq - zp) * val scale)%R ->
      (Rabs (val (f32_at o i) - x) <= val scale * (/ 2 + bpow radix2 (-13)))%R.
Proof.
  intros n HB HL HS2 Hs Hp Hz HF He Hne H30 HQ HD.
  destruct (round_trip_all A nt oaddr A2 nt2 oaddr2 dq scale zp thr inm pk p extra outm r 0%R HB HL HS2 Hs Hp Hz HF He Hne ltac:(lra) H30 HQ HD) as (o & -> & HLo & H).
  exists o. split; auto. split; auto. intros i Hi x [Hx1 Hx2]. specialize (H i Hi). cbv zeta in H. fold x in H. rewrite !Rplus_0_r in H. apply H.
  assert (IZR (0 - zp) <= x / val scale <= IZR (code_max dq - zp))%R; [|lra].
  split; apply Rmult_le_reg_r with (val scale); auto; replace (x / val scale * val scale)%R with x by (field; lra); auto.
Qed.

(** ** C23 *)
Local Open Scope R_scope.
Lemma RN64_err x : Rabs x <= 300 -> Rabs (RN64 x - x) <= / 1000000000.
Proof.
  intros H. destruct (error_N_FLT radix2 (-1074) 53 ltac:(lia) (fun z => negb (Z.even z)) x) as (d & e & Hd & He & _ & E).
  change (RN64 x) with (round radix2 (FLT_exp (-1074) 53) (Znearest (fun z => negb (Z.even z))) x). rewrite E.
  replace (x * (1 + d) + e - x) with (x * d + e) by ring. eapply Rle_trans; [apply Rabs_triang|]. rewrite Rabs_mult.
  assert (Hd' : Rabs d <= / 9007199254740992) by (eapply Rle_trans; [exact Hd|]; cbn; lra).
  assert (He' : Rabs e <= bpow radix2 (-40)).
  { eapply Rle_trans; [exact He|]. change (/ 2) with (bpow radix2 (-1)). rewrite <- bpow_plus. apply bpow_le. lia. }
  change (bpow radix2 (-40)) with (/ 1099511627776) in He'.
  assert (Rabs x * Rabs d <= 300 * / 9007199254740992) by (apply Rmult_le_compat; auto; apply Rabs_pos). lra.
Qed.

Lemma config_zp_near dq lo hi : quant_type dq -> in32 lo -> in32 hi -> lo < hi -> lo <= 0 <= hi ->
  let t0 := - lo / config_step dq lo hi in
  0 <= t0 <= IZR (code_max dq) + / 1000000000 /\ (0 <= config_zp dq lo hi <= code_max dq)%Z /\ Rabs (IZR (config_zp dq lo hi) - t0) <= / 2 + / 100000000.
Proof.
  intros Hq Hl Hh H H0 t0. destruct (step_bounds dq lo hi Hq Hl Hh H) as (d & Hd & E & B1 & B2). pose proof (code_max_R dq Hq) as Q.
  pose proof (bpow_gt_0 radix2 (-157)) as P. set (S := config_step dq lo hi) in *. set (q := IZR (code_max dq)) in *.
  assert (T : 0 <= t0 <= q + / 1000000000).
  { split; [apply Rmult_le_pos; [lra|left; apply Rinv_0_lt_compat; lra]|].
    unfold t0. apply Rmult_le_reg_r with S; [lra|]. replace (- lo / S * S) with (- lo) by (field; lra).
    apply Rle_trans with (hi - lo); [lra|]. rewrite E. replace ((hi - lo) / q * (1 + d)) with ((hi - lo) * ((1 + d) / q)) by (field; lra).
    replace ((q + / 1000000000) * ((hi - lo) * ((1 + d) / q))) with ((hi - lo) * ((1 + / 1000000000 / q) * (1 + d))) by (field; lra).
    rewrite <- (Rmult_1_r (hi - lo)) at 1. apply Rmult_le_compat_l; [lra|].
    assert (/ 1000000000 / 255 <= / 1000000000 / q) by (apply Rmult_le_compat_l; [lra|apply Rinv_le; lra]).
    apply Rabs_le_inv in Hd. unfold u64r in Hd. set (w := / 1000000000 / q) in *. 
    assert (0 <= w) by lra. assert (w <= 1). { unfold w. apply Rmult_le_reg_r with q; [lra|]. replace (/ 1000000000 / q * q) with (/ 1000000000) by (field; lra). lra. }
    nra. }
  split; auto.
  set (w := RN64 (0 - RN64 (lo / S))).
  assert (W : w = RN64 t0).
  { unfold w, t0. rewrite Rminus_0_l. unfold Rdiv. rewrite Ropp_mult_distr_l_reverse. rewrite !RN64_opp. f_equal.
    apply RN64_fmt. apply generic_format_round; auto with typeclass_instances. }
  assert (WE : Rabs (w - t0) <= / 1000000000) by (rewrite W; apply RN64_err; rewrite Rabs_pos_eq; lra).
  assert (W0 : 0 <= w) by (rewrite W, <- RN64_0; apply RN64_le; apply T).
  pose proof (rha_error w) as RE. apply Rabs_le_inv in RE. apply Rabs_le_inv in WE.
  assert (Z1 : (0 <= round_half_away w)%Z) by (rewrite <- (rha_IZR 0); apply rha_le; auto).
  assert (Z2 : (round_half_away w <= code_max dq)%Z).
  { assert (L : IZR (round_half_away w) < IZR (code_max dq + 1)) by (rewrite plus_IZR; fold q; lra). apply lt_IZR in L. lia. }
  assert (EZ : config_zp dq lo hi = round_half_away w) by (unfold config_zp; fold S w; unfold clamp; lia).
  rewrite EZ. split; [lia|]. apply Rabs_le. lra.
Qed.

Lemma config_scale_rel dq lo hi : quant_type dq -> in32 lo -> in32 hi -> bpow radix2 (-118) <= hi - lo <= bpow radix2 100 ->
  exists e, Rabs e <= u32r /\ config_scale dq lo hi = config_step dq lo hi * (1 + e) /\ bpow radix2 (-126) <= config_scale dq lo hi <= bpow radix2 100.
Proof.
  intros Hq Hl Hh [HL HU]. pose proof (bpow_gt_0 radix2 (-118)) as P0. assert (H : lo < hi) by lra.
  destruct (step_bounds dq lo hi Hq Hl Hh H) as (_ & _ & _ & B1 & _). pose proof (code_max_R dq Hq) as Q. pose proof (bpow_gt_0 radix2 100) as P1.
  assert (D : bpow radix2 (-118) <= RN64 (hi - lo) <= bpow radix2 100).
  { split; [rewrite <- (RN64_fmt (bpow radix2 (-118))) by (apply fmt64_bpow; lia)|rewrite <- (RN64_fmt (bpow radix2 100)) by (apply fmt64_bpow; lia)]; apply RN64_le; auto. }
  assert (L : bpow radix2 (-126) <= config_step dq lo hi <= bpow radix2 100).
  { unfold config_step. set (D' := RN64 (hi - lo)) in *. set (q := IZR (code_max dq)) in *. split.
    - rewrite <- (RN64_fmt (bpow radix2 (-126))) by (apply fmt64_bpow; lia). apply RN64_le.
      apply Rle_trans with (bpow radix2 (-118) / 256).
      + change (-118)%Z with (-126 + 8)%Z. rewrite bpow_plus. change (bpow radix2 8) with 256. lra.
      + apply Rmult_le_compat; [lra|lra|lra|]. apply Rinv_le; lra.
    - rewrite <- (RN64_fmt (bpow radix2 100)) by (apply fmt64_bpow; lia). apply RN64_le. apply Rle_trans with (D' / 1).
      + apply Rmult_le_compat_l; [lra|]. apply Rinv_le; lra.
      + lra. }
  pose proof (bpow_gt_0 radix2 (-126)) as P2.
  destruct (RN32_rel (config_step dq lo hi)) as (e & He & E); [rewrite Rabs_pos_eq; lra|].
  exists e. split; auto. split; auto. unfold config_scale. split.
  - rewrite <- (RN32_fmt (bpow radix2 (-126))) by (apply generic_format_bpow; unfold FLT_exp; lia). apply RN32_le, L.
  - rewrite <- (RN32_fmt (bpow radix2 100)) by (apply generic_format_bpow; unfold FLT_exp; lia). apply RN32_le, L.
Qed.

(** with the computed parameters every value of the range is within half a step (and a bit) of a representable value *)
Lemma config_fits dq lo hi x : quant_type dq -> in32 lo -> in32 hi -> bpow radix2 (-118) <= hi - lo <= bpow radix2 100 -> lo <= 0 <= hi -> lo <= x <= hi ->
  let s := config_scale dq lo hi in let zp := config_zp dq lo hi in
  IZR (0 - zp) - / 2 - / 8192 <= x / s <= IZR (code_max dq - zp) + / 2 + / 8192.
Proof.
  intros Hq Hl Hh HB H0 Hx s zp. pose proof (bpow_gt_0 radix2 (-118)) as P0. assert (H : lo < hi) by lra.
  destruct (config_scale_rel dq lo hi Hq Hl Hh HB) as (e & He & Es & Bs & _). fold s in Es, Bs.
  destruct (step_bounds dq lo hi Hq Hl Hh H) as (d & Hd & E & B1 & _). pose proof (code_max_R dq Hq) as Q.
  destruct (config_zp_near dq lo hi Hq Hl Hh H H0) as (T & Z & N). fold zp in Z, N. set (S := config_step dq lo hi) in *. set (q := IZR (code_max dq)) in *.
  pose proof (bpow_gt_0 radix2 (-126)) as P1. pose proof (bpow_gt_0 radix2 (-157)) as P2. set (t0 := - lo / S) in *.
  apply Rabs_le_inv in N. rewrite !minus_IZR. fold q. apply Rabs_le_inv in He. apply Rabs_le_inv in Hd. unfold u32r in He. unfold u64r in Hd.
  assert (ES : S / s = / (1 + e)) by (rewrite Es; field; lra).
  assert (I : 1 - / 16000000 <= / (1 + e) <= 1 + / 16000000).
  { split; apply Rmult_le_reg_r with (1 + e); try lra; rewrite Rinv_l by lra; nra. }
  assert (A1 : lo / s = - t0 * (S / s)) by (unfold t0; field; lra).
  assert (A2 : (hi - lo) / s = q / (1 + d) * (S / s)) by (rewrite E; field; lra).
  assert (I2 : q / (1 + d) <= q + / 1000000000).
  { apply Rmult_le_reg_r with (1 + d); [lra|]. unfold Rdiv. rewrite Rmult_assoc, Rinv_l, Rmult_1_r by lra. nra. }
  assert (I3 : 0 <= q / (1 + d)) by (apply Rmult_le_pos; [lra|left; apply Rinv_0_lt_compat; lra]).
  rewrite ES in *. set (j := / (1 + e)) in *. set (g := q / (1 + d)) in *.
  assert (X1 : lo / s <= x / s) by (apply Rmult_le_compat_r; [left; apply Rinv_0_lt_compat; lra|lra]).
  assert (X2 : x / s <= lo / s + (hi - lo) / s).
  { replace (lo / s + (hi - lo) / s) with (hi / s) by (field; lra). apply Rmult_le_compat_r; [left; apply Rinv_0_lt_compat; lra|lra]. }
  assert (Y1 : t0 * j <= t0 + 256 * / 16000000) by nra. assert (Y2 : t0 - 256 * / 16000000 <= t0 * j) by nra.
  assert (Y3 : g * j <= g + 256 * / 16000000) by nra.
  split; lra.
Qed.

(** Compute the parameters from the data, quantize (nearest) with them, dequantize: if the range of the data includes 0 (and is not
    microscopic or astronomic), every element comes back with an error of at most scale * (1/2 + 2^-12), where the scale is
    (hi - lo)/(2^bits - 1) up to a relative error of 2^-23.  Holds for every CPU (SSE4.2 excepted for the range scan), every number of
    threads, every cut into blocks, every schedule. *)
Theorem C23_data_is_represented a blocks A nt oaddr A2 nt2 oaddr2 dq scale zp thr inm pk p extra outm r lo hi :
  let n := numel DT_F32 (length outm) in
  a <> SSE42 -> finite_data DT_F32 inm n -> block_cover n blocks ->
  data_range DT_F32 inm n lo hi -> lo <= 0 <= hi -> bpow radix2 (-118) <= hi - lo <= bpow radix2 100 ->
  compute_quant_config_from_data a DT_F32 dq inm blocks = Ok (scale, zp) ->
  buffers_ok nt DT_F32 dq inm pk -> length inm = length outm -> sizes_ok (length outm) n nt2 -> Forall is_byte extra -> extra <> [] ->
  returns inm pk (quantize_call A nt oaddr DT_F32 dq scale zp RM_NEAREST thr inm pk) (Ok p) ->
  returns (p ++ extra) outm (dequantize_call A2 nt2 oaddr2 dq DT_F32 scale zp RO_SET (length p) outm) r ->
  exists o, r = Ok o /\ 
    Rabs (val scale - (hi - lo) / IZR (code_max dq)) <= (hi - lo) / IZR (code_max dq) * bpow radix2 (-23) /\
    forall i, (i < n)%nat -> Rabs (val (f32_at o i) - val (f32_at inm i)) <= val scale * (/ 2 + bpow radix2 (-12)).
Proof.
  intros n Ha HD HBl HR H0 HB EC HBu HL HS2 He Hne HQ HDq. pose proof HBu as (_ & Hq & _). pose proof (bpow_gt_0 radix2 (-118)) as P0.
  assert (H : lo < hi) by lra.
  destruct (C21_documented_parameters a DT_F32 dq inm n blocks lo hi Ha (or_introl eq_refl) Hq HD HBl HR H) as (s & E & Fs & Vs).
  rewrite EC in E. injection E as <- ->.
  assert (I1 : in32 lo) by (destruct HR as ((i & Hi & <-) & _); apply in32_val, HD; auto).
  assert (I2 : in32 hi) by (destruct HR as (_ & (i & Hi & <-) & _); apply in32_val, HD; auto).
  destruct (config_scale_rel dq lo hi Hq I1 I2 HB) as (e & Hee & Es & Bs1 & Bs2).
  destruct (config_zp_near dq lo hi Hq I1 I2 H H0) as (T & Z & N). pose proof (bpow_gt_0 radix2 (-126)) as P1.
  assert (Hs : normal_scale scale) by (split; auto; rewrite Vs; rewrite Rabs_pos_eq; lra).
  assert (Hp : 0 < val scale) by lra.
  assert (FIT : forall i, (i < n)%nat -> IZR (0 - config_zp dq lo hi) - / 2 - / 8192 <= val (f32_at inm i) / val scale <= IZR (code_max dq - config_zp dq lo hi) + / 2 + / 8192).
  { intros i Hi. rewrite Vs. apply config_fits; auto. destruct HR as (_ & _ & HR). apply (HR i Hi). }
  assert (H30 : forall i, (i < n)%nat -> Rabs (scaled (val scale) (val (f32_at inm i))) < bpow radix2 30).
  { intros i Hi. specialize (FIT i Hi). pose proof (scaled_rel scale (val (f32_at inm i)) Hs) as SR. set (t := val (f32_at inm i) / val scale) in *.
    pose proof (code_max_range dq Hq) as Hm. 
    assert (B1 : (Rabs (IZR (0 - config_zp dq lo hi)) <= IZR 255)%R) by (apply abs_IZR_le; lia). apply Rabs_le_inv in B1.
    assert (B2 : (Rabs (IZR (code_max dq - config_zp dq lo hi)) <= IZR 255)%R) by (apply abs_IZR_le; lia). apply Rabs_le_inv in B2.
    assert (Tt : Rabs t <= 256) by (apply Rabs_le; lra). destruct tiny_small as [_ T2]. set (y := scaled _ _) in *.
    assert (D : Rabs (y - t) <= 1) by (unfold u32r in SR; lra). apply Rabs_le_inv in Tt. apply Rabs_le_inv in D.
    apply Rle_lt_trans with 300; [apply Rabs_le; lra|]. change (bpow radix2 30) with 1073741824. lra. }
  destruct (round_trip_all A nt oaddr A2 nt2 oaddr2 dq scale (config_zp dq lo hi) thr inm pk p extra outm r (/ 8192) HBu HL HS2 Hs Hp Z) as (o & -> & _ & HO); auto; try lra.
  { intros i Hi. apply HD; auto. }
  exists o. split; auto. split.
  - destruct (step_bounds dq lo hi Hq I1 I2 H) as (d & Hd & E & _). rewrite Vs, Es, E. pose proof (code_max_R dq Hq) as Q.
    set (w := (hi - lo) / IZR (code_max dq)). assert (W : 0 < w) by (apply Rmult_lt_0_compat; [lra|apply Rinv_0_lt_compat; lra]).
    replace (w * (1 + d) * (1 + e) - w) with (w * (d + e + d * e)) by ring. rewrite Rabs_mult, (Rabs_pos_eq w) by lra. apply Rmult_le_compat_l; [lra|].
    assert (M : Rabs (d * e) <= 3 * u64r * u32r) by (rewrite Rabs_mult; apply Rmult_le_compat; auto; apply Rabs_pos).
    eapply Rle_trans; [apply Rabs_triang|]. pose proof (Rabs_triang d e). change (bpow radix2 (-23)) with (/ 8388608). unfold u64r, u32r in *. lra.
  - intros i Hi. specialize (HO i Hi). cbv zeta in HO. eapply Rle_trans; [apply HO; auto|]. apply Rmult_le_compat_l; [lra|].
    change (bpow radix2 (-13)) with (/ 8192). change (bpow radix2 (-12)) with (/ 4096). lra.
Qed.

(** ** C23 fails if the data excludes 0.  The zero point is clamped, and no packed buffer at all -- whatever codes it holds, however they were
    produced -- dequantizes (with the computed parameters) to anything above (hi - lo)(1 + 2^-20): data in [100, 101] comes back as at most 1.0001.
    Mirrored for negative data. *)
Lemma config_zp_outside dq lo hi : quant_type dq -> in32 lo -> in32 hi -> lo < hi ->
  (0 < lo -> config_zp dq lo hi = 0%Z) /\ (hi < 0 -> config_zp dq lo hi = code_max dq).
Proof.
  intros Hq Hl Hh H. destruct (step_bounds dq lo hi Hq Hl Hh H) as (d & Hd & E & B1 & B2). pose proof (code_max_R dq Hq) as Q.
  pose proof (bpow_gt_0 radix2 (-157)) as P. pose proof (code_max_range dq Hq) as Hm. unfold config_zp. set (S := config_step dq lo hi) in *. set (q := IZR (code_max dq)) in *.
  assert (W : RN64 (0 - RN64 (lo / S)) = RN64 (- lo / S)).
  { rewrite Rminus_0_l. unfold Rdiv. rewrite Ropp_mult_distr_l_reverse. rewrite !RN64_opp. f_equal.
    apply RN64_fmt. apply generic_format_round; auto with typeclass_instances. }
  rewrite W. split; intros H0.
  - assert (L : - lo / S <= 0). { apply Rmult_le_reg_r with S; [lra|]. replace (- lo / S * S) with (- lo) by (field; lra). lra. }
    apply RN64_le in L. rewrite RN64_0 in L. apply rha_le in L. rewrite (rha_IZR 0) in L. unfold clamp. lia.
  - assert (L : q - / 1000000 <= - lo / S).
    { apply Rmult_le_reg_r with S; [lra|]. replace (- lo / S * S) with (- lo) by (field; lra). apply Rle_trans with (hi - lo); [|lra]. rewrite E.
      replace ((hi - lo) / q * (1 + d)) with ((hi - lo) * ((1 + d) / q)) by (field; lra).
      replace ((q - / 1000000) * ((hi - lo) * ((1 + d) / q))) with ((hi - lo) * ((1 - / 1000000 / q) * (1 + d))) by (field; lra).
      rewrite <- (Rmult_1_r (hi - lo)) at 2. apply Rmult_le_compat_l; [lra|].
      assert (/ 1000000 / 255 <= / 1000000 / q) by (apply Rmult_le_compat_l; [lra|apply Rinv_le; lra]).
      apply Rabs_le_inv in Hd. unfold u64r in Hd. set (w := / 1000000 / q) in *.
      assert (0 <= w) by lra. assert (w <= 1). { unfold w. apply Rmult_le_reg_r with q; [lra|]. replace (/ 1000000 / q * q) with (/ 1000000) by (field; lra). lra. }
      nra. }
    apply RN64_le in L. assert (L2 : q - / 2 < RN64 (q - / 1000000)).
    { assert (Rabs (RN64 (q - / 1000000) - (q - / 1000000)) <= / 1000000000) by (apply RN64_err; rewrite Rabs_pos_eq; lra). apply Rabs_le_inv in H1. lra. }
    pose proof (rha_error (RN64 (- lo / S))) as RE. apply Rabs_le_inv in RE.
    assert (Z1 : IZR (code_max dq - 1) < IZR (round_half_away (RN64 (- lo / S)))) by (rewrite minus_IZR; fold q; lra). apply lt_IZR in Z1. unfold clamp. lia.
Qed.

Theorem C23_zero_outside_refuted a blocks A2 nt2 oaddr2 dq scale zp inm n0 pk in_size outm r lo hi :
  let n := numel DT_F32 (length outm) in
  a <> SSE42 -> finite_data DT_F32 inm n0 -> block_cover n0 blocks -> data_range DT_F32 inm n0 lo hi -> bpow radix2 (-118) <= hi - lo <= bpow radix2 100 ->
  compute_quant_config_from_data a DT_F32 dq inm blocks = Ok (scale, zp) ->
  dq_buffers nt2 dq DT_F32 pk in_size outm ->
  returns pk outm (dequantize_call A2 nt2 oaddr2 dq DT_F32 scale zp RO_SET in_size outm) r ->
  exists o, r = Ok o /\ (0 < lo -> zp = 0%Z /\ forall i, (i < n)%nat -> 0 <= val (f32_at o i) <= (hi - lo) * (1 + bpow radix2 (-20))) /\
                        (hi < 0 -> zp = code_max dq /\ forall i, (i < n)%nat -> - ((hi - lo) * (1 + bpow radix2 (-20))) <= val (f32_at o i) <= 0).
Proof.
  intros n Ha HD HBl HR HB EC HBu HDq. pose proof HBu as (Hq & _). pose proof (bpow_gt_0 radix2 (-118)) as P0. pose proof (code_max_range dq Hq) as Hm.
  assert (H : lo < hi) by lra.
  destruct (C21_documented_parameters a DT_F32 dq inm n0 blocks lo hi Ha (or_introl eq_refl) Hq HD HBl HR H) as (s & E & Fs & Vs).
  rewrite EC in E. injection E as <- ->.
  assert (I1 : in32 lo) by (destruct HR as ((i & Hi & <-) & _); apply in32_val, HD; auto).
  assert (I2 : in32 hi) by (destruct HR as (_ & (i & Hi & <-) & _); apply in32_val, HD; auto).
  destruct (config_scale_rel dq lo hi Hq I1 I2 HB) as (e & Hee & Es & Bs1 & Bs2). pose proof (bpow_gt_0 radix2 (-126)) as P1.
  destruct (step_bounds dq lo hi Hq I1 I2 H) as (d & Hd & ES & _). pose proof (code_max_R dq Hq) as Q.
  assert (Hs : normal_scale scale) by (split; auto; rewrite Vs; rewrite Rabs_pos_eq; lra).
  assert (Hp : 0 < val scale) by lra.
  assert (Z30 : (Z.abs (config_zp dq lo hi) <= 2 ^ 30)%Z) by (unfold config_zp, clamp; lia).
  destruct (C07_dequantize_set_f32 _ _ _ _ _ _ _ _ _ _ HBu Z30 HDq) as (o & -> & _ & HE & _). fold n in HE.
  exists o. split; auto. destruct (config_zp_outside dq lo hi Hq I1 I2 H) as [ZP ZN].
  assert (K : forall k, (0 <= k <= code_max dq)%Z -> 0 <= RN32 (IZR k * val scale) <= (hi - lo) * (1 + bpow radix2 (-20))).
  { intros k Hk. assert (Hk1 : 0 <= IZR k) by (apply (IZR_le 0); lia). assert (Hk2 : IZR k <= IZR (code_max dq)) by (apply IZR_le; lia). set (q := IZR (code_max dq)) in *. split.
    - rewrite <- RN32_0. apply RN32_le. apply Rmult_le_pos; lra.
    - destruct (product_rel scale k Hs) as (d' & Hd' & ->). rewrite Vs, Es, ES. 
      replace (IZR k * ((hi - lo) / q * (1 + d) * (1 + e)) * (1 + d')) with ((hi - lo) * ((IZR k / q) * ((1 + d) * ((1 + e) * (1 + d'))))) by (field; lra).
      apply Rmult_le_compat_l; [lra|]. change (bpow radix2 (-20)) with (/ 1048576).
      apply Rabs_le_inv in Hd'. apply Rabs_le_inv in Hee. apply Rabs_le_inv in Hd. unfold u32r, u64r in *.
      assert (K1 : 0 <= IZR k / q <= 1).
      { split; [apply Rmult_le_pos; [lra|left; apply Rinv_0_lt_compat; lra]|]. apply Rmult_le_reg_r with q; [lra|]. replace (IZR k / q * q) with (IZR k) by (field; lra). lra. }
      set (kk := IZR k / q) in *. assert (M1 : 0 <= (1 + e) * (1 + d') <= 1 + / 4000000) by nra. set (m1 := (1 + e) * (1 + d')) in *.
      assert (M2 : 0 <= (1 + d) * m1 <= 1 + / 2000000) by nra. set (m2 := (1 + d) * m1) in *. nra. }
  assert (CB : forall i, (0 <= code_at dq pk i <= code_max dq)%Z).
  { intros i. unfold code_at. destruct Hq as [->|[->| ->]]; cbn [code_max bit_size]; try (cbn; lia). }
  split; intros Hx.
  - specialize (ZP Hx). split; auto. intros i Hi. rewrite (HE i Hi). rewrite ZP, Z.sub_0_r.
    destruct (dequant_value_ok scale 0 (code_at dq pk i) Hs) as [_ V]; [rewrite Z.sub_0_r; specialize (CB i); lia|]. unfold dequant_value in V. rewrite Z.sub_0_r in V. rewrite V. apply K, CB.
  - specialize (ZN Hx). split; auto. intros i Hi. rewrite (HE i Hi). rewrite ZN. specialize (CB i).
    destruct (dequant_value_ok scale (code_max dq) (code_at dq pk i) Hs) as [_ V]; [lia|]. unfold dequant_value in V. rewrite V.
    replace (IZR (code_at dq pk i - code_max dq) * val scale) with (- (IZR (code_max dq - code_at dq pk i) * val scale)) by (rewrite !minus_IZR; ring).
    rewrite RN32_opp. specialize (K (code_max dq - code_at dq pk i)%Z ltac:(lia)). lra.
Qed.
