(** PropsIdempotent.v -- C15: dequantize then quantize gives the codes back; C16: quantize then dequantize is within half a step. *)
From Coq Require Import ZArith List Lia Bool Arith ZifyBool ZifyNat Reals Lra.
From Flocq Require Import Core Binary Bits.
From Verif Require Import Base Floats Simd Dtypes Spec ApiSpec QuantKernels DequantKernels ExecFacts FloatFacts QuantFacts QuantKernelFacts
  QuantGenericFacts DequantFacts DequantGenericFacts QuantLanes Context ContextFacts Footprint QuantizeFacts DequantizeFacts Api PropsQuantize Schedule
  PropsMemory FloatFacts2 PropsDequantize PropsRoundTrip RoundTripFacts.
Import ListNotations.

Ltac Zify.zify_post_hook ::= Z.div_mod_to_equations.

Lemma abs_IZR_le k b : (Z.abs k <= b)%Z -> (Rabs (IZR k) <= IZR b)%R.
Proof. intros H. rewrite <- abs_IZR. apply IZR_le. auto. Qed.

Lemma dequant_value_ok scale zp q : normal_scale scale -> (Z.abs (q - zp) <= 2 ^ 20)%Z ->
  finite (dequant_value scale zp q) /\ val (dequant_value scale zp q) = RN32 (IZR (q - zp) * val scale).
Proof.
  intros Hs Hk. unfold dequant_value. destruct (f32_of_Z_exact (q - zp)) as [F V]; [lia|].
  pose proof (product_bound scale (q - zp) Hs (abs_IZR_le _ _ Hk)) as B. destruct (fmul_ok (f32_of_Z (q - zp)) scale) as [F' V']; auto.
  - apply Hs.
  - rewrite V. exact B.
  - rewrite V', V. auto.
Qed.

Lemma pred_half_bounds : (/ 4 < pred_half < / 2)%R.
Proof.
  unfold pred_half. assert (H : (bpow radix2 (-25) < bpow radix2 (-2))%R) by (apply bpow_lt; lia). change (bpow radix2 (-2)) with (/ 4)%R in H.
  pose proof (bpow_gt_0 radix2 (-25)). lra.
Qed.

(** re-quantizing a dequantized code: any value within a quarter step of the code's multiple of the scale *)
Lemma requant_code d scale zp q x eta : quant_type d -> normal_scale scale -> (Z.abs zp <= 2 ^ 19)%Z -> (0 <= q <= code_max d)%Z ->
  finite x -> (0 <= eta <= 1)%R -> (eta + 4 * u32r * (Rabs (IZR (q - zp)) + 1) < / 2)%R -> 
  (Rabs (val x / val scale - IZR (q - zp)) <= eta)%R ->
  quantizable scale x /\ quant_code d (val scale) zp (val x) = q /\
  ((eta + 4 * u32r * (Rabs (IZR (q - zp)) + 1) <= / 4)%R -> Rabs (scaled (val scale) (val x)) <> pred_half).
Proof.
  intros Hd Hs Hz Hq Fx He Hb Hn. pose proof (code_max_range d Hd) as Hm.
  assert (Hk : (Rabs (IZR (q - zp)) <= 1048576)%R) by (apply (abs_IZR_le _ (2 ^ 20)%Z); lia).
  pose proof (scaled_near scale (val x) (q - zp) eta Hs Hk He Hn) as N.
  set (y := scaled (val scale) (val x)) in *. assert (R : round_half_away y = (q - zp)%Z) by (apply rha_near; lra).
  split; [|split].
  - split; auto. fold y. replace y with ((y - IZR (q - zp)) + IZR (q - zp))%R by ring. eapply Rle_lt_trans; [apply Rabs_triang|].
    rewrite bpow30. lra.
  - unfold quant_code. fold y. rewrite R. unfold clamp. lia.
  - intros H4 E. pose proof pred_half_bounds as P. assert (H4' : (Rabs (y - IZR (q - zp)) <= / 4)%R) by lra.
    set (K := (q - zp)%Z) in *. clearbody K. destruct (Z.eq_dec K 0) as [->|NZ].
    + rewrite Rminus_0_r in H4'. lra.
    + assert (1 <= Rabs (IZR K))%R by (rewrite <- abs_IZR; apply IZR_le; lia).
      assert (Rabs (IZR K) <= Rabs y + Rabs (y - IZR K))%R.
      { replace (IZR K) with (y - (y - IZR K))%R at 1 by ring. eapply Rle_trans; [apply Rabs_triang|]. rewrite Rabs_Ropp. lra. }
      lra.
Qed.

Lemma requant_f32 d scale zp q : quant_type d -> normal_scale scale -> (Z.abs zp <= 2 ^ 19)%Z -> (0 <= q <= code_max d)%Z ->
  let x := dequant_value scale zp q in
  quantizable scale x /\ quant_code d (val scale) zp (val x) = q /\ Rabs (scaled (val scale) (val x)) <> pred_half.
Proof.
  intros Hd Hs Hz Hq x. pose proof (code_max_range d Hd) as Hm.
  assert (Hk0 : (Z.abs (q - zp) <= 2 ^ 20)%Z) by lia.
  destruct (dequant_value_ok scale zp q Hs Hk0) as [F V]. fold x in F, V.
  assert (Hk : (Rabs (IZR (q - zp)) <= IZR (2 ^ 19 + 255))%R) by (apply abs_IZR_le; lia). 
  change (IZR (2 ^ 19 + 255)) with 524543%R in Hk.
  pose proof (Rabs_pos (IZR (q - zp))) as HP.
  destruct (requant_code d scale zp q x (u32r * Rabs (IZR (q - zp))) Hd Hs Hz Hq F) as (R1 & R2 & R3).
  - unfold u32r. lra.
  - unfold u32r. lra.
  - rewrite V. apply product_near; auto.
  - split; auto. split; auto. apply R3. unfold u32r. lra.
Qed.

Lemma code_at_le d m i : quant_type d -> (0 <= code_at d m i <= code_max d)%Z.
Proof.
  intros Hd. unfold code_at, code_max. cbv zeta. set (v := (_ / _)%Z).
  pose proof (Z.mod_pos_bound v (2 ^ Z.of_nat (bit_size d))) as B.
  destruct Hd as [->|[->| ->]]; cbn [bit_size] in *;
    [change (2 ^ Z.of_nat 2)%Z with 4%Z in *|change (2 ^ Z.of_nat 4)%Z with 16%Z in *|change (2 ^ Z.of_nat 8)%Z with 256%Z in *]; lia.
Qed.

Lemma le_bytes_is_byte n z : Forall is_byte (le_bytes n z).
Proof. revert z. induction n as [|n IH]; intros z; cbn [le_bytes]; constructor; auto. unfold is_byte. lia. Qed.

(** ** C15.  Dequantize (set) a buffer of codes to f32, quantize the result with the same parameters (possibly on another CPU, with
    another thread count): every code comes back. *)
Theorem C15_requantize_f32 A nt oaddr A' nt' oaddr' d scale zp thr inm in_size outm o pk r :
  let n := numel DT_F32 (length outm) in
  dq_buffers nt d DT_F32 inm in_size outm -> normal_scale scale -> (Z.abs zp <= 2 ^ 19)%Z -> Forall is_byte outm ->
  returns inm outm (dequantize_call A nt oaddr d DT_F32 scale zp RO_SET in_size outm) (Ok o) ->
  length pk = bytes_for d n -> sizes_ok (length outm) n nt' ->
  returns o pk (quantize_call A' nt' oaddr' DT_F32 d scale zp RM_NEAREST thr o pk) r ->
  exists p, r = Ok p /\ length p = length pk /\ forall i, i < n -> code_at d p i = code_at d inm i.
Proof.
  intros n HB Hs Hz Hby HD Hl HS HQ. pose proof HB as (Hq & _). pose proof (code_max_range d Hq) as Hm.
  assert (Hno : RO_SET = RO_ADD -> finite scale) by discriminate.
  assert (Hz30 : (Z.abs zp <= 2 ^ 30)%Z) by lia. assert (Hz22 : (Z.abs zp <= 2 ^ 22)%Z) by lia.
  destruct (dequantize_f32 _ _ _ _ _ _ _ _ _ _ _ HB Hz30 Hno HD) as (o' & E & HL & HE & HF). injection E as <-. fold n in HE, HF.
  assert (HE' : forall i, i < n -> slice (4 * i) 4 o = le_bytes 4 (bits_of_f32 (dequant_value scale zp (code_at d inm i)))).
  { intros i Hi. rewrite HE by auto. unfold reaches. destruct d; auto. destruct (_ <? _); auto. }
  assert (HX : forall i, i < n -> f32_at o i = dequant_value scale zp (code_at d inm i)).
  { intros i Hi. rewrite f32_at_ld, HE' by auto. apply ld_f32_bytes. }
  assert (Hbo : Forall is_byte o).
  { apply Forall_forall. intros x Hx. apply (In_nth _ _ 0%Z) in Hx. destruct Hx as (k & Hk & <-).
    destruct (Nat.lt_ge_cases k (4 * n)) as [L|L].
    - specialize (HE' (k / 4) ltac:(lia)). apply (f_equal (fun l => nth (k mod 4) l 0%Z)) in HE'.
      rewrite nth_slice in HE' by lia. replace (4 * (k / 4) + k mod 4) with k in HE' by lia. rewrite HE'.
      pose proof (le_bytes_is_byte 4 (bits_of_f32 (dequant_value scale zp (code_at d inm (k / 4))))) as F. rewrite Forall_forall in F. apply F.
      apply nth_In. rewrite le_bytes_length. lia.
    - rewrite HF by auto. rewrite Forall_forall in Hby. apply Hby, nth_In. lia. }
  assert (HB' : buffers_ok nt' DT_F32 d o pk).
  { unfold buffers_ok. rewrite HL. fold n. split; [left; reflexivity|]. auto. }
  assert (R : forall i, i < n -> let x := dequant_value scale zp (code_at d inm i) in
     quantizable scale x /\ quant_code d (val scale) zp (val x) = code_at d inm i /\ Rabs (scaled (val scale) (val x)) <> pred_half).
  { intros i Hi. apply requant_f32; auto. apply code_at_le; auto. }
  assert (Hn : numel DT_F32 (length o) = n) by (rewrite HL; reflexivity).
  destruct (C01_quantize_nearest A' nt' oaddr' DT_F32 d scale zp thr o pk r HB' (normal_good _ Hs) Hz22) as (p & -> & HLp & HC); auto.
  - rewrite Hn. intros i Hi. cbn [elem_at]. rewrite HX by auto. destruct (R i Hi) as (R1 & _ & R3). split; auto.
  - exists p. split; auto. split; auto. rewrite Hn in HC. intros i Hi. rewrite HC by auto. cbn [elem_at]. rewrite HX by auto.
    destruct (R i Hi) as (_ & R2 & _). exact R2.
Qed.

(** ** C16 *)
Lemma round_trip_error d scale zp x : quant_type d -> normal_scale scale -> (Z.abs zp <= 2 ^ 19)%Z ->
  let k := round_half_away (scaled (val scale) (val x)) in
  (0 <= k + zp <= code_max d)%Z ->
  (Rabs (val (dequant_value scale zp (quant_code d (val scale) zp (val x))) - val x) <= Rabs (val scale) * (/ 2 + bpow radix2 (-21) * (Rabs (IZR k) + 1)))%R.
Proof.
  intros Hd Hs Hz k Hk. pose proof (code_max_range d Hd) as Hm. assert (E : quant_code d (val scale) zp (val x) = (k + zp)%Z).
  { unfold quant_code. fold k. unfold clamp. lia. }
  rewrite E. destruct (dequant_value_ok scale zp (k + zp) Hs ltac:(lia)) as [_ V]. replace (k + zp - zp)%Z with k in V by ring. rewrite V.
  assert (Hk' : (Rabs (IZR k) <= 1048576)%R) by (apply (abs_IZR_le _ (2 ^ 20)%Z); lia).
  pose proof (product_near scale k Hs) as P. pose proof (unscaled_near scale (val x) k Hs Hk' eq_refl) as U.
  destruct (normal_good scale Hs) as [N _].
  set (p := RN32 (IZR k * val scale)) in *.
  replace (p - val x)%R with (val scale * ((p / val scale - IZR k) - (val x / val scale - IZR k)))%R by (field; auto).
  rewrite Rabs_mult. apply Rmult_le_compat_l; [apply Rabs_pos|]. eapply Rle_trans; [apply Rabs_triang|]. rewrite Rabs_Ropp.
  change (bpow radix2 (-21)) with (/ 2097152)%R. pose proof (Rabs_pos (IZR k)). unfold u32r in *. lra.
Qed.

(** Quantize f32 data (nearest) and dequantize (set): every element whose rounded scaled value is within the code range comes back with an
    error of at most half a step plus 2^-21 of a step per code unit. *)
Theorem C16_round_trip_error A nt oaddr A2 nt2 oaddr2 dq scale zp thr inm pk p extra outm r :
  let n := numel DT_F32 (length outm) in
  buffers_ok nt DT_F32 dq inm pk -> length inm = length outm -> sizes_ok (length outm) n nt2 -> normal_scale scale -> (Z.abs zp <= 2 ^ 19)%Z ->
  (forall i, i < n -> nearest_ok A scale (f32_at inm i)) -> Forall is_byte extra -> extra <> [] ->
  returns inm pk (quantize_call A nt oaddr DT_F32 dq scale zp RM_NEAREST thr inm pk) (Ok p) ->
  returns (p ++ extra) outm (dequantize_call A2 nt2 oaddr2 dq DT_F32 scale zp RO_SET (length p) outm) r ->
  exists o, r = Ok o /\
    forall i, i < n -> let x := val (f32_at inm i) in let k := round_half_away (scaled (val scale) x) in
      (0 <= k + zp <= code_max dq)%Z ->
      (Rabs (val (f32_at o i) - x) <= Rabs (val scale) * (/ 2 + bpow radix2 (-21) * (Rabs (IZR k) + 1)))%R.
Proof.
  intros n HB HL HS2 Hs Hz HI He Hne HQ HD. pose proof HB as (Hfp & Hq & Hb & Hl & HS1).
  assert (Hn : numel DT_F32 (length inm) = n) by (unfold n; rewrite HL; reflexivity).
  assert (Hz22 : (Z.abs zp <= 2 ^ 22)%Z) by lia. assert (Hz30 : (Z.abs zp <= 2 ^ 30)%Z) by lia.
  assert (H1 : RM_NEAREST = RM_STOCHASTIC -> threshold thr /\ (Z.abs zp <= 2 ^ 62)%Z) by discriminate.
  assert (HI' : forall i, i < numel DT_F32 (length inm) -> input_ok A RM_NEAREST scale zp thr (elem_at DT_F32 inm i)).
  { rewrite Hn. intros i Hi. split; [apply HI; auto|lia]. }
  destruct (quantize_codes _ _ _ _ _ _ _ _ _ _ _ _ HB (normal_good _ Hs) H1 (fun _ => Hz22) HI' HQ) as (p' & E & HLp & Hby & HC). injection E as <-.
  assert (HB' : dq_buffers nt2 dq DT_F32 (p ++ extra) (length p) outm).
  { repeat split; auto; try (left; reflexivity); try apply HS2.
    - apply Forall_app; auto.
    - rewrite HLp, Hl, Hn. reflexivity.
    - rewrite app_length. lia.
    - intros _ _ _ _. rewrite app_length. destruct extra; [congruence|cbn; lia]. }
  destruct (C07_dequantize_set_f32 _ _ _ _ _ _ _ _ _ _ HB' Hz30 HD) as (o & -> & _ & HE & _ & _). fold n in HE.
  exists o. split; auto. intros i Hi x k Hk. rewrite HE by auto.
  assert (C : code_at dq (p ++ extra) i = quant_code dq (val scale) zp x).
  { rewrite code_at_app, HC; auto; [rewrite Hn; auto|]. rewrite HLp, Hl, Hn, codes_per_byte_q, bytes_for_per_byte by auto. destruct Hq as [->|[->| ->]]; cbn [per_byte]; lia. }
  rewrite C. apply (round_trip_error dq scale zp (f32_at inm i)); auto.
Qed.

(** Every value between the smallest and the largest representable value (code 0 and code 2^bits-1) is in range, so for a zero point within
    the code range its error is at most scale * (1/2 + 2^-13). *)
Lemma in_range_unclipped d scale zp x : quant_type d -> normal_scale scale -> (Z.abs zp <= 2 ^ 19)%Z ->
  (IZR (0 - zp) <= x / val scale <= IZR (code_max d - zp))%R ->
  (0 <= round_half_away (scaled (val scale) x) + zp <= code_max d)%Z.
Proof.
  intros Hd Hs Hz [L U]. pose proof (code_max_range d Hd) as Hm. pose proof (scaled_rel scale x Hs) as R.
  set (t := (x / val scale)%R) in *. set (y := scaled (val scale) x) in *.
  assert (B1 : (Rabs (IZR (0 - zp)) <= IZR (2 ^ 20))%R) by (apply abs_IZR_le; lia).
  assert (B2 : (Rabs (IZR (code_max d - zp)) <= IZR (2 ^ 20))%R) by (apply abs_IZR_le; lia).
  change (IZR (2 ^ 20)) with 1048576%R in *. apply Rabs_le_inv in B1. apply Rabs_le_inv in B2.
  assert (T : (Rabs t <= 1048576)%R) by (apply Rabs_le; lra). destruct tiny_small as [T1 T2].
  assert (D : (Rabs (y - t) < / 4)%R) by (unfold u32r in R; lra). apply Rabs_def2 in D.
  pose proof (rha_error y) as E. apply Rabs_le_inv in E. set (k := round_half_away y) in *. clearbody k y t.
  assert (L' : (IZR (0 - zp - 1) < IZR k)%R) by (rewrite minus_IZR; lra). apply lt_IZR in L'.
  assert (U' : (IZR k < IZR (code_max d - zp + 1))%R) by (rewrite plus_IZR; lra). apply lt_IZR in U'. lia.
Qed.

Theorem C16_representable_range A nt oaddr A2 nt2 oaddr2 dq scale zp thr inm pk p extra outm r :
  let n := numel DT_F32 (length outm) in
  buffers_ok nt DT_F32 dq inm pk -> length inm = length outm -> sizes_ok (length outm) n nt2 -> normal_scale scale -> (0 < val scale)%R ->
  (0 <= zp <= code_max dq)%Z -> (forall i, i < n -> nearest_ok A scale (f32_at inm i)) -> Forall is_byte extra -> extra <> [] ->
  returns inm pk (quantize_call A nt oaddr DT_F32 dq scale zp RM_NEAREST thr inm pk) (Ok p) ->
  returns (p ++ extra) outm (dequantize_call A2 nt2 oaddr2 dq DT_F32 scale zp RO_SET (length p) outm) r ->
  exists o, r = Ok o /\
    forall i, i < n -> let x := val (f32_at inm i) in
      (IZR (0 - zp) * val scale <= x <= IZR (code_max dq - zp) * val scale)%R ->
      (Rabs (val (f32_at o i) - x) <= val scale * (/ 2 + bpow radix2 (-13)))%R.
Proof.
  intros n HB HL HS2 Hs Hpos Hz HI He Hne HQ HD. pose proof HB as (_ & Hq & _). pose proof (code_max_range dq Hq) as Hm.
  destruct (C16_round_trip_error A nt oaddr A2 nt2 oaddr2 dq scale zp thr inm pk p extra outm r HB HL HS2 Hs ltac:(lia) HI He Hne HQ HD) as (o & -> & H).
  exists o. split; auto. intros i Hi x [L U]. fold n in H. specialize (H i Hi). cbv zeta in H. fold x in H.
  assert (IN : (0 <= round_half_away (scaled (val scale) x) + zp <= code_max dq)%Z).
  { apply in_range_unclipped; auto; [lia|]. split; apply Rmult_le_reg_r with (val scale); auto; replace (x / val scale * val scale)%R with x by (field; lra); auto. }
  specialize (H IN). eapply Rle_trans; [exact H|]. rewrite (Rabs_pos_eq (val scale)) by lra. apply Rmult_le_compat_l; [lra|].
  assert (K : (Rabs (IZR (round_half_away (scaled (val scale) x))) <= IZR 255)%R) by (apply abs_IZR_le; lia).
  change (bpow radix2 (-21)) with (/ 2097152)%R. change (bpow radix2 (-13)) with (/ 8192)%R. lra.
Qed.
