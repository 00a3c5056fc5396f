(** PropsOrder.v -- C48 (dequantize keeps the order of the codes), C49 (quantize is symmetric in sign and in powers of two), C50 (computed
    parameters depend on the data only through its range). *)
From Coq Require Import ZArith List Lia Bool Arith ZifyBool ZifyNat Permutation Reals Lra.
From Flocq Require Import Core Binary Bits.
From Verif Require Import Base Floats Simd Dtypes Spec ApiSpec QuantKernels DequantKernels ExecFacts FloatFacts QuantFacts QuantKernelFacts
  QuantGenericFacts DequantFacts DequantGenericFacts QuantLanes Context ContextFacts Footprint QuantizeFacts DequantizeFacts Api PropsQuantize Schedule
  PropsMemory FloatFacts2 PropsDequantize PropsRoundTrip FloatFacts3 PropsExtreme RoundTripFacts PropsIdempotent PropsStochastic MinMax MinMaxFacts ConfigSpec F64Facts ConfigFacts PropsConfig.
Import ListNotations.

Ltac Zify.zify_post_hook ::= Z.div_mod_to_equations.

(** IEEE <= : the comparison is defined (no NaN) and not "greater". *)
Definition ieee_le (x y : f32) : Prop := b32_compare x y = Some Lt \/ b32_compare x y = Some Eq.
Definition ieee_lt (x y : f32) : Prop := b32_compare x y = Some Lt.

Lemma sign_of_pos x : finite x -> (0 < val x)%R -> Bsign 24 128 x = false.
Proof.
  unfold finite, val. destruct x as [s|s|s p H|s m e H]; cbn [is_finite B2R Bsign]; intros F V; try discriminate; try lra. destruct s; auto. exfalso.
  assert (F2R (Float radix2 (cond_Zopp true (Zpos m)) e) < 0)%R by (apply F2R_lt_0; reflexivity). cbn [cond_Zopp] in *. lra.
Qed.
Lemma sign_of_neg x : finite x -> (val x < 0)%R -> Bsign 24 128 x = true.
Proof.
  unfold finite, val. destruct x as [s|s|s p H|s m e H]; cbn [is_finite B2R Bsign]; intros F V; try discriminate; try lra. destruct s; auto. exfalso.
  assert (0 < F2R (Float radix2 (cond_Zopp false (Zpos m)) e))%R by (apply F2R_gt_0; reflexivity). cbn [cond_Zopp] in *. lra.
Qed.
Lemma finite_le x y : finite x -> finite y -> (val x <= val y)%R -> ieee_le x y.
Proof. intros Fx Fy H. unfold ieee_le. rewrite fcompare_ok by auto. destruct (Rcompare_spec (val x) (val y)); auto. lra. Qed.
Lemma inf_above x : ~ nan x -> ieee_le x (B754_infinity 24 128 false).
Proof. unfold ieee_le, nan. destruct x as [s|[|]|s p H|[|] m e H]; cbn; auto; intros N; exfalso; apply N; reflexivity. Qed.
Lemma inf_below x : ~ nan x -> ieee_le (B754_infinity 24 128 true) x.
Proof. unfold ieee_le, nan. destruct x as [s|[|]|s p H|[|] m e H]; cbn; auto; intros N; exfalso; apply N; reflexivity. Qed.

Lemma dequant_value_mono scale zp q q' : finite scale -> (0 < val scale)%R -> (Z.abs zp <= 2 ^ 30)%Z -> (0 <= q < 256)%Z -> (0 <= q' < 256)%Z ->
  (q <= q')%Z -> ieee_le (dequant_value scale zp q) (dequant_value scale zp q').
Proof.
  intros Fs Ps Hz Hq Hq' Hle.
  pose proof (dequant_value_not_nan scale zp q Fs Hz Hq) as N. pose proof (dequant_value_not_nan scale zp q' Fs Hz Hq') as N'.
  unfold dequant_value in *.
  destruct (f32_of_Z_finite (q - zp)) as [F V]; [lia|]. destruct (f32_of_Z_finite (q' - zp)) as [F' V']; [lia|].
  assert (M : (val (f32_of_Z (q - zp)) <= val (f32_of_Z (q' - zp)))%R) by (rewrite V, V'; apply RN32_le, IZR_le; lia).
  assert (M2 : (RN32 (val (f32_of_Z (q - zp)) * val scale) <= RN32 (val (f32_of_Z (q' - zp)) * val scale))%R).
  { apply RN32_le. apply Rmult_le_compat_r; lra. }
  pose proof (sign_of_pos scale Fs Ps) as Ss. pose proof (bpow_gt_0 radix2 128) as Pm. fold max32 in Pm.
  assert (SG : forall x, finite x -> (max32 <= Rabs (RN32 (val x * val scale)))%R ->
     (Bsign 24 128 x = false /\ (max32 <= RN32 (val x * val scale))%R) \/ (Bsign 24 128 x = true /\ (RN32 (val x * val scale) <= - max32)%R)).
  { intros x Fx Hx. destruct (Rtotal_order (val x) 0) as [L|[E|G]].
    - right. split; [apply sign_of_neg; auto|]. assert (RN32 (val x * val scale) <= RN32 0)%R by (apply RN32_le; nra). rewrite RN32_0 in H.
      rewrite Rabs_left1 in Hx by auto. lra.
    - rewrite E, Rmult_0_l, RN32_0, Rabs_R0 in Hx. lra.
    - left. split; [apply sign_of_pos; auto|]. assert (RN32 0 <= RN32 (val x * val scale))%R by (apply RN32_le; nra). rewrite RN32_0 in H.
      rewrite Rabs_pos_eq in Hx by auto. lra. }
  destruct (fmul_cases (f32_of_Z (q - zp)) scale F Fs) as [(P1 & P2 & P3)|(P1 & P2)];
  destruct (fmul_cases (f32_of_Z (q' - zp)) scale F' Fs) as [(Q1 & Q2 & Q3)|(Q1 & Q2)].
  - apply finite_le; auto. rewrite P2, Q2. auto.
  - destruct (SG _ F' Q2) as [(B & R)|(B & R)]; rewrite Q1, B, Ss; cbn [xorb]; [apply inf_above; auto|].
    exfalso. apply Rabs_def2 in P3. lra.
  - destruct (SG _ F P2) as [(B & R)|(B & R)]; rewrite P1, B, Ss; cbn [xorb]; [|apply inf_below; auto].
    exfalso. apply Rabs_def2 in Q3. lra.
  - destruct (SG _ F P2) as [(B & R)|(B & R)]; [|rewrite P1, B, Ss; cbn [xorb]; apply inf_below; auto].
    destruct (SG _ F' Q2) as [(B' & R')|(B' & R')]; [rewrite Q1, B', Ss; cbn [xorb]; apply inf_above; auto|]. exfalso. lra.
Qed.

Lemma dequant_value_strict scale zp q q' : normal_scale scale -> (0 < val scale)%R -> (Z.abs zp <= 2 ^ 19)%Z -> (0 <= q < 256)%Z -> (0 <= q' < 256)%Z ->
  (q < q')%Z -> ieee_lt (dequant_value scale zp q) (dequant_value scale zp q').
Proof.
  intros Hs Ps Hz Hq Hq' Hlt. destruct (dequant_value_ok scale zp q Hs) as [F V]; [lia|]. destruct (dequant_value_ok scale zp q' Hs) as [F' V']; [lia|].
  unfold ieee_lt. rewrite fcompare_ok by auto. f_equal. apply Rcompare_Lt. rewrite V, V'.
  pose proof (product_near scale (q - zp) Hs) as E. pose proof (product_near scale (q' - zp) Hs) as E'.
  assert (B : (Rabs (IZR (q - zp)) <= 1048576)%R) by (apply (abs_IZR_le _ 1048576); lia).
  assert (B' : (Rabs (IZR (q' - zp)) <= 1048576)%R) by (apply (abs_IZR_le _ 1048576); lia).
  set (a := RN32 (IZR (q - zp) * val scale)) in *. set (b := RN32 (IZR (q' - zp) * val scale)) in *.
  assert (D : (IZR (q - zp) + 1 <= IZR (q' - zp))%R) by (rewrite <- plus_IZR; apply IZR_le; lia).
  assert (a / val scale < b / val scale)%R.
  { apply Rabs_le_inv in E. apply Rabs_le_inv in E'. unfold u32r in *. lra. }
  apply Rmult_lt_reg_r with (/ val scale)%R; [apply Rinv_0_lt_compat; lra|]. exact H.
Qed.

(** ** C48: dequantize(set) to f32 keeps the order of the codes, for every finite positive scale (overflow to infinity included); with a normal scale it
    is strictly increasing, so different codes never give the same value; equal codes give equal bits. *)
Theorem C48_dequantize_order A nt oaddr din scale zp inm in_size outm r :
  dq_buffers nt din DT_F32 inm in_size outm -> (Z.abs zp <= 2 ^ 30)%Z -> finite scale -> (0 < val scale)%R ->
  returns inm outm (dequantize_call A nt oaddr din DT_F32 scale zp RO_SET in_size outm) r ->
  let n := numel DT_F32 (length outm) in
  exists o, r = Ok o /\
    (forall i j, i < n -> j < n -> (code_at din inm i <= code_at din inm j)%Z -> ieee_le (f32_at o i) (f32_at o j)) /\
    (forall i j, i < n -> j < n -> code_at din inm i = code_at din inm j -> f32_at o i = f32_at o j) /\
    (normal_scale scale -> (Z.abs zp <= 2 ^ 19)%Z ->
       forall i j, i < n -> j < n -> (code_at din inm i < code_at din inm j)%Z -> ieee_lt (f32_at o i) (f32_at o j)).
Proof.
  intros HB Hz Fs Ps HR n. destruct (C07_dequantize_set_f32 _ _ _ _ _ _ _ _ _ _ HB Hz HR) as (o & -> & _ & HE & _). fold n in HE.
  pose proof HB as (Hq & _). pose proof (code_at_lt din inm) as CL. exists o. split; auto. split; [|split].
  - intros i j Hi Hj Hle. rewrite !HE by auto. apply dequant_value_mono; auto.
  - intros i j Hi Hj E. rewrite !HE, E by auto. reflexivity.
  - intros Hs Hz' i j Hi Hj Hlt. rewrite !HE by auto. apply dequant_value_strict; auto.
Qed.
(** With a negative scale the order is reversed. *)
Theorem C48_negative_scale A nt oaddr din scale zp inm in_size outm r :
  dq_buffers nt din DT_F32 inm in_size outm -> (Z.abs zp <= 2 ^ 19)%Z -> normal_scale scale -> (val scale < 0)%R ->
  returns inm outm (dequantize_call A nt oaddr din DT_F32 scale zp RO_SET in_size outm) r ->
  let n := numel DT_F32 (length outm) in
  exists o, r = Ok o /\
    forall i j, i < n -> j < n -> (code_at din inm i < code_at din inm j)%Z -> ieee_lt (f32_at o j) (f32_at o i).
Proof.
  intros HB Hz Hs Ps HR n. assert (Hz30 : (Z.abs zp <= 2 ^ 30)%Z) by lia.
  destruct (C07_dequantize_set_f32 _ _ _ _ _ _ _ _ _ _ HB Hz30 HR) as (o & -> & _ & HE & _). fold n in HE.
  pose proof HB as (Hq & _). exists o. split; auto. intros i j Hi Hj Hlt. rewrite !HE by auto.
  pose proof (code_at_lt din inm i Hq) as C1. pose proof (code_at_lt din inm j Hq) as C2.
  set (q := code_at din inm i) in *. set (q' := code_at din inm j) in *.
  fold (dequant_value scale zp q) (dequant_value scale zp q').
  destruct (dequant_value_ok scale zp q Hs) as [F V]; [lia|]. destruct (dequant_value_ok scale zp q' Hs) as [F' V']; [lia|].
  unfold ieee_lt. rewrite fcompare_ok by auto. f_equal. apply Rcompare_Lt. rewrite V, V'.
  pose proof (product_near scale (q - zp) Hs) as E. pose proof (product_near scale (q' - zp) Hs) as E'.
  assert (B : (Rabs (IZR (q - zp)) <= 1048576)%R) by (apply (abs_IZR_le _ 1048576); lia).
  assert (B' : (Rabs (IZR (q' - zp)) <= 1048576)%R) by (apply (abs_IZR_le _ 1048576); lia).
  set (a := RN32 (IZR (q - zp) * val scale)) in *. set (b := RN32 (IZR (q' - zp) * val scale)) in *.
  assert (D : (IZR (q - zp) + 1 <= IZR (q' - zp))%R) by (rewrite <- plus_IZR; apply IZR_le; lia).
  assert (H : (a / val scale < b / val scale)%R).
  { apply Rabs_le_inv in E. apply Rabs_le_inv in E'. unfold u32r in *. lra. }
  assert (I : (/ val scale < 0)%R) by (apply Rinv_lt_0_compat; auto). unfold Rdiv in H. nra.
Qed.

(** ** C49: symmetry. *)
Lemma scaled_opp s x : scaled s (- x) = (- scaled s x)%R.
Proof. unfold scaled. rewrite <- RN32_opp. f_equal. ring. Qed.
Lemma clamp_opp m v : (0 <= m)%Z -> clamp 0 m (m - v) = (m - clamp 0 m v)%Z.
Proof. unfold clamp. lia. Qed.
Lemma quant_code_opp d s zp x : quant_type d -> quant_code d s (code_max d - zp) (- x) = (code_max d - quant_code d s zp x)%Z.
Proof.
  intros H. pose proof (code_max_range d H). unfold quant_code. rewrite scaled_opp, rha_opp.
  rewrite <- clamp_opp by lia. f_equal. lia.
Qed.
Lemma stoch_round_opp t y : (0 <= t)%R -> stoch_round t (- y) = (- stoch_round t y)%Z.
Proof.
  intros Ht. unfold stoch_round. cbv zeta. rewrite Rabs_Ropp. set (n' := if Rlt_bool t _ then _ else _).
  destruct (Rtotal_order y 0) as [L|[->|G]].
  - rewrite (Rlt_bool_false (- y)), (Rlt_bool_true y) by lra. lia.
  - rewrite Ropp_0. rewrite Rlt_bool_false by lra. unfold n'. rewrite Rabs_R0.
    assert (E : Zfloor 0 = 0%Z) by (change 0%R with (IZR 0); apply Zfloor_IZR). rewrite E, Rlt_bool_false by lra. reflexivity.
  - rewrite (Rlt_bool_true (- y)), (Rlt_bool_false y) by lra. lia.
Qed.
Lemma stoch_code_opp d s zp t x : quant_type d -> (0 <= t)%R -> stoch_code d s (code_max d - zp) t (- x) = (code_max d - stoch_code d s zp t x)%Z.
Proof.
  intros H Ht. pose proof (code_max_range d H). unfold stoch_code. rewrite scaled_opp, stoch_round_opp by auto.
  rewrite <- clamp_opp by lia. f_equal. lia.
Qed.

(** Negating every element and mirroring the zero point mirrors every code. *)
Theorem C49_negation A A' nt nt' oaddr oaddr' din dout scale zp rm thr inm inm' pk pk' r r' :
  let n := numel din (length inm) in
  buffers_ok nt din dout inm pk -> buffers_ok nt' din dout inm' pk' -> good_scale scale ->
  (rm = RM_STOCHASTIC -> threshold thr /\ (Z.abs zp <= 2 ^ 61)%Z) -> (rm = RM_NEAREST -> (Z.abs zp <= 2 ^ 21)%Z) ->
  numel din (length inm') = n ->
  (forall i, i < n -> val (elem_at din inm' i) = (- val (elem_at din inm i))%R) ->
  (forall i, i < n -> input_ok A rm scale zp thr (elem_at din inm i) /\ input_ok A' rm scale zp thr (elem_at din inm i)) ->
  (forall i, i < n -> finite (elem_at din inm' i)) ->
  returns inm pk (quantize_call A nt oaddr din dout scale zp rm thr inm pk) r ->
  returns inm' pk' (quantize_call A' nt' oaddr' din dout scale (code_max dout - zp) rm thr inm' pk') r' ->
  exists p p', r = Ok p /\ r' = Ok p' /\ forall i, i < n -> code_at dout p' i = (code_max dout - code_at dout p i)%Z.
Proof.
  intros n HB HB' Hsc Hst Hne Hn HV HI HF HR HR'. pose proof HB as (Hfp & Hq & _). pose proof (code_max_range dout Hq) as Hm.
  assert (HI1 : forall i, i < n -> input_ok A rm scale zp thr (elem_at din inm i)) by (intros; apply HI; auto).
  assert (HI2 : forall i, i < n -> input_ok A' rm scale (code_max dout - zp) thr (elem_at din inm' i)).
  { intros i Hi. specialize (HF i Hi). destruct (HI i Hi) as [_ X]. unfold input_ok, nearest_ok, quantizable in *. destruct rm.
    - specialize (Hne eq_refl). rewrite HV, scaled_opp, Rabs_Ropp by auto. destruct X as [[[_ X1] X2] _]. split; [split; auto|lia].
    - destruct (Hst eq_refl). rewrite HV, scaled_opp, Rabs_Ropp by auto. destruct X as [[_ X1] X2]. split; [split; auto|split; [auto|lia]]. }
  rewrite <- Hn in HI2.
  assert (S1 : rm = RM_STOCHASTIC -> threshold thr /\ (Z.abs zp <= 2 ^ 62)%Z) by (intros E; destruct (Hst E); split; auto; lia).
  assert (S2 : rm = RM_NEAREST -> (Z.abs zp <= 2 ^ 22)%Z) by (intros E; specialize (Hne E); lia).
  assert (T1 : rm = RM_STOCHASTIC -> threshold thr /\ (Z.abs (code_max dout - zp) <= 2 ^ 62)%Z) by (intros E; destruct (Hst E); split; auto; lia).
  assert (T2 : rm = RM_NEAREST -> (Z.abs (code_max dout - zp) <= 2 ^ 22)%Z) by (intros E; specialize (Hne E); lia).
  destruct (quantize_codes _ _ _ _ _ _ _ _ _ _ _ _ HB Hsc S1 S2 HI1 HR) as (p & -> & _ & _ & HC).
  destruct (quantize_codes _ _ _ _ _ _ _ _ _ _ _ _ HB' Hsc T1 T2 HI2 HR') as (p' & -> & _ & _ & HC').
  exists p, p'. split; auto. split; auto. fold n in HC. rewrite Hn in HC'. intros i Hi. rewrite HC, HC' by auto.
  unfold expected_code. rewrite HV by auto. destruct rm; [apply quant_code_opp|apply stoch_code_opp]; auto. destruct (Hst eq_refl) as [[_ T] _]. lra.
Qed.

(** Scaling by a power of two: data and scale times 2^k give the same codes, if neither reciprocal is subnormal. *)
Lemma RN32_scale k x : x = 0%R \/ (bpow radix2 (-126) <= Rabs x /\ bpow radix2 (-126) <= Rabs (x * bpow radix2 k))%R ->
  RN32 (x * bpow radix2 k) = (RN32 x * bpow radix2 k)%R.
Proof.
  intros [->|[H1 H2]]; [rewrite !Rmult_0_l, RN32_0; ring|].
  assert (N : x <> 0%R) by (intros ->; rewrite Rabs_R0 in H1; pose proof (bpow_gt_0 radix2 (-126)); lra).
  assert (M : forall y, (bpow radix2 (-126) <= Rabs y)%R -> y <> 0%R -> FLT_exp (-149) 24 (mag radix2 y) = (mag radix2 y - 24)%Z).
  { intros y Hy Ny. unfold FLT_exp. assert (-126 < mag radix2 y)%Z by (apply mag_gt_bpow; auto). lia. }
  assert (N2 : (x * bpow radix2 k)%R <> 0%R) by (apply Rmult_integral_contrapositive_currified; auto; apply Rgt_not_eq, bpow_gt_0).
  unfold RN32, round, scaled_mantissa, cexp. rewrite !M by auto. rewrite mag_mult_bpow by auto.
  replace (x * bpow radix2 k * bpow radix2 (- (mag radix2 x + k - 24)))%R with (x * bpow radix2 (- (mag radix2 x - 24)))%R.
  - unfold F2R. cbn [Fnum Fexp]. rewrite Rmult_assoc, <- bpow_plus. do 2 f_equal. lia.
  - rewrite Rmult_assoc, <- bpow_plus. do 2 f_equal. lia.
Qed.
Definition recip_normal (s : R) : Prop := (s <> 0 /\ Rabs s <= bpow radix2 126)%R.
Lemma scaled_pow2 k s x : recip_normal s -> recip_normal (s * bpow radix2 k) -> scaled (s * bpow radix2 k) (x * bpow radix2 k) = scaled s x.
Proof.
  intros [N U] [N' U']. pose proof (bpow_gt_0 radix2 k) as Pk. unfold scaled. f_equal.
  assert (E : (1 / (s * bpow radix2 k) = 1 / s * bpow radix2 (- k))%R) by (rewrite bpow_opp; field; split; auto; lra).
  assert (L : forall t, t <> 0%R -> (Rabs t <= bpow radix2 126)%R -> (bpow radix2 (-126) <= Rabs (1 / t))%R).
  { intros t Nt Ut. unfold Rdiv. rewrite Rmult_1_l, Rabs_inv. change (-126)%Z with (- (126))%Z. rewrite bpow_opp. apply Rinv_le; auto. apply Rabs_pos_lt. auto. }
  rewrite E, RN32_scale by (right; rewrite <- E; split; apply L; auto). rewrite bpow_opp. field. lra.
Qed.
Theorem C49_power_of_two A A' nt nt' oaddr oaddr' din dout scale scale' zp rm thr k inm inm' pk pk' r r' :
  let n := numel din (length inm) in
  buffers_ok nt din dout inm pk -> buffers_ok nt' din dout inm' pk' -> good_scale scale -> good_scale scale' ->
  recip_normal (val scale) -> recip_normal (val scale') -> val scale' = (val scale * bpow radix2 k)%R ->
  (rm = RM_STOCHASTIC -> threshold thr /\ (Z.abs zp <= 2 ^ 62)%Z) -> (rm = RM_NEAREST -> (Z.abs zp <= 2 ^ 22)%Z) ->
  numel din (length inm') = n ->
  (forall i, i < n -> val (elem_at din inm' i) = (val (elem_at din inm i) * bpow radix2 k)%R) ->
  (forall i, i < n -> input_ok A rm scale zp thr (elem_at din inm i) /\ input_ok A' rm scale zp thr (elem_at din inm i)) ->
  (forall i, i < n -> finite (elem_at din inm' i)) ->
  returns inm pk (quantize_call A nt oaddr din dout scale zp rm thr inm pk) r ->
  returns inm' pk' (quantize_call A' nt' oaddr' din dout scale' zp rm thr inm' pk') r' ->
  exists p p', r = Ok p /\ r' = Ok p' /\ forall i, i < n -> code_at dout p' i = code_at dout p i.
Proof.
  intros n HB HB' Hsc Hsc' Rn Rn' ES Hst Hne Hn HV HI HF HR HR'. pose proof HB as (Hfp & Hq & _).
  assert (SC : forall i, i < n -> scaled (val scale') (val (elem_at din inm' i)) = scaled (val scale) (val (elem_at din inm i))).
  { intros i Hi. rewrite HV, ES by auto. apply scaled_pow2; auto. rewrite <- ES. auto. }
  assert (HI1 : forall i, i < n -> input_ok A rm scale zp thr (elem_at din inm i)) by (intros; apply HI; auto).
  assert (HI2 : forall i, i < n -> input_ok A' rm scale' zp thr (elem_at din inm' i)).
  { intros i Hi. specialize (HF i Hi). destruct (HI i Hi) as [_ X]. unfold input_ok, nearest_ok, quantizable in *. rewrite SC by auto. destruct rm; tauto. }
  rewrite <- Hn in HI2.
  destruct (quantize_codes _ _ _ _ _ _ _ _ _ _ _ _ HB Hsc Hst Hne HI1 HR) as (p & -> & _ & _ & HC).
  destruct (quantize_codes _ _ _ _ _ _ _ _ _ _ _ _ HB' Hsc' Hst Hne HI2 HR') as (p' & -> & _ & _ & HC').
  exists p, p'. split; auto. split; auto. fold n in HC. rewrite Hn in HC'. intros i Hi. rewrite HC, HC' by auto.
  unfold expected_code, quant_code, stoch_code. rewrite SC by auto. reflexivity.
Qed.

(** ** C50: computed parameters depend on the data only through its smallest and largest element. *)
Theorem C50_range_only a a' d d' dq inm inm' n n' blocks blocks' lo hi : a <> SSE42 -> a' <> SSE42 -> float_type d -> float_type d' -> quant_type dq ->
  finite_data d inm n -> finite_data d' inm' n' -> block_cover n blocks -> block_cover n' blocks' ->
  data_range d inm n lo hi -> data_range d' inm' n' lo hi ->
  compute_quant_config_from_data a d dq inm blocks = compute_quant_config_from_data a' d' dq inm' blocks'.
Proof.
  intros Ha Ha' Hd Hd' Hq HD HD' HB HB' HR HR'.
  assert (Hn : 0 < n) by (destruct HR as ((i & Hi & _) & _); lia). assert (Hn' : 0 < n') by (destruct HR' as ((i & Hi & _) & _); lia).
  destruct (config_full a d dq inm n blocks Hd Hq HD Hn HB) as (lo1 & hi1 & _ & _ & X1 & X2 & X3 & R).
  destruct (config_full a' d' dq inm' n' blocks' Hd' Hq HD' Hn' HB') as (lo2 & hi2 & _ & _ & X1' & X2' & X3' & R').
  destruct (data_range_unique _ _ _ _ _ _ _ HR (seen_range a d inm n blocks lo1 hi1 Ha HB X1 X2 X3)) as [<- <-].
  destruct (data_range_unique _ _ _ _ _ _ _ HR' (seen_range a' d' inm' n' blocks' lo2 hi2 Ha' HB' X1' X2' X3')) as [<- <-].
  destruct R as [(E & ->)|(L & s & -> & F & V & S & _)], R' as [(E' & ->)|(L' & s' & -> & F' & V' & S' & _)]; auto; try lra.
  f_equal. f_equal. apply val_sign_inj; auto; congruence.
Qed.
(** In particular reordering, or repeating, elements changes nothing. *)
Theorem C50_same_elements a a' d dq inm inm' n n' blocks blocks' : a <> SSE42 -> a' <> SSE42 -> float_type d -> quant_type dq -> 0 < n ->
  finite_data d inm n -> finite_data d inm' n' -> block_cover n blocks -> block_cover n' blocks' ->
  (forall i, i < n -> exists j, j < n' /\ elem_at d inm' j = elem_at d inm i) -> (forall j, j < n' -> exists i, i < n /\ elem_at d inm i = elem_at d inm' j) ->
  compute_quant_config_from_data a d dq inm blocks = compute_quant_config_from_data a' d dq inm' blocks'.
Proof.
  intros Ha Ha' Hd Hq Hn HD HD' HB HB' H1 H2.
  destruct (config_full a d dq inm n blocks Hd Hq HD Hn HB) as (lo & hi & _ & _ & X1 & X2 & X3 & _).
  pose proof (seen_range a d inm n blocks lo hi Ha HB X1 X2 X3) as HR. apply (C50_range_only a a' d d dq inm inm' n n' blocks blocks' lo hi); auto.
  destruct HR as ((i & Hi & Ei) & (j & Hj & Ej) & B). split; [|split].
  - destruct (H1 i Hi) as (i' & Hi' & E). exists i'. rewrite E. auto.
  - destruct (H1 j Hj) as (j' & Hj' & E). exists j'. rewrite E. auto.
  - intros k Hk. destruct (H2 k Hk) as (k' & Hk' & <-). auto.
Qed.
(** Wider data never gets a smaller scale. *)
Lemma RN64_le x y : (x <= y)%R -> (RN64 x <= RN64 y)%R.
Proof. intros H. unfold RN64. apply round_le; auto; try typeclasses eauto. Qed.
Theorem C50_wider_data a a' d d' dq inm inm' n n' blocks blocks' lo hi lo' hi' s z s' z' : a <> SSE42 -> a' <> SSE42 -> float_type d -> float_type d' -> quant_type dq ->
  finite_data d inm n -> finite_data d' inm' n' -> block_cover n blocks -> block_cover n' blocks' ->
  data_range d inm n lo hi -> data_range d' inm' n' lo' hi' -> (lo' <= lo)%R -> (lo < hi)%R -> (hi <= hi')%R ->
  compute_quant_config_from_data a d dq inm blocks = Ok (s, z) -> compute_quant_config_from_data a' d' dq inm' blocks' = Ok (s', z') ->
  (val s <= val s')%R.
Proof.
  intros Ha Ha' Hd Hd' Hq HD HD' HB HB' HR HR' Hlo L Hhi C C'.
  destruct (C21_documented_parameters a d dq inm n blocks lo hi Ha Hd Hq HD HB HR L) as (t & E & _ & V). rewrite E in C. injection C as <- _.
  destruct (C21_documented_parameters a' d' dq inm' n' blocks' lo' hi' Ha' Hd' Hq HD' HB' HR' ltac:(lra)) as (t' & E' & _ & V'). rewrite E' in C'. injection C' as <- _.
  rewrite V, V'. unfold config_scale, config_step. apply RN32_le, RN64_le. apply Rmult_le_compat_r.
  - apply Rlt_le, Rinv_0_lt_compat, IZR_lt. destruct (code_max_cases dq Hq) as [->|[->| ->]]; lia.
  - apply RN64_le. lra.
Qed.
