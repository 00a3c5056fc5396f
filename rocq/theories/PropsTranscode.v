(** PropsTranscode.v -- C71: changing the type, the zero point or the scale of a packed tensor by dequantize and quantize. *)
From Coq Require Import ZArith List Lia Bool Arith ZifyBool ZifyNat Reals Lra Psatz.
From Flocq Require Import Core Binary Bits.
From Verif Require Import Base Floats Simd Dtypes Spec ApiSpec QuantKernels DequantKernels ExecFacts FloatFacts QuantFacts QuantKernelFacts
  QuantGenericFacts DequantFacts DequantGenericFacts QuantLanes Context ContextFacts Footprint QuantizeFacts DequantizeFacts Api PropsQuantize Schedule
  PropsMemory FloatFacts2 PropsDequantize PropsRoundTrip RoundTripFacts PropsIdempotent PropsReplicas.
Import ListNotations.

Local Open Scope R_scope.
(** [k] is the multiple of [m] nearest to [K], and there is no tie. *)
Definition nearest_multiple (m K k : Z) : Prop := (2 * Z.abs (K - m * k) < m)%Z.
(** the second scale is [m] times the first, up to f32 rounding *)
Definition times (m : Z) (scale scale' : f32) : Prop := Rabs (val scale' - IZR m * val scale) <= bpow radix2 (-23) * (IZR m * Rabs (val scale)).

Lemma nearest_multiple_exists m K : (0 < m)%Z -> Z.odd m = true -> exists k, nearest_multiple m K k.
Proof.
  intros Hm Ho. exists ((2 * K + m) / (2 * m))%Z. unfold nearest_multiple. apply Z.odd_spec in Ho. destruct Ho as [j ->]. Z.div_mod_to_equations. nia.
Qed.
Lemma nearest_multiple_unique m K k k' : nearest_multiple m K k -> nearest_multiple m K k' -> k = k'.
Proof. unfold nearest_multiple. intros H H'. nia. Qed.

(** one element: the value decoded for the integer K, quantized with a scale m times as large, gets the integer k *)
Lemma transcode_element scale scale' m K k x : normal_scale scale -> normal_scale scale' -> (0 < m <= 255)%Z -> times m scale scale' -> (Z.abs K <= 2 ^ 17)%Z ->
  nearest_multiple m K k -> finite x -> val x = RN32 (IZR K * val scale) ->
  quantizable scale' x /\ round_half_away (scaled (val scale') (val x)) = k /\ Rabs (scaled (val scale') (val x)) <> pred_half.
Proof.
  intros Hs Hs' Hm Ht HK Hn Fx Vx. destruct (normal_good scale Hs) as [N _]. destruct (normal_good scale' Hs') as [N' _].
  set (s := val scale) in *. set (s' := val scale') in *. unfold times in Ht. fold s s' in Ht. change (bpow radix2 (-23)) with (/ 8388608) in Ht.
  assert (M1 : 1 <= IZR m <= 255) by (split; apply IZR_le; lia).
  assert (HKR : Rabs (IZR K) <= 131072) by (apply (abs_IZR_le K (2 ^ 17)); lia).
  set (mR := IZR m) in *.
  (* the ratio of the scales *)
  assert (D : exists d, Rabs d <= / 8388608 /\ s' = mR * s * (1 + d)).
  { exists ((s' - mR * s) / (mR * s)). split; [|field; split; [exact N|lra]]. unfold Rdiv. rewrite Rabs_mult, Rabs_inv, Rabs_mult, (Rabs_pos_eq mR) by lra.
    assert (P : 0 < mR * Rabs s) by (apply Rmult_lt_0_compat; [lra|apply Rabs_pos_lt; auto]).
    apply Rmult_le_reg_r with (mR * Rabs s); [exact P|]. rewrite Rmult_assoc, Rinv_l, Rmult_1_r by lra. exact Ht. }
  destruct D as (d & Hd & Es').
  destruct (product_rel scale K Hs) as (e & He & Ex). fold s in Ex. rewrite Ex in Vx. unfold u32r in He.
  apply Rabs_le_inv in Hd. apply Rabs_le_inv in He.
  set (t := val x / s'). set (q := IZR K / mR).
  assert (Et : t = q * ((1 + e) / (1 + d))) by (unfold t, q; rewrite Vx, Es'; field; repeat split; try lra; exact N).
  assert (R1 : Rabs ((1 + e) / (1 + d) - 1) <= / 4000000).
  { replace ((1 + e) / (1 + d) - 1) with ((e - d) / (1 + d)) by (field; lra). unfold Rdiv. rewrite Rabs_mult. 
    assert (I1 : Rabs (/ (1 + d)) <= 2) by (rewrite Rabs_pos_eq by (left; apply Rinv_0_lt_compat; lra); replace 2 with (/ / 2) by field; apply Rinv_le; lra).
    assert (I2 : Rabs (e - d) <= / 8388608 + / 16777216) by (apply Rabs_le; lra).
    assert (I3 : Rabs (/ (1 + d)) <= 1 + / 1000000).
    { rewrite Rabs_pos_eq by (left; apply Rinv_0_lt_compat; lra). apply Rmult_le_reg_r with (1 + d); [lra|]. rewrite Rinv_l by lra. nra. }
    apply Rle_trans with ((/ 8388608 + / 16777216) * (1 + / 1000000)); [apply Rmult_le_compat; auto using Rabs_pos|lra]. }
  assert (Aq : Rabs q * mR <= 131072).
  { unfold q. unfold Rdiv. rewrite Rabs_mult, (Rabs_pos_eq (/ mR)) by (left; apply Rinv_0_lt_compat; lra). rewrite Rmult_assoc, Rinv_l by lra. lra. }
  assert (T1 : Rabs (t - q) <= Rabs q * / 4000000).
  { rewrite Et. replace (q * ((1 + e) / (1 + d)) - q) with (q * ((1 + e) / (1 + d) - 1)) by ring. rewrite Rabs_mult. apply Rmult_le_compat_l; [apply Rabs_pos|exact R1]. }
  assert (T2 : Rabs t <= Rabs q * (1 + / 4000000)).
  { replace t with ((t - q) + q) by ring. eapply Rle_trans; [apply Rabs_triang|]. lra. }
  pose proof (scaled_rel scale' (val x) Hs') as SR. fold s' in SR. fold t in SR. set (y := scaled s' (val x)) in *. unfold u32r in SR. pose proof tiny_small as [_ TS].
  assert (TS' : tiny <= / 100000000000).
  { unfold tiny. apply Rle_trans with (bpow radix2 (-40)); [apply bpow_le; lia|]. change (bpow radix2 (-40)) with (/ 1099511627776). lra. }
  assert (Y1 : Rabs (y - q) <= Rabs q * / 2000000 + / 100000000000).
  { replace (y - q) with ((y - t) + (t - q)) by ring. eapply Rle_trans; [apply Rabs_triang|]. pose proof (Rabs_pos q). nra. }
  (* the distance of K/m from the nearest integer *)
  assert (Q1 : Rabs (q - IZR k) * mR <= mR / 2 - / 2).
  { unfold nearest_multiple in Hn. assert (G : (2 * Z.abs (K - m * k) <= m - 1)%Z) by lia. apply IZR_le in G. rewrite mult_IZR, abs_IZR, !minus_IZR, mult_IZR in G. fold mR in G.
    replace (Rabs (q - IZR k) * mR) with (Rabs (IZR K - mR * IZR k)); [lra|]. rewrite <- (Rabs_pos_eq mR) at 2 by lra. rewrite <- Rabs_mult. f_equal. unfold q. field. lra. }
  assert (Y2 : Rabs (y - IZR k) * mR <= mR / 2 - / 4).
  { assert (Rabs (y - IZR k) <= Rabs (y - q) + Rabs (q - IZR k)) by (replace (y - IZR k) with ((y - q) + (q - IZR k)) by ring; apply Rabs_triang).
    apply Rle_trans with ((Rabs (y - q) + Rabs (q - IZR k)) * mR); [apply Rmult_le_compat_r; lra|].
    assert (Rabs (y - q) * mR <= (Rabs q * / 2000000 + / 100000000000) * mR) by (apply Rmult_le_compat_r; lra).
    rewrite Rmult_plus_distr_r. nra. }
  assert (Y3 : Rabs (y - IZR k) <= / 2 - / 1020).
  { apply Rmult_le_reg_r with mR; [lra|]. eapply Rle_trans; [exact Y2|]. lra. }
  assert (Kk : Rabs (IZR k) <= 131073).
  { assert (Z.abs k <= 131073)%Z by (unfold nearest_multiple in Hn; nia). apply (abs_IZR_le k 131073). auto. }
  split; [|split].
  - split; auto. fold s' y. replace y with ((y - IZR k) + IZR k) by ring. eapply Rle_lt_trans; [apply Rabs_triang|]. rewrite bpow30. lra.
  - apply rha_near. lra.
  - intros E. assert (PH : / 2 - / 10000 < pred_half < / 2).
    { unfold pred_half. assert (H : bpow radix2 (-25) < bpow radix2 (-20)) by (apply bpow_lt; lia). change (bpow radix2 (-20)) with (/ 1048576) in H. pose proof (bpow_gt_0 radix2 (-25)). lra. }
    destruct (Z.eq_dec k 0) as [->|NZ].
    + rewrite Rminus_0_r in Y3. lra.
    + assert (1 <= Rabs (IZR k)) by (rewrite <- abs_IZR; apply IZR_le; lia).
      assert (Rabs (IZR k) <= Rabs y + Rabs (y - IZR k)).
      { replace (IZR k) with (y - (y - IZR k)) at 1 by ring. eapply Rle_trans; [apply Rabs_triang|]. rewrite Rabs_Ropp. lra. }
      lra.
Qed.

(** Dequantize a packed tensor to f32, quantize it to another (or the same) type with another zero point and a scale m times as large, m odd:
    the new code is the old integer divided by m, rounded to nearest, plus the new zero point, clamped to the new code range. *)
Theorem C71_transcode A nt oaddr A' nt' oaddr' d d' scale scale' zp zp' m thr inm in_size outm o pk r :
  let n := numel DT_F32 (length outm) in
  dq_buffers nt d DT_F32 inm in_size outm -> quant_type d' -> normal_scale scale -> normal_scale scale' -> (0 < m <= 255)%Z -> Z.odd m = true -> times m scale scale' ->
  (Z.abs zp <= 2 ^ 16)%Z -> (Z.abs zp' <= 2 ^ 22)%Z -> Forall is_byte outm ->
  returns inm outm (dequantize_call A nt oaddr d DT_F32 scale zp RO_SET in_size outm) (Ok o) ->
  length pk = bytes_for d' n -> sizes_ok (length outm) n nt' ->
  returns o pk (quantize_call A' nt' oaddr' DT_F32 d' scale' zp' RM_NEAREST thr o pk) r ->
  exists p, r = Ok p /\ length p = length pk /\ Forall is_byte p /\ forall i, (i < n)%nat -> exists k,
    nearest_multiple m (code_at d inm i - zp) k /\ code_at d' p i = clamp 0 (code_max d') (zp' + k).
Proof.
  intros n HB Hq' Hs Hs' Hm Hodd Ht Hz Hz' Hby HD Hl HS HQ. pose proof HB as (Hq & _). pose proof (code_max_range d Hq) as Hcm.
  assert (Hno : RO_SET = RO_ADD -> finite scale) by discriminate. assert (Hz30 : (Z.abs zp <= 2 ^ 30)%Z) by lia.
  destruct (dequantize_f32 _ _ _ _ _ _ _ _ _ _ _ HB Hz30 Hno HD) as (o' & E & HL & HE & HF). injection E as <-. fold n in HE, HF.
  assert (HE' : forall i, (i < n)%nat -> slice (4 * i) 4 o = le_bytes 4 (bits_of_f32 (dequant_value scale zp (code_at d inm i)))).
  { intros i Hi. rewrite HE by auto. unfold reaches. destruct d; auto. destruct (_ <? _)%nat; auto. }
  assert (HX : forall i, (i < n)%nat -> f32_at o i = dequant_value scale zp (code_at d inm i)).
  { intros i Hi. rewrite f32_at_ld, HE' by auto. apply ld_f32_bytes. }
  assert (Hbo : Forall is_byte o).
  { refine (bytes_of_slices 4 n o outm _ ltac:(lia) HL Hby _ HF). intros i Hi. split; [apply HE'; auto|]. split; [apply le_bytes_length|apply le_bytes_is_byte]. }
  assert (HB' : buffers_ok nt' DT_F32 d' o pk) by (unfold buffers_ok; rewrite HL; fold n; split; [left; reflexivity|auto]).
  assert (R : forall i, (i < n)%nat -> exists k, nearest_multiple m (code_at d inm i - zp) k /\
    quantizable scale' (f32_at o i) /\ round_half_away (scaled (val scale') (val (f32_at o i))) = k /\ Rabs (scaled (val scale') (val (f32_at o i))) <> pred_half).
  { intros i Hi. destruct (nearest_multiple_exists m (code_at d inm i - zp) ltac:(lia) Hodd) as [k Hk]. exists k. split; auto.
    pose proof (code_at_le d inm i Hq). destruct (dequant_value_ok scale zp (code_at d inm i) Hs ltac:(lia)) as [F V]. rewrite <- HX in F, V by auto.
    apply (transcode_element scale scale' m (code_at d inm i - zp) k); auto. lia. }
  assert (Hn : numel DT_F32 (length o) = n) by (rewrite HL; reflexivity).
  destruct (quantize_codes A' nt' oaddr' DT_F32 d' scale' zp' RM_NEAREST thr o pk r HB' (normal_good _ Hs')) as (p & -> & HLp & Hbp & HC); auto; try discriminate.
  - rewrite Hn. intros i Hi. cbn [input_ok elem_at]. destruct (R i Hi) as (k & _ & R1 & _ & R3). repeat split; auto; apply R1.
  - exists p. split; auto. split; auto. split; auto. rewrite Hn in HC. intros i Hi. destruct (R i Hi) as (k & Hk & _ & R2 & _). exists k. split; auto.
    rewrite HC by auto. cbn [expected_code elem_at]. unfold quant_code. rewrite R2. f_equal. ring.
Qed.

Lemma times_1 scale : times 1 scale scale.
Proof. unfold times. replace (val scale - 1 * val scale) with 0 by ring. rewrite Rabs_R0. apply Rmult_le_pos; [apply bpow_ge_0|]. pose proof (Rabs_pos (val scale)). lra. Qed.
Lemma nearest_1 K k : nearest_multiple 1 K k -> k = K.
Proof. unfold nearest_multiple. intros H. lia. Qed.

(** the same scale: only the zero point moves; what leaves the code range saturates *)
Theorem C71_move_zero A nt oaddr A' nt' oaddr' d d' scale zp zp' thr inm in_size outm o pk r :
  let n := numel DT_F32 (length outm) in
  dq_buffers nt d DT_F32 inm in_size outm -> quant_type d' -> normal_scale scale -> (Z.abs zp <= 2 ^ 16)%Z -> (Z.abs zp' <= 2 ^ 22)%Z -> Forall is_byte outm ->
  returns inm outm (dequantize_call A nt oaddr d DT_F32 scale zp RO_SET in_size outm) (Ok o) ->
  length pk = bytes_for d' n -> sizes_ok (length outm) n nt' ->
  returns o pk (quantize_call A' nt' oaddr' DT_F32 d' scale zp' RM_NEAREST thr o pk) r ->
  exists p, r = Ok p /\ length p = length pk /\ forall i, (i < n)%nat -> code_at d' p i = Z.max 0 (Z.min (code_max d') (code_at d inm i - zp + zp')).
Proof.
  intros n HB Hq' Hs Hz Hz' Hby HD Hl HS HQ.
  destruct (C71_transcode A nt oaddr A' nt' oaddr' d d' scale scale zp zp' 1 thr inm in_size outm o pk r HB Hq' Hs Hs ltac:(lia) eq_refl (times_1 scale) Hz Hz' Hby HD Hl HS HQ)
    as (p & -> & L & _ & H).
  exists p. split; auto. split; auto. intros i Hi. destruct (H i Hi) as (k & Hk & ->). apply nearest_1 in Hk. subst k.
  pose proof (code_max_range d' Hq'). unfold clamp. fold n. lia.
Qed.

(** widening a tensor (uint2 to uint4 or uint8, uint4 to uint8) keeps every code *)
Theorem C71_widen A nt oaddr A' nt' oaddr' d d' scale zp thr inm in_size outm o pk r :
  let n := numel DT_F32 (length outm) in
  dq_buffers nt d DT_F32 inm in_size outm -> quant_type d' -> (code_max d <= code_max d')%Z -> normal_scale scale -> (Z.abs zp <= 2 ^ 16)%Z -> Forall is_byte outm ->
  returns inm outm (dequantize_call A nt oaddr d DT_F32 scale zp RO_SET in_size outm) (Ok o) ->
  length pk = bytes_for d' n -> sizes_ok (length outm) n nt' ->
  returns o pk (quantize_call A' nt' oaddr' DT_F32 d' scale zp RM_NEAREST thr o pk) r ->
  exists p, r = Ok p /\ length p = length pk /\ forall i, (i < n)%nat -> code_at d' p i = code_at d inm i.
Proof.
  intros n HB Hq' Hm Hs Hz Hby HD Hl HS HQ.
  destruct (C71_move_zero A nt oaddr A' nt' oaddr' d d' scale zp zp thr inm in_size outm o pk r HB Hq' Hs Hz ltac:(lia) Hby HD Hl HS HQ) as (p & -> & L & H).
  exists p. split; auto. split; auto. intros i Hi. rewrite H by auto. pose proof (code_at_le d inm i (proj1 HB)). lia.
Qed.

(** narrowing a tensor over the same range (uint8 to uint4: m = 17, uint8 to uint2: m = 85, uint4 to uint2: m = 5): the new code is the old one
    divided by m, rounded to nearest; nothing saturates *)
Theorem C71_narrow A nt oaddr A' nt' oaddr' d d' scale scale' zp' m thr inm in_size outm o pk r :
  let n := numel DT_F32 (length outm) in
  dq_buffers nt d DT_F32 inm in_size outm -> quant_type d' -> (0 < m)%Z -> (code_max d = m * code_max d')%Z -> (0 <= zp' <= code_max d')%Z ->
  normal_scale scale -> normal_scale scale' -> times m scale scale' -> Forall is_byte outm ->
  returns inm outm (dequantize_call A nt oaddr d DT_F32 scale (m * zp') RO_SET in_size outm) (Ok o) ->
  length pk = bytes_for d' n -> sizes_ok (length outm) n nt' ->
  returns o pk (quantize_call A' nt' oaddr' DT_F32 d' scale' zp' RM_NEAREST thr o pk) r ->
  exists p, r = Ok p /\ length p = length pk /\ forall i, (i < n)%nat -> (2 * Z.abs (code_at d inm i - m * code_at d' p i) < m)%Z.
Proof.
  intros n HB Hq' Hm Hmm Hz' Hs Hs' Ht Hby HD Hl HS HQ. pose proof HB as (Hq & _).
  assert (Cm : (m <= 255)%Z /\ Z.odd m = true /\ (0 <= m * zp' <= 255)%Z).
  { assert (E : forall e, quant_type e -> code_max e = 3%Z \/ code_max e = 15%Z \/ code_max e = 255%Z) by (intros e [->|[->| ->]]; auto).
    destruct (E d Hq) as [E1|[E1|E1]], (E d' Hq') as [E2|[E2|E2]]; rewrite E1, E2 in Hmm; rewrite E2 in Hz';
      solve [exfalso; lia | assert (X : (m = 1 \/ m = 5 \/ m = 17 \/ m = 85)%Z) by lia; destruct X as [->|[->|[->| ->]]]; (split; [lia|split; [reflexivity|lia]])]. }
  destruct Cm as (C1 & C2 & C3).
  destruct (C71_transcode A nt oaddr A' nt' oaddr' d d' scale scale' (m * zp') zp' m thr inm in_size outm o pk r HB Hq' Hs Hs' ltac:(lia) C2 Ht ltac:(lia) ltac:(pose proof (code_max_range d' Hq'); lia) Hby HD Hl HS HQ)
    as (p & -> & L & _ & H).
  exists p. split; auto. split; auto. intros i Hi. destruct (H i Hi) as (k & Hk & E). rewrite E. unfold nearest_multiple in Hk. pose proof (code_at_le d inm i Hq) as HC.
  set (c := code_at d inm i) in *. rewrite Hmm in HC.
  assert (X : (0 <= zp' + k <= code_max d')%Z).
  { set (y := (zp' + k)%Z). assert (EY : (c - m * zp' - m * k = c - m * y)%Z) by (unfold y; ring). rewrite EY in Hk. clearbody y. split.
    - apply Z.nlt_ge. intros Y. assert (m * y <= m * (-1))%Z by (apply Z.mul_le_mono_nonneg_l; lia). lia.
    - apply Z.nlt_ge. intros Y. assert (m * (code_max d' + 1) <= m * y)%Z by (apply Z.mul_le_mono_nonneg_l; lia). lia. }
  unfold clamp. rewrite Z.min_r, Z.max_r by lia. 
  replace (c - m * (zp' + k))%Z with (c - m * zp' - m * k)%Z by ring. exact Hk.
Qed.
