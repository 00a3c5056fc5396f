(** PropsUnits.v -- C62: the units and the sign convention of the data do not matter.  The whole workflow (parameters from the data,
    quantize, dequantize) commutes with multiplication of the data by a power of two and, unless zero falls between two codes, with negation. *)
From Coq Require Import ZArith List Lia Bool Arith ZifyBool ZifyNat Reals Lra.
From Flocq Require Import Core Binary Bits.
From Verif Require Import Base Floats Simd Dtypes Spec ApiSpec QuantKernels DequantKernels ExecFacts FloatFacts QuantFacts QuantKernelFacts
  QuantGenericFacts DequantFacts DequantGenericFacts QuantLanes Context ContextFacts Footprint QuantizeFacts DequantizeFacts Api PropsQuantize Schedule
  PropsMemory FloatFacts2 PropsDequantize PropsRoundTrip RoundTripFacts PropsIdempotent MinMax MinMaxFacts ConfigSpec F64Facts ConfigFacts PropsConfig
  PropsRepresent PropsOrder PropsReadme PropsStable.
Import ListNotations.
Open Scope R_scope.

Ltac Zify.zify_post_hook ::= Z.div_mod_to_equations.

(** ** Powers of two *)
Lemma RN64_scale k x : x = 0 \/ (bpow radix2 (-1022) <= Rabs x /\ bpow radix2 (-1022) <= Rabs (x * bpow radix2 k)) ->
  RN64 (x * bpow radix2 k) = RN64 x * bpow radix2 k.
Proof.
  intros [->|[H1 H2]]; [rewrite !Rmult_0_l, RN64_0; ring|].
  assert (N : x <> 0) by (intros ->; rewrite Rabs_R0 in H1; pose proof (bpow_gt_0 radix2 (-1022)); lra).
  assert (M : forall y, bpow radix2 (-1022) <= Rabs y -> y <> 0 -> FLT_exp (-1074) 53 (mag radix2 y) = (mag radix2 y - 53)%Z).
  { intros y Hy Ny. unfold FLT_exp. assert (-1022 < mag radix2 y)%Z by (apply mag_gt_bpow; auto). lia. }
  assert (N2 : x * bpow radix2 k <> 0) by (apply Rmult_integral_contrapositive_currified; auto; apply Rgt_not_eq, bpow_gt_0).
  unfold RN64, round, scaled_mantissa, cexp. rewrite !M by auto. rewrite mag_mult_bpow by auto.
  replace (x * bpow radix2 k * bpow radix2 (- (mag radix2 x + k - 53))) with (x * bpow radix2 (- (mag radix2 x - 53))).
  - unfold F2R. cbn [Fnum Fexp]. rewrite Rmult_assoc, <- bpow_plus. do 2 f_equal. lia.
  - rewrite Rmult_assoc, <- bpow_plus. do 2 f_equal. lia.
Qed.

Lemma step_scale dq lo hi k : quant_type dq -> in32 lo -> in32 hi -> lo < hi -> in32 (lo * bpow radix2 k) -> in32 (hi * bpow radix2 k) ->
  config_step dq (lo * bpow radix2 k) (hi * bpow radix2 k) = config_step dq lo hi * bpow radix2 k.
Proof.
  intros Hq I1 I2 H I1' I2'. pose proof (bpow_gt_0 radix2 k) as Pk. pose proof (code_max_R dq Hq) as Q.
  assert (H' : lo * bpow radix2 k < hi * bpow radix2 k) by (apply Rmult_lt_compat_r; auto).
  destruct (diff_bounds lo hi I1 I2 H) as (_ & _ & _ & B1 & _). destruct (diff_bounds _ _ I1' I2' H') as (_ & _ & _ & B1' & _).
  destruct I1 as [F1 _], I2 as [F2 _], I1' as [F1' _], I2' as [F2' _].
  pose proof (fmt32_gap0 _ _ F1 F2 H) as G. pose proof (fmt32_gap0 _ _ F1' F2' H') as G'. pose proof (bpow_gt_0 radix2 (-149)) as P.
  assert (L149 : bpow radix2 (-1022) <= bpow radix2 (-149)) by (apply bpow_le; lia).
  assert (L157 : bpow radix2 (-1022) <= bpow radix2 (-157)) by (apply bpow_le; lia).
  assert (ED : RN64 (hi * bpow radix2 k - lo * bpow radix2 k) = RN64 (hi - lo) * bpow radix2 k).
  { rewrite <- RN64_scale; [f_equal; ring|]. right. rewrite !Rabs_pos_eq; lra. }
  unfold config_step. rewrite ED in *. set (D := RN64 (hi - lo)) in *. set (q := IZR (code_max dq)) in *.
  assert (X : forall y, bpow radix2 (-149) <= y -> bpow radix2 (-157) <= y / q).
  { intros y Hy. apply Rle_trans with (bpow radix2 (-149) / 256).
    - change (-149)%Z with (-157 + 8)%Z. rewrite bpow_plus. change (bpow radix2 8) with 256. lra.
    - apply Rmult_le_compat; auto; [lra|lra|]. apply Rinv_le; lra. }
  replace (D * bpow radix2 k / q) with (D / q * bpow radix2 k) by (field; lra). apply RN64_scale. right.
  pose proof (X _ B1) as X1. pose proof (X _ B1') as X2. replace (D / q * bpow radix2 k) with (D * bpow radix2 k / q) by (field; lra).
  pose proof (bpow_gt_0 radix2 (-157)). rewrite !Rabs_pos_eq; lra.
Qed.

(** the zero point does not change: no condition on the size of the data *)
Lemma zp_scale dq lo hi k : quant_type dq -> in32 lo -> in32 hi -> lo < hi -> in32 (lo * bpow radix2 k) -> in32 (hi * bpow radix2 k) ->
  config_zp dq (lo * bpow radix2 k) (hi * bpow radix2 k) = config_zp dq lo hi.
Proof.
  intros Hq I1 I2 H I1' I2'. pose proof (bpow_gt_0 radix2 k) as Pk. destruct (step_bounds dq lo hi Hq I1 I2 H) as (_ & _ & _ & B & _).
  pose proof (bpow_gt_0 radix2 (-157)). unfold config_zp. rewrite step_scale by auto. do 5 f_equal. field. split; lra.
Qed.

Lemma range_scale d d' inm inm' n lo hi k : (forall i, (i < n)%nat -> val (elem_at d' inm' i) = val (elem_at d inm i) * bpow radix2 k) ->
  data_range d inm n lo hi -> data_range d' inm' n (lo * bpow radix2 k) (hi * bpow radix2 k).
Proof.
  intros HV ((i & Hi & Ei) & (j & Hj & Ej) & B). pose proof (bpow_gt_0 radix2 k) as Pk. split; [|split].
  - exists i. split; auto. rewrite HV, Ei; auto.
  - exists j. split; auto. rewrite HV, Ej; auto.
  - intros l Hl. rewrite HV by auto. specialize (B l Hl). split; apply Rmult_le_compat_r; lra.
Qed.

(** ** C62.  Multiply every element by 2^k (f32 or bf16, the types may differ): same zero point, and the scale times 2^k, exactly. *)
Theorem C62_units_parameters a a' d d' dq inm inm' n blocks blocks' lo hi k : a <> SSE42 -> a' <> SSE42 -> float_type d -> float_type d' -> quant_type dq ->
  finite_data d inm n -> finite_data d' inm' n -> block_cover n blocks -> block_cover n blocks' ->
  (forall i, (i < n)%nat -> val (elem_at d' inm' i) = val (elem_at d inm i) * bpow radix2 k) ->
  data_range d inm n lo hi -> bpow radix2 (-118) <= hi - lo <= bpow radix2 100 -> bpow radix2 (-118) <= (hi - lo) * bpow radix2 k <= bpow radix2 100 ->
  exists scale scale' zp, compute_quant_config_from_data a d dq inm blocks = Ok (scale, zp) /\ compute_quant_config_from_data a' d' dq inm' blocks' = Ok (scale', zp) /\
    normal_scale scale /\ normal_scale scale' /\ 0 < val scale /\ val scale' = val scale * bpow radix2 k.
Proof.
  intros Ha Ha' Hd Hd' Hq HD HD' HB HB' HV HR HW HW'. pose proof (bpow_gt_0 radix2 k) as Pk. pose proof (bpow_gt_0 radix2 (-118)) as P0.
  pose proof (range_scale d d' inm inm' n lo hi k HV HR) as HR'.
  assert (H : lo < hi) by lra. assert (H' : lo * bpow radix2 k < hi * bpow radix2 k) by (apply Rmult_lt_compat_r; auto).
  assert (I1 : in32 lo) by (destruct HR as ((i & Hi & <-) & _); apply in32_val, HD; auto).
  assert (I2 : in32 hi) by (destruct HR as (_ & (i & Hi & <-) & _); apply in32_val, HD; auto).
  assert (I1' : in32 (lo * bpow radix2 k)) by (destruct HR' as ((i & Hi & <-) & _); apply in32_val, HD'; auto).
  assert (I2' : in32 (hi * bpow radix2 k)) by (destruct HR' as (_ & (i & Hi & <-) & _); apply in32_val, HD'; auto).
  destruct (C21_documented_parameters a d dq inm n blocks lo hi Ha Hd Hq HD HB HR H) as (s & E & F & V).
  destruct (C21_documented_parameters a' d' dq inm' n blocks' _ _ Ha' Hd' Hq HD' HB' HR' H') as (s' & E' & F' & V').
  rewrite zp_scale in E' by auto. exists s, s', (config_zp dq lo hi). split; auto. split; auto.
  replace ((hi - lo) * bpow radix2 k) with (hi * bpow radix2 k - lo * bpow radix2 k) in HW' by ring.
  destruct (config_scale_rel dq lo hi Hq I1 I2 HW) as (_ & _ & _ & BS). destruct (config_scale_rel dq _ _ Hq I1' I2' HW') as (_ & _ & _ & BS').
  pose proof (bpow_gt_0 radix2 (-126)) as P1.
  assert (N1 : normal_scale s) by (split; auto; rewrite V, Rabs_pos_eq; lra). assert (N2 : normal_scale s') by (split; auto; rewrite V', Rabs_pos_eq; lra).
  split; auto. split; auto. split; [lra|]. rewrite V, V'. unfold config_scale. rewrite step_scale by auto. apply RN32_scale. right.
  assert (B : forall l h, in32 l -> in32 h -> bpow radix2 (-118) <= h - l <= bpow radix2 100 -> bpow radix2 (-126) <= config_step dq l h).
  { intros l h _ _ [L _]. unfold config_step. rewrite <- (RN64_fmt (bpow radix2 (-126))) by (apply fmt64_bpow; lia). apply F64Facts.RN64_le.
    pose proof (code_max_R dq Hq) as Q. assert (L' : bpow radix2 (-118) <= RN64 (h - l)).
    { rewrite <- (RN64_fmt (bpow radix2 (-118))) by (apply fmt64_bpow; lia). apply F64Facts.RN64_le; auto. }
    apply Rle_trans with (bpow radix2 (-118) / 256).
    - change (-118)%Z with (-126 + 8)%Z. rewrite bpow_plus. change (bpow radix2 8) with 256. lra.
    - apply Rmult_le_compat; [lra|lra|lra|]. apply Rinv_le; lra. }
  pose proof (B lo hi I1 I2 HW) as B1. pose proof (B _ _ I1' I2' HW') as B2. rewrite step_scale in B2 by auto.
  rewrite !Rabs_pos_eq; lra.
Qed.

(** ... and, quantized with these parameters (nearest or stochastic), the codes are the same. *)
Theorem C62_units_codes a a' blocks blocks' A A' nt nt' oaddr oaddr' din dq rm thr inm inm' pk pk' scale scale' zp zp' lo hi k r r' :
  let n := numel din (length inm) in
  a <> SSE42 -> a' <> SSE42 -> finite_data din inm n -> finite_data din inm' n -> block_cover n blocks -> block_cover n blocks' ->
  (forall i, (i < n)%nat -> val (elem_at din inm' i) = val (elem_at din inm i) * bpow radix2 k) ->
  data_range din inm n lo hi -> bpow radix2 (-118) <= hi - lo <= bpow radix2 100 -> bpow radix2 (-118) <= (hi - lo) * bpow radix2 k <= bpow radix2 100 ->
  compute_quant_config_from_data a din dq inm blocks = Ok (scale, zp) -> compute_quant_config_from_data a' din dq inm' blocks' = Ok (scale', zp') ->
  buffers_ok nt din dq inm pk -> buffers_ok nt' din dq inm' pk' -> (rm = RM_STOCHASTIC -> threshold thr) ->
  (forall i, (i < n)%nat -> input_ok A rm scale zp thr (elem_at din inm i) /\ input_ok A' rm scale zp thr (elem_at din inm i)) ->
  returns inm pk (quantize_call A nt oaddr din dq scale zp rm thr inm pk) r ->
  returns inm' pk' (quantize_call A' nt' oaddr' din dq scale' zp' rm thr inm' pk') r' ->
  zp' = zp /\ exists p p', r = Ok p /\ r' = Ok p' /\ forall i, (i < n)%nat -> code_at dq p' i = code_at dq p i.
Proof.
  intros n Ha Ha' HD HD' HB HB' HV HR HW HW' EC EC' HBu HBu' Ht HI HQ HQ'. pose proof HBu as (Hd & Hq & _).
  destruct (C62_units_parameters a a' din din dq inm inm' n blocks blocks' lo hi k Ha Ha' Hd Hd Hq HD HD' HB HB' HV HR HW HW') as (s & s' & z & E & E' & N & N' & _ & V).
  rewrite EC in E. rewrite EC' in E'. injection E as <- <-. injection E' as <- ->. split; auto.
  pose proof (bpow_gt_0 radix2 (-118)) as P0. pose proof (code_max_range dq Hq) as Hm.
  assert (Hz : (0 <= zp <= code_max dq)%Z).
  { assert (H : lo < hi) by lra. destruct (C21_documented_parameters a din dq inm n blocks lo hi Ha Hd Hq HD HB HR H) as (s0 & E & _). rewrite EC in E. injection E as _ ->.
    unfold config_zp, clamp. lia. }
  assert (RNm : forall x, normal_scale x -> recip_normal (val x)).
  { intros x (_ & L & U). pose proof (bpow_gt_0 radix2 (-126)). split; [intros Z0; rewrite Z0, Rabs_R0 in L; lra|]. apply Rle_trans with (bpow radix2 100); auto. apply bpow_le. lia. }
  assert (Hn : numel din (length inm') = n).
  { destruct HD' as (_ & HL' & _). unfold numel. rewrite HL'. destruct Hd as [->| ->]; cbn [stride]; lia. }
  assert (Hst : rm = RM_STOCHASTIC -> threshold thr /\ (Z.abs zp <= 2 ^ 62)%Z) by (intros E; split; auto; lia).
  assert (Hne : rm = RM_NEAREST -> (Z.abs zp <= 2 ^ 22)%Z) by lia.
  refine (C49_power_of_two A A' nt nt' oaddr oaddr' din dq scale scale' zp rm thr k inm inm' pk pk' r r' HBu HBu' (normal_good _ N) (normal_good _ N')
    (RNm _ N) (RNm _ N') V Hst Hne Hn HV HI _ HQ HQ').
  intros i Hi. apply HD'. auto.
Qed.

(** ... and, dequantized with them to f32, the result is 2^k times the result, exactly. *)
Theorem C62_units_decoded A A' nt nt' oaddr oaddr' d scale scale' zp k inm inm' in_size in_size' outm outm' r r' :
  let n := numel DT_F32 (length outm) in
  dq_buffers nt d DT_F32 inm in_size outm -> dq_buffers nt' d DT_F32 inm' in_size' outm' -> numel DT_F32 (length outm') = n ->
  normal_scale scale -> normal_scale scale' -> val scale' = val scale * bpow radix2 k -> (Z.abs zp <= 2 ^ 19)%Z ->
  (forall i, (i < n)%nat -> code_at d inm' i = code_at d inm i) ->
  returns inm outm (dequantize_call A nt oaddr d DT_F32 scale zp RO_SET in_size outm) r ->
  returns inm' outm' (dequantize_call A' nt' oaddr' d DT_F32 scale' zp RO_SET in_size' outm') r' ->
  exists o o', r = Ok o /\ r' = Ok o' /\ forall i, (i < n)%nat -> finite (f32_at o i) /\ finite (f32_at o' i) /\ val (f32_at o' i) = val (f32_at o i) * bpow radix2 k.
Proof.
  intros n HB HB' Hn N N' V Hz HC HD HD'. assert (Hz30 : (Z.abs zp <= 2 ^ 30)%Z) by lia. pose proof HB as (Hq & _). pose proof (code_max_range d Hq) as Hm.
  destruct (C07_dequantize_set_f32 _ _ _ _ _ _ _ _ _ _ HB Hz30 HD) as (o & -> & _ & HE & _). fold n in HE.
  destruct (C07_dequantize_set_f32 _ _ _ _ _ _ _ _ _ _ HB' Hz30 HD') as (o' & -> & _ & HE' & _). rewrite Hn in HE'.
  exists o, o'. split; auto. split; auto. intros i Hi. rewrite HE, HE', HC by auto. set (q := code_at d inm i).
  assert (Hc : (0 <= q <= code_max d)%Z) by (apply code_at_le; auto). fold (dequant_value scale zp q) (dequant_value scale' zp q).
  destruct (dequant_value_ok scale zp q N ltac:(lia)) as [F E]. destruct (dequant_value_ok scale' zp q N' ltac:(lia)) as [F' E']. split; auto. split; auto.
  rewrite E, E', V. rewrite <- Rmult_assoc. apply RN32_scale. destruct (Z.eq_dec (q - zp) 0) as [->|NZ]; [left; ring|right].
  destruct N as (_ & L & _), N' as (_ & L' & _). rewrite V in L'. assert (1 <= Rabs (IZR (q - zp))) by (rewrite <- abs_IZR; apply IZR_le; lia).
  rewrite (Rmult_assoc _ (val scale)). rewrite !(Rabs_mult (IZR (q - zp))). pose proof (bpow_gt_0 radix2 (-126)). split; nra.
Qed.

(** ** Negation *)
Lemma step_opp dq lo hi : config_step dq (- hi) (- lo) = config_step dq lo hi.
Proof. unfold config_step. do 3 f_equal. ring. Qed.

(** away from ties the zero point is the integer nearest to the position of zero *)
Lemma zp_nearest dq lo hi J : quant_type dq -> in32 lo -> in32 hi -> lo < hi -> lo <= 0 <= hi ->
  Rabs (- lo * IZR (code_max dq) / (hi - lo) - IZR J) <= / 2 - / 4096 -> config_zp dq lo hi = J.
Proof.
  intros Hq I1 I2 H H0 HJ. destruct (step_bounds dq lo hi Hq I1 I2 H) as (g & Hg & E & B1 & _).
  destruct (config_zp_near dq lo hi Hq I1 I2 H H0) as (T & Z & N). pose proof (code_max_R dq Hq) as Q. pose proof (bpow_gt_0 radix2 (-157)) as P2.
  apply Rabs_le_inv in Hg. unfold u64r in Hg. apply Rabs_le_inv in N. apply Rabs_le_inv in HJ.
  set (zp := config_zp dq lo hi) in *. set (m := IZR (code_max dq)) in *. set (st := config_step dq lo hi) in *.
  set (t := - lo * m / (hi - lo)) in *. set (w := hi - lo) in *. assert (Pw : 0 < w) by (unfold w; lra).
  assert (Ht : 0 <= t <= m).
  { unfold t. split; [apply Rmult_le_pos; [nra|left; apply Rinv_0_lt_compat; lra]|]. apply Rmult_le_reg_r with w; [lra|].
    unfold Rdiv. rewrite Rmult_assoc, Rinv_l by lra. unfold w. nra. }
  assert (Ig : 1 - / 15000000 <= / (1 + g) <= 1 + / 15000000) by (split; apply Rmult_le_reg_r with (1 + g); try lra; rewrite Rinv_l by lra; nra).
  assert (Et0 : - lo / st = t * / (1 + g)) by (rewrite E; unfold t; field; lra). rewrite Et0 in N.
  set (i := / (1 + g)) in *. assert (X1 : t - / 50000 <= t * i <= t + / 50000) by (split; nra).
  apply int_near; apply Rabs_def1; lra.
Qed.

Lemma zp_opp dq lo hi : quant_type dq -> in32 lo -> in32 hi -> lo < hi -> lo <= 0 <= hi -> zero_off_tie dq lo hi ->
  config_zp dq (- hi) (- lo) = (code_max dq - config_zp dq lo hi)%Z.
Proof.
  intros Hq I1 I2 H H0 HT. unfold zero_off_tie in HT. change (bpow radix2 (-12)) with (/ 4096) in HT. destruct (nearest_of _ HT) as (J & HJ).
  rewrite (zp_nearest dq lo hi J) by auto.
  assert (IO : forall x, in32 x -> in32 (- x)) by (intros x [F B]; split; [apply generic_format_opp; auto|rewrite Rabs_Ropp; auto]).
  apply zp_nearest; auto; try lra. rewrite minus_IZR. 
  replace (- - hi * IZR (code_max dq) / (- lo - - hi) - (IZR (code_max dq) - IZR J)) with (- (- lo * IZR (code_max dq) / (hi - lo) - IZR J)) by (field; lra).
  rewrite Rabs_Ropp. exact HJ.
Qed.

Lemma range_opp d d' inm inm' n lo hi : (forall i, (i < n)%nat -> val (elem_at d' inm' i) = - val (elem_at d inm i)) ->
  data_range d inm n lo hi -> data_range d' inm' n (- hi) (- lo).
Proof.
  intros HV ((i & Hi & Ei) & (j & Hj & Ej) & B). split; [|split].
  - exists j. split; auto. rewrite HV, Ej; auto.
  - exists i. split; auto. rewrite HV, Ei; auto.
  - intros l Hl. rewrite HV by auto. specialize (B l Hl). lra.
Qed.

(** Negate every element, in a range that includes 0: same scale, and the mirrored zero point. *)
Theorem C62_negation_parameters a a' d d' dq inm inm' n blocks blocks' lo hi : a <> SSE42 -> a' <> SSE42 -> float_type d -> float_type d' -> quant_type dq ->
  finite_data d inm n -> finite_data d' inm' n -> block_cover n blocks -> block_cover n blocks' ->
  (forall i, (i < n)%nat -> val (elem_at d' inm' i) = - val (elem_at d inm i)) ->
  data_range d inm n lo hi -> lo <= 0 <= hi -> bpow radix2 (-118) <= hi - lo <= bpow radix2 100 -> zero_off_tie dq lo hi ->
  exists scale zp, compute_quant_config_from_data a d dq inm blocks = Ok (scale, zp) /\
    compute_quant_config_from_data a' d' dq inm' blocks' = Ok (scale, code_max dq - zp)%Z /\ normal_scale scale /\ 0 < val scale /\ (0 <= zp <= code_max dq)%Z.
Proof.
  intros Ha Ha' Hd Hd' Hq HD HD' HB HB' HV HR H0 HW HT. pose proof (bpow_gt_0 radix2 (-118)) as P0. pose proof (range_opp d d' inm inm' n lo hi HV HR) as HR'.
  assert (H : lo < hi) by lra. assert (H' : - hi < - lo) by lra.
  assert (I1 : in32 lo) by (destruct HR as ((i & Hi & <-) & _); apply in32_val, HD; auto).
  assert (I2 : in32 hi) by (destruct HR as (_ & (i & Hi & <-) & _); apply in32_val, HD; auto).
  destruct (C21_documented_parameters a d dq inm n blocks lo hi Ha Hd Hq HD HB HR H) as (s & E & F & V).
  destruct (C21_documented_parameters a' d' dq inm' n blocks' _ _ Ha' Hd' Hq HD' HB' HR' H') as (s' & E' & F' & V').
  rewrite zp_opp in E' by auto. destruct (config_scale_rel dq lo hi Hq I1 I2 HW) as (_ & _ & _ & BS). pose proof (bpow_gt_0 radix2 (-126)) as P1.
  assert (EV : config_scale dq (- hi) (- lo) = config_scale dq lo hi) by (unfold config_scale; rewrite step_opp; reflexivity).
  assert (ES : s' = s) by (apply val_inj; auto; [congruence|rewrite V', EV; lra]). rewrite ES in E'.
  pose proof (code_max_range dq Hq) as Hm.
  exists s, (config_zp dq lo hi). split; auto. split; auto. split; [split; auto; rewrite V, Rabs_pos_eq; lra|]. split; [lra|]. unfold config_zp, clamp. lia.
Qed.

(** ... the codes are mirrored ... *)
Theorem C62_negation_codes a a' blocks blocks' A A' nt nt' oaddr oaddr' din dq rm thr inm inm' pk pk' scale scale' zp zp' lo hi r r' :
  let n := numel din (length inm) in
  a <> SSE42 -> a' <> SSE42 -> finite_data din inm n -> finite_data din inm' n -> block_cover n blocks -> block_cover n blocks' ->
  (forall i, (i < n)%nat -> val (elem_at din inm' i) = - val (elem_at din inm i)) ->
  data_range din inm n lo hi -> lo <= 0 <= hi -> bpow radix2 (-118) <= hi - lo <= bpow radix2 100 -> zero_off_tie dq lo hi ->
  compute_quant_config_from_data a din dq inm blocks = Ok (scale, zp) -> compute_quant_config_from_data a' din dq inm' blocks' = Ok (scale', zp') ->
  buffers_ok nt din dq inm pk -> buffers_ok nt' din dq inm' pk' -> (rm = RM_STOCHASTIC -> threshold thr) ->
  (forall i, (i < n)%nat -> input_ok A rm scale zp thr (elem_at din inm i) /\ input_ok A' rm scale zp thr (elem_at din inm i)) ->
  returns inm pk (quantize_call A nt oaddr din dq scale zp rm thr inm pk) r ->
  returns inm' pk' (quantize_call A' nt' oaddr' din dq scale' zp' rm thr inm' pk') r' ->
  scale' = scale /\ zp' = (code_max dq - zp)%Z /\
  exists p p', r = Ok p /\ r' = Ok p' /\ forall i, (i < n)%nat -> code_at dq p' i = (code_max dq - code_at dq p i)%Z.
Proof.
  intros n Ha Ha' HD HD' HB HB' HV HR H0 HW HT EC EC' HBu HBu' Ht HI HQ HQ'. pose proof HBu as (Hd & Hq & _).
  destruct (C62_negation_parameters a a' din din dq inm inm' n blocks blocks' lo hi Ha Ha' Hd Hd Hq HD HD' HB HB' HV HR H0 HW HT) as (s & z & E & E' & N & _ & Hz).
  rewrite EC in E. rewrite EC' in E'. injection E as <- <-. injection E' as -> ->. split; auto. split; auto. pose proof (code_max_range dq Hq) as Hm.
  assert (Hn : numel din (length inm') = n).
  { destruct HD' as (_ & HL' & _). unfold numel. rewrite HL'. destruct Hd as [->| ->]; cbn [stride]; lia. }
  assert (Hst : rm = RM_STOCHASTIC -> threshold thr /\ (Z.abs zp <= 2 ^ 61)%Z) by (intros E; split; auto; lia).
  assert (Hne : rm = RM_NEAREST -> (Z.abs zp <= 2 ^ 21)%Z) by lia.
  refine (C49_negation A A' nt nt' oaddr oaddr' din dq scale zp rm thr inm inm' pk pk' r r' HBu HBu' (normal_good _ N) Hst Hne Hn HV HI _ HQ HQ').
  intros i Hi. apply HD'. auto.
Qed.

(** ... and mirrored codes with the mirrored zero point decode to the negated values, exactly. *)
Theorem C62_negation_decoded A A' nt nt' oaddr oaddr' d scale zp inm inm' in_size in_size' outm outm' r r' :
  let n := numel DT_F32 (length outm) in
  dq_buffers nt d DT_F32 inm in_size outm -> dq_buffers nt' d DT_F32 inm' in_size' outm' -> numel DT_F32 (length outm') = n ->
  normal_scale scale -> (Z.abs zp <= 2 ^ 18)%Z ->
  (forall i, (i < n)%nat -> code_at d inm' i = (code_max d - code_at d inm i)%Z) ->
  returns inm outm (dequantize_call A nt oaddr d DT_F32 scale zp RO_SET in_size outm) r ->
  returns inm' outm' (dequantize_call A' nt' oaddr' d DT_F32 scale (code_max d - zp) RO_SET in_size' outm') r' ->
  exists o o', r = Ok o /\ r' = Ok o' /\ forall i, (i < n)%nat -> finite (f32_at o i) /\ finite (f32_at o' i) /\ val (f32_at o' i) = - val (f32_at o i).
Proof.
  intros n HB HB' Hn N Hz HC HD HD'. pose proof HB as (Hq & _). pose proof (code_max_range d Hq) as Hm. assert (Hz30 : (Z.abs zp <= 2 ^ 30)%Z) by lia.
  assert (Hz30' : (Z.abs (code_max d - zp) <= 2 ^ 30)%Z) by lia.
  destruct (C07_dequantize_set_f32 _ _ _ _ _ _ _ _ _ _ HB Hz30 HD) as (o & -> & _ & HE & _). fold n in HE.
  destruct (C07_dequantize_set_f32 _ _ _ _ _ _ _ _ _ _ HB' Hz30' HD') as (o' & -> & _ & HE' & _). rewrite Hn in HE'.
  exists o, o'. split; auto. split; auto. intros i Hi. rewrite HE, HE', HC by auto. set (q := code_at d inm i).
  assert (Hc : (0 <= q <= code_max d)%Z) by (apply code_at_le; auto).
  fold (dequant_value scale zp q) (dequant_value scale (code_max d - zp) (code_max d - q)).
  assert (K1 : (Z.abs (q - zp) <= 2 ^ 20)%Z) by lia. assert (K2 : (Z.abs (code_max d - q - (code_max d - zp)) <= 2 ^ 20)%Z) by lia.
  destruct (dequant_value_ok scale zp q N K1) as [F E]. destruct (dequant_value_ok scale (code_max d - zp) (code_max d - q) N K2) as [F' E']. split; auto. split; auto.
  rewrite E, E', <- RN32_opp. f_equal. rewrite !minus_IZR. ring.
Qed.

(** At a tie negation does NOT commute: {-3, 3} with uint4.  -3 comes back as -3.2, but in the negated data 3 comes back as 2.8. *)
Definition threes (first second : Z) : mem := le_bytes 4 first ++ le_bytes 4 second.
Theorem C62_negation_refuted A : exists scale zp p p' o o',
  let m := threes 0xC0400000 0x40400000 in let m' := threes 0x40400000 0xC0400000 in
  (val (f32_at m 0) = -3 /\ val (f32_at m 1) = 3 /\ val (f32_at m' 0) = 3 /\ val (f32_at m' 1) = -3) /\
  compute_quant_config_from_data A DT_F32 DT_UINT4 m [(0, 2)%nat] = Ok (scale, zp) /\ compute_quant_config_from_data A DT_F32 DT_UINT4 m' [(0, 2)%nat] = Ok (scale, zp) /\
  returns m [0%Z] (quantize_call A 1 0 DT_F32 DT_UINT4 scale zp RM_NEAREST f_zero m [0%Z]) (Ok p) /\
  returns m' [0%Z] (quantize_call A 1 0 DT_F32 DT_UINT4 scale zp RM_NEAREST f_zero m' [0%Z]) (Ok p') /\
  returns (p ++ [0%Z]) (repeat 0%Z 8) (dequantize_call A 1 0 DT_UINT4 DT_F32 scale zp RO_SET (length p) (repeat 0%Z 8)) (Ok o) /\
  returns (p' ++ [0%Z]) (repeat 0%Z 8) (dequantize_call A 1 0 DT_UINT4 DT_F32 scale zp RO_SET (length p') (repeat 0%Z 8)) (Ok o') /\
  -33 / 10 < val (f32_at o 0) < -31 / 10 /\ 27 / 10 < val (f32_at o' 0) < 29 / 10.
Proof.
  exists (f32_of_bits 0x3ecccccd), 8%Z, [240%Z], [15%Z], (threes 0xc04ccccd 0x40333333), (threes 0x40333333 0xc04ccccd).
  cbv zeta. split; [repeat split; unfold val; cbn; unfold F2R; cbn; lra|].
  split; [apply config_bits2; destruct A; vm_compute; reflexivity|]. split; [apply config_bits2; destruct A; vm_compute; reflexivity|].
  split; [one_job A|]. split; [one_job A|]. split; [one_job A|]. split; [one_job A|].
  split; unfold val; cbn; unfold F2R; cbn; lra.
Qed.
