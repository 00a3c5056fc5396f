(** PropsAggregate.v -- C68: what a round trip does to weighted sums (dot products), sums and squared distances of the elements. *)
From Coq Require Import ZArith List Lia Bool Arith ZifyBool ZifyNat Reals Lra.
From Flocq Require Import Core Binary Bits.
From Verif Require Import Base Floats Simd Dtypes Spec ApiSpec QuantKernels DequantKernels ExecFacts FloatFacts QuantFacts QuantKernelFacts
  QuantGenericFacts DequantFacts DequantGenericFacts QuantLanes Context ContextFacts Footprint QuantizeFacts DequantizeFacts Api PropsQuantize Schedule
  PropsMemory FloatFacts2 PropsDequantize PropsRoundTrip Bf16Spec Bf16Facts FloatFacts3 PropsExtreme RoundTripFacts PropsIdempotent PropsStochastic MinMax MinMaxFacts ConfigSpec F64Facts
  ConfigFacts PropsConfig PropsRepresent PropsBf16 PropsDequantBf16 PropsOrder PropsRoundTripTypes PropsAnyThreads PropsReadme PropsBf16Zero PropsAccumulate PropsRankOrder.
Import ListNotations.
Open Scope R_scope.

(** ** Specification: sums over the elements 0 .. n-1, in exact real arithmetic *)
Fixpoint total (f : nat -> R) (n : nat) : R := match n with O => 0 | S k => total f k + f k end.
Definition dot (w x : nat -> R) (n : nat) : R := total (fun i => w i * x i) n.
Definition square_distance (x y : nat -> R) (n : nat) : R := total (fun i => (x i - y i) * (x i - y i)) n.
(** The values of the elements of a buffer. *)
Definition values (dt : dtype) (m : mem) (i : nat) : R := val (elem_at dt m i).
(** Error of one element: half a step (nearest) or a step (stochastic), half a bf16 ulp if the output is bf16, and a margin. *)
Definition element_error (rm : round_mode_t) (dout : dtype) (step margin x : R) : R :=
  step * (match rm with RM_NEAREST => / 2 | RM_STOCHASTIC => 1 end + margin) + match dout with DT_BF16 => / 256 * (Rabs x + 2 * step) | _ => 0 end.

Lemma total_le f g n : (forall i, (i < n)%nat -> f i <= g i) -> total f n <= total g n.
Proof. induction n; cbn [total]; intros H; [lra|]. pose proof (H n ltac:(lia)). assert (total f n <= total g n) by (apply IHn; intros; apply H; lia). lra. Qed.
Lemma total_const c n : total (fun _ => c) n = INR n * c.
Proof. induction n; [cbn; ring|]. rewrite S_INR. cbn [total]. rewrite IHn. ring. Qed.
Lemma total_scale c f n : total (fun i => c * f i) n = c * total f n.
Proof. induction n; cbn [total]; [ring|]. rewrite IHn. ring. Qed.
Lemma total_ext f g n : (forall i, (i < n)%nat -> f i = g i) -> total f n = total g n.
Proof. induction n; cbn [total]; intros H; auto. rewrite IHn by (intros; apply H; lia). rewrite H by lia. reflexivity. Qed.
Lemma total_abs f n : Rabs (total f n) <= total (fun i => Rabs (f i)) n.
Proof. induction n; cbn [total]; [rewrite Rabs_R0; lra|]. eapply Rle_trans; [apply Rabs_triang|]. lra. Qed.
Lemma dot_minus w x y n : dot w x n - dot w y n = total (fun i => w i * (x i - y i)) n.
Proof. unfold dot. induction n; cbn [total]; [ring|]. rewrite <- IHn. ring. Qed.
Lemma dot_bound w x y e n : (forall i, (i < n)%nat -> Rabs (x i - y i) <= e i) -> Rabs (dot w x n - dot w y n) <= total (fun i => Rabs (w i) * e i) n.
Proof.
  intros H. rewrite dot_minus. eapply Rle_trans; [apply total_abs|]. apply total_le. intros i Hi. cbv beta. rewrite Rabs_mult.
  apply Rmult_le_compat_l; [apply Rabs_pos|auto].
Qed.
Lemma square_bound x y e n : (forall i, (i < n)%nat -> Rabs (x i - y i) <= e i) -> square_distance x y n <= total (fun i => e i * e i) n.
Proof.
  intros H. apply total_le. intros i Hi. cbv beta. specialize (H i Hi). set (d := x i - y i) in *. set (q := e i) in *.
  replace (d * d) with (Rabs d * Rabs d). { apply Rmult_le_compat; auto; apply Rabs_pos. }
  rewrite <- Rabs_mult. apply Rabs_pos_eq. nra.
Qed.

(** ** C68: representable data *)
Theorem C68_aggregates A nt oaddr A2 nt2 oaddr2 din dout dq scale zp rm thr inm pk p extra outm r :
  let n := numel dout (length outm) in
  let x := values din inm in
  let err i := element_error rm dout (val scale) (bpow radix2 (-12)) (x i) in
  buffers_ok nt din dq inm pk -> float_type dout -> numel din (length inm) = n -> sizes_ok (length outm) n nt2 -> Forall is_byte outm ->
  out_scale dout scale -> 0 < val scale -> (0 <= zp <= code_max dq)%Z -> (rm = RM_STOCHASTIC -> threshold thr) -> Forall is_byte extra -> extra <> [] ->
  (forall i, (i < n)%nat -> finite (elem_at din inm i) /\ IZR (0 - zp) * val scale <= x i <= IZR (code_max dq - zp) * val scale) ->
  returns inm pk (quantize_call A nt oaddr din dq scale zp rm thr inm pk) (Ok p) ->
  returns (p ++ extra) outm (dequantize_call A2 nt2 oaddr2 dq dout scale zp RO_SET (length p) outm) r ->
  exists o, r = Ok o /\ length o = length outm /\ (forall i, (i < n)%nat -> finite (elem_at dout o i)) /\
    let y := values dout o in
    (forall w, Rabs (dot w y n - dot w x n) <= total (fun i => Rabs (w i) * err i) n) /\
    square_distance y x n <= total (fun i => err i * err i) n.
Proof.
  intros n x err HB Hfp Hn HS Hob Hs Ps Hz Ht He Hne HX HQ HD. pose proof HB as (_ & Hq & _).
  assert (HI : forall i, (i < n)%nat -> quantizable scale (elem_at din inm i)).
  { intros i Hi. destruct (HX i Hi) as [F R]. apply (peer_quantizable scale _ dq zp); auto; [apply (out_scale_normal dout); auto|]. unfold x, values in R. destruct R as [R1 R2].
    assert (IZR (0 - zp) <= val (elem_at din inm i) / val scale <= IZR (code_max dq - zp)); [|lra].
    split; apply Rmult_le_reg_r with (val scale); auto; unfold Rdiv; rewrite Rmult_assoc, Rinv_l, Rmult_1_r by lra; auto. }
  destruct (C16_all_types A nt oaddr A2 nt2 oaddr2 din dout dq scale zp rm thr inm pk p extra outm r HB Hfp Hn HS Hob Hs Ps Hz Ht He Hne HI HQ HD) as (o & -> & L & H).
  fold n in H. exists o. split; auto. split; auto.
  assert (H' : forall i, (i < n)%nat -> finite (elem_at dout o i) /\ Rabs (values dout o i - x i) <= err i).
  { intros i Hi. destruct (H i Hi) as [F E]; [apply HX; auto|]. split; auto. }
  split; [intros i Hi; apply H'; auto|]. cbv zeta. split.
  - intros w. apply dot_bound. intros; apply H'; auto.
  - apply square_bound. intros; apply H'; auto.
Qed.

(** ** C68: data with computed parameters *)
Theorem C68_calibrated a blocks A nt oaddr A2 nt2 oaddr2 din dout dq scale zp rm thr inm pk p extra outm r lo hi :
  let n := numel dout (length outm) in
  let x := values din inm in
  let err i := element_error rm dout (val scale) (bpow radix2 (-11)) (x i) in
  a <> SSE42 -> finite_data din inm n -> block_cover n blocks ->
  data_range din inm n lo hi -> lo <= 0 <= hi -> bpow radix2 (-112) <= hi - lo <= bpow radix2 100 ->
  compute_quant_config_from_data a din dq inm blocks = Ok (scale, zp) ->
  buffers_ok nt din dq inm pk -> float_type dout -> numel din (length inm) = n -> sizes_ok (length outm) n nt2 -> Forall is_byte outm ->
  (rm = RM_STOCHASTIC -> threshold thr) -> Forall is_byte extra -> extra <> [] ->
  returns inm pk (quantize_call A nt oaddr din dq scale zp rm thr inm pk) (Ok p) ->
  returns (p ++ extra) outm (dequantize_call A2 nt2 oaddr2 dq dout scale zp RO_SET (length p) outm) r ->
  exists o, r = Ok o /\ length o = length outm /\ (forall i, (i < n)%nat -> finite (elem_at dout o i)) /\
    let y := values dout o in
    (forall w, Rabs (dot w y n - dot w x n) <= total (fun i => Rabs (w i) * err i) n) /\
    square_distance y x n <= total (fun i => err i * err i) n.
Proof.
  intros n x err Ha HD HBl HR H0 HW EC HB Hfp Hn HS Hob Ht He Hne HQ HDq.
  destruct (C23_all_types a blocks A nt oaddr A2 nt2 oaddr2 din dout dq scale zp rm thr inm pk p extra outm r lo hi Ha HD HBl HR H0 HW EC HB Hfp Hn HS Hob Ht He Hne HQ HDq) as (o & -> & L & H).
  fold n in H. exists o. split; auto. split; auto.
  split; [intros i Hi; apply H; auto|]. cbv zeta. split.
  - intros w. apply dot_bound. intros; apply H; auto.
  - apply square_bound. intros; apply H; auto.
Qed.

(** What the bounds say for f32 output: with [e] the error of one element, a weighted sum is off by at most [e] times the sum of the |weights|, a plain sum by
    at most [n * e], the squared distance is at most [n * e * e]. *)
Lemma uniform_error rm step margin x n w :
  total (fun i => Rabs (w i) * element_error rm DT_F32 step margin (x i)) n = total (fun i => Rabs (w i)) n * element_error rm DT_F32 step margin 0 /\
  total (fun i => Rabs 1 * element_error rm DT_F32 step margin (x i)) n = INR n * element_error rm DT_F32 step margin 0 /\
  total (fun i => element_error rm DT_F32 step margin (x i) * element_error rm DT_F32 step margin (x i)) n =
    INR n * (element_error rm DT_F32 step margin 0 * element_error rm DT_F32 step margin 0).
Proof.
  unfold element_error. split; [|split].
  - set (q := step * _ + 0). transitivity (q * total (fun i => Rabs (w i)) n); [|ring]. rewrite <- total_scale. apply total_ext; intros; ring.
  - rewrite <- total_const. apply total_ext; intros; rewrite Rabs_R1; ring.
  - rewrite <- total_const. apply total_ext; intros; ring.
Qed.

(** ** C68: the sum's bound is (almost) attained: errors of one sign do not cancel.
    n elements equal to 1/2, scale 1, zero point 0, nearest: every element comes back as 1, so the sum is off by n/2, half a step per element. *)
Theorem C68_sum_error_attained A nt oaddr A2 nt2 oaddr2 din dq thr inm pk p extra outm r :
  let n := numel DT_F32 (length outm) in
  buffers_ok nt din dq inm pk -> numel din (length inm) = n -> sizes_ok (length outm) n nt2 ->
  Forall is_byte extra -> extra <> [] ->
  (forall i, (i < n)%nat -> finite (elem_at din inm i) /\ values din inm i = / 2) ->
  returns inm pk (quantize_call A nt oaddr din dq f_one 0 RM_NEAREST thr inm pk) (Ok p) ->
  returns (p ++ extra) outm (dequantize_call A2 nt2 oaddr2 dq DT_F32 f_one 0 RO_SET (length p) outm) r ->
  exists o, r = Ok o /\
    (forall i, (i < n)%nat -> values DT_F32 o i = 1) /\
    total (values din inm) n = INR n * / 2 /\ total (values DT_F32 o) n - total (values din inm) n = INR n * / 2 /\
    square_distance (values DT_F32 o) (values din inm) n = INR n * (/ 2 * / 2).
Proof.
  intros n HB Hn HS He Hne HX HQ HD. pose proof HB as (Hd & Hq & Hb & HL & HSz). destruct f_one_ok as [F1 V1].
  assert (HN : normal_scale f_one).
  { split; auto. rewrite V1, Rabs_R1. change 1 with (bpow radix2 0). split; apply bpow_le; lia. }
  assert (SC : scaled (val f_one) (/ 2) = / 2).
  { unfold scaled. rewrite V1. replace (1 / 1) with 1 by field. rewrite (RN32_fmt 1) by (apply (fmt32_int 1); lia). rewrite Rmult_1_r.
    apply RN32_fmt. change (/ 2) with (bpow radix2 (-1)). apply generic_format_FLT_bpow; [exact _|lia]. }
  assert (P30 : / 2 < bpow radix2 30) by (change (/ 2) with (bpow radix2 (-1)); apply bpow_lt; lia).
  assert (HI : forall i, (i < n)%nat -> input_ok A RM_NEAREST f_one 0 thr (elem_at din inm i)).
  { intros i Hi. destruct (HX i Hi) as [F V]. unfold values in V. split; [|lia]. split; [split; auto|intros _]; rewrite V, SC, Rabs_pos_eq by lra; auto.
    unfold pred_half. pose proof (bpow_gt_0 radix2 (-25)). lra. }
  assert (HC : forall i, (i < n)%nat -> expected_code RM_NEAREST dq f_one 0 thr (elem_at din inm i) = 1%Z).
  { intros i Hi. destruct (HX i Hi) as [F V]. unfold values in V. unfold expected_code, quant_code. rewrite V, SC.
    replace (round_half_away (/ 2)) with 1%Z.
    { destruct Hq as [->|[->| ->]]; reflexivity. }
    unfold round_half_away. rewrite Rlt_bool_false by lra. replace (/ 2 + / 2) with (IZR 1) by lra. rewrite Zfloor_IZR. reflexivity. }
  destruct (C14_codes_round_trip A A2 nt nt2 oaddr oaddr2 din dq f_one f_one 0 0 RM_NEAREST thr inm pk p extra outm r HB (normal_good _ HN)) as (o & -> & L & H); auto; try lia; try discriminate.
  { rewrite Hn. auto. }
  rewrite Hn in H.
  assert (Y : forall i, (i < n)%nat -> values DT_F32 o i = 1).
  { intros i Hi. unfold values. change (elem_at DT_F32 o i) with (f32_at o i). rewrite H, HC by auto.
    destruct (dequant_value_ok f_one 0 1 HN) as [_ E]; [lia|]. unfold dequant_value in E. rewrite E, V1, Rmult_1_r. apply RN32_fmt. apply (fmt32_int 1). lia. }
  exists o. split; auto. split; auto.
  assert (T1 : total (values din inm) n = INR n * / 2) by (rewrite <- total_const; apply total_ext; intros i Hi; apply HX; auto).
  assert (T2 : total (values DT_F32 o) n = INR n * 1) by (rewrite <- total_const; apply total_ext; auto).
  split; auto. split; [lra|]. rewrite <- total_const. apply total_ext. intros i Hi. rewrite Y, (proj2 (HX i Hi)) by auto. lra.
Qed.
