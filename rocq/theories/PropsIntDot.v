(** PropsIntDot.v -- C74: integer arithmetic on the stored codes (quantized dot products and sums) approximates the real one. *)
From Coq Require Import ZArith List Lia Bool Arith ZifyBool ZifyNat Reals Lra Psatz.
From Flocq Require Import Core Binary Bits.
From Verif Require Import Base Floats Simd Dtypes Spec ApiSpec QuantKernels DequantKernels ExecFacts FloatFacts QuantFacts QuantKernelFacts
  QuantGenericFacts DequantFacts DequantGenericFacts QuantLanes Context ContextFacts Footprint QuantizeFacts DequantizeFacts Api PropsQuantize Schedule
  PropsMemory FloatFacts2 PropsDequantize PropsRoundTrip RoundTripFacts PropsIdempotent MinMax MinMaxFacts ConfigSpec F64Facts ConfigFacts PropsConfig PropsRepresent
  Bf16Spec Bf16Facts FloatFacts3 PropsDequantBf16 PropsRoundTripTypes PropsAggregate.
Import ListNotations.
Local Open Scope R_scope.

(** ** Specification *)
(** One quantized operand: the call that produced it (f32 or bf16 data to any quantized type, on any CPU) and its result [q_packed]. *)
Record operand := {
  q_arch : arch; q_threads : nat; q_addr : Z; q_float : dtype; q_type : dtype; q_scale : f32; q_zp : Z; q_mode : round_mode_t; q_thr : f32;
  q_data : mem; q_buffer : mem; q_packed : mem }.
Definition q_value (q : operand) : nat -> R := values (q_float q) (q_data q).
Definition q_code (q : operand) (i : nat) : Z := code_at (q_type q) (q_packed q) i.
(** half a step (nearest) or a step (stochastic), and a margin *)
Definition q_error (q : operand) : R := val (q_scale q) * (match q_mode q with RM_NEAREST => / 2 | RM_STOCHASTIC => 1 end + bpow radix2 (-12)).
Definition q_call (n : nat) (q : operand) : Prop :=
  buffers_ok (q_threads q) (q_float q) (q_type q) (q_data q) (q_buffer q) /\ numel (q_float q) (length (q_data q)) = n /\
  (q_mode q = RM_STOCHASTIC -> threshold (q_thr q)) /\
  returns (q_data q) (q_buffer q) (quantize_call (q_arch q) (q_threads q) (q_addr q) (q_float q) (q_type q) (q_scale q) (q_zp q) (q_mode q) (q_thr q) (q_data q) (q_buffer q)) (Ok (q_packed q)).
(** parameters chosen by the caller: positive scale, zero point in the code range, data in the representable range *)
Definition q_fits (n : nat) (q : operand) : Prop :=
  normal_scale (q_scale q) /\ 0 < val (q_scale q) /\ (0 <= q_zp q <= code_max (q_type q))%Z /\
  forall i, (i < n)%nat -> finite (elem_at (q_float q) (q_data q) i) /\
    (IZR (0 - q_zp q) - / 2) * val (q_scale q) <= q_value q i <= (IZR (code_max (q_type q) - q_zp q) + / 2) * val (q_scale q).
(** parameters computed by the library from the data *)
Definition q_computed (n : nat) (q : operand) : Prop :=
  exists a blocks lo hi, a <> SSE42 /\ finite_data (q_float q) (q_data q) n /\ block_cover n blocks /\ data_range (q_float q) (q_data q) n lo hi /\ lo <= 0 <= hi /\
    bpow radix2 (-112) <= hi - lo <= bpow radix2 100 /\ compute_quant_config_from_data a (q_float q) (q_type q) (q_data q) blocks = Ok (q_scale q, q_zp q).
Fixpoint ztotal (f : nat -> Z) (n : nat) : Z := match n with O => 0%Z | S k => (ztotal f k + f k)%Z end.

(** ** One element *)
Lemma element_code n q : q_call n q -> q_fits n q \/ q_computed n q ->
  0 < val (q_scale q) /\ (0 <= q_zp q <= code_max (q_type q))%Z /\
  forall i, (i < n)%nat -> (0 <= q_code q i <= code_max (q_type q))%Z /\ Rabs (val (q_scale q) * IZR (q_code q i - q_zp q) - q_value q i) <= q_error q.
Proof.
  intros (HB & Hn & Ht & HR) HF. pose proof HB as (Hfp & Hq & _).
  assert (G : normal_scale (q_scale q) /\ 0 < val (q_scale q) /\ (0 <= q_zp q <= code_max (q_type q))%Z /\
    forall i, (i < n)%nat -> finite (elem_at (q_float q) (q_data q) i) /\
      IZR (0 - q_zp q) - / 2 - / 8192 <= q_value q i / val (q_scale q) <= IZR (code_max (q_type q) - q_zp q) + / 2 + / 8192).
  { destruct HF as [(Hs & Hp & Hz & HX)|(a & blocks & lo & hi & Ha & FD & BC & R & H0 & W & E)].
    - split; auto. split; auto. split; auto. intros i Hi. destruct (HX i Hi) as [F [L U]]. split; auto. set (s := val (q_scale q)) in *.
      assert (L' : IZR (0 - q_zp q) - / 2 <= q_value q i / s) by (apply Rmult_le_reg_r with s; [auto|unfold Rdiv; rewrite Rmult_assoc, Rinv_l, Rmult_1_r by lra; exact L]).
      assert (U' : q_value q i / s <= IZR (code_max (q_type q) - q_zp q) + / 2) by (apply Rmult_le_reg_r with s; [auto|unfold Rdiv; rewrite Rmult_assoc, Rinv_l, Rmult_1_r by lra; exact U]).
      lra.
    - pose proof (bpow_gt_0 radix2 (-112)) as P0. assert (H : lo < hi) by lra.
      assert (W' : bpow radix2 (-118) <= hi - lo <= bpow radix2 100) by (assert (bpow radix2 (-118) <= bpow radix2 (-112)) by (apply bpow_le; lia); lra).
      destruct (C21_documented_parameters a (q_float q) (q_type q) (q_data q) n blocks lo hi Ha Hfp Hq FD BC R H) as (s & E' & Fs & Vs). rewrite E in E'. injection E' as Es Ez. rewrite <- Es in Fs, Vs.
      assert (I1 : in32 lo) by (destruct R as ((i & Hi & <-) & _); apply in32_val, FD; auto).
      assert (I2 : in32 hi) by (destruct R as (_ & (i & Hi & <-) & _); apply in32_val, FD; auto).
      destruct (config_scale_rel (q_type q) lo hi Hq I1 I2 W') as (e & _ & _ & Bs1 & Bs2). destruct (config_zp_near (q_type q) lo hi Hq I1 I2 H H0) as (_ & Z & _).
      pose proof (bpow_gt_0 radix2 (-126)) as P1.
      split; [split; auto; rewrite Vs, Rabs_pos_eq; lra|]. split; [rewrite Vs; lra|]. rewrite Ez. split; auto. intros i Hi. split; [apply FD; auto|].
      rewrite Vs. apply config_fits; auto. destruct R as (_ & _ & R). apply (R i Hi). }
  clear HF. destruct G as (Hs & Hp & Hz & HX). split; auto. split; auto. pose proof (code_max_range (q_type q) Hq) as Hm.
  assert (HI : forall i, (i < n)%nat -> quantizable (q_scale q) (elem_at (q_float q) (q_data q) i)).
  { intros i Hi. destruct (HX i Hi) as [F FIT]. split; auto. pose proof (scaled_rel (q_scale q) (val (elem_at (q_float q) (q_data q) i)) Hs) as SR. unfold q_value, values in FIT. set (t := val (elem_at (q_float q) (q_data q) i) / val (q_scale q)) in *.
    assert (B1 : (Rabs (IZR (0 - q_zp q)) <= IZR 255)) by (apply abs_IZR_le; lia). apply Rabs_le_inv in B1.
    assert (B2 : (Rabs (IZR (code_max (q_type q) - q_zp q)) <= IZR 255)) by (apply abs_IZR_le; lia). apply Rabs_le_inv in B2.
    assert (Tt : Rabs t <= 256) by (apply Rabs_le; lra). destruct tiny_small as [_ T2]. set (y := scaled _ _) in *.
    assert (D : Rabs (y - t) <= 1) by (unfold u32r in SR; lra). apply Rabs_le_inv in Tt. apply Rabs_le_inv in D.
    apply Rle_lt_trans with 300; [apply Rabs_le; lra|]. change (bpow radix2 30) with 1073741824. lra. }
  assert (Hz22 : (Z.abs (q_zp q) <= 2 ^ 22)%Z) by lia.
  destruct (quantize_near_rm _ _ _ _ _ _ _ _ _ _ _ _ HB (normal_good _ Hs) Hz22 Ht ltac:(rewrite Hn; exact HI) HR) as (p & E & _ & _ & HC). injection E as E. rewrite Hn in HC.
  intros i Hi. destruct (HC i Hi) as (k & C & K). rewrite <- E in C. fold (q_code q i) in C.
  split; [rewrite C; unfold clamp; lia|]. destruct (HX i Hi) as [F FIT]. unfold q_value, values in *.
  assert (HK : / 2 <= code_error (q_mode q) <= 1) by (destruct (q_mode q); cbn; lra).
  destruct (steps_near (q_type q) (q_scale q) (q_zp q) (val (elem_at (q_float q) (q_data q) i)) k (/ 8192) (code_error (q_mode q)) Hq Hs Hp Hz ltac:(lra) HK K FIT) as [_ M].
  rewrite <- C in M. set (x := val (elem_at (q_float q) (q_data q) i)) in *. set (m := IZR (q_code q i - q_zp q)) in *. set (s := val (q_scale q)) in *.
  replace (s * m - x) with (s * (m - x / s)) by (field; lra). rewrite Rabs_mult, (Rabs_pos_eq s) by lra. unfold q_error. fold s. apply Rmult_le_compat_l; [lra|].
  change (bpow radix2 (-12)) with (/ 4096). change (match q_mode q with RM_NEAREST => / 2 | RM_STOCHASTIC => 1 end) with (code_error (q_mode q)). lra.
Qed.

Lemma total_plus f g n : total (fun i => f i + g i) n = total f n + total g n.
Proof. induction n; cbn [total]; [ring|]. rewrite IHn. ring. Qed.
Lemma total_minus f g n : total (fun i => f i - g i) n = total f n - total g n.
Proof. induction n; cbn [total]; [ring|]. rewrite IHn. ring. Qed.
Lemma IZR_ztotal f n : IZR (ztotal f n) = total (fun i => IZR (f i)) n.
Proof. induction n; cbn [ztotal total]; auto. rewrite plus_IZR, IHn. reflexivity. Qed.

(** ** C74: a sum of codes *)
Theorem C74_integer_sum n q : q_call n q -> q_fits n q \/ q_computed n q ->
  let sum := (ztotal (q_code q) n - Z.of_nat n * q_zp q)%Z in
  Rabs (val (q_scale q) * IZR sum - total (q_value q) n) <= INR n * q_error q /\
  (0 <= ztotal (q_code q) n <= Z.of_nat n * code_max (q_type q))%Z.
Proof.
  intros HC HF sum. destruct (element_code n q HC HF) as (Hp & Hz & HE). split.
  - assert (E : val (q_scale q) * IZR sum = total (fun i => val (q_scale q) * IZR (q_code q i - q_zp q)) n).
    { unfold sum. clear. induction n; cbn [ztotal total]; [cbn; ring|]. rewrite <- IHn. rewrite !minus_IZR, plus_IZR, !mult_IZR, <- !INR_IZR_INZ, S_INR. ring. }
    rewrite E, <- total_minus. eapply Rle_trans; [apply total_abs|]. rewrite <- total_const. apply total_le. intros i Hi. apply HE; auto.
  - assert (HE' : forall i, (i < n)%nat -> (0 <= q_code q i <= code_max (q_type q))%Z) by (intros; apply HE; auto). clear - HE'.
    induction n; cbn [ztotal]; [lia|]. specialize (IHn ltac:(intros; apply HE'; lia)). pose proof (HE' n ltac:(lia)). lia.
Qed.

(** ** C74: a dot product of two quantized operands in integer arithmetic *)
Theorem C74_integer_dot n q w : q_call n q -> q_fits n q \/ q_computed n q -> q_call n w -> q_fits n w \/ q_computed n w ->
  let acc := ztotal (fun i => (q_code q i - q_zp q) * (q_code w i - q_zp w))%Z n in
  Rabs (val (q_scale q) * val (q_scale w) * IZR acc - dot (q_value q) (q_value w) n) <=
    total (fun i => Rabs (q_value q i) * q_error w + Rabs (q_value w i) * q_error q + q_error q * q_error w) n.
Proof.
  intros HC HF HC' HF' acc. destruct (element_code n q HC HF) as (Hp & Hz & HE). destruct (element_code n w HC' HF') as (Hp' & Hz' & HE').
  assert (E : val (q_scale q) * val (q_scale w) * IZR acc = total (fun i => (val (q_scale q) * IZR (q_code q i - q_zp q)) * (val (q_scale w) * IZR (q_code w i - q_zp w))) n).
  { unfold acc. rewrite IZR_ztotal. rewrite <- total_scale. apply total_ext. intros i _. rewrite mult_IZR. ring. }
  rewrite E. unfold dot. rewrite <- total_minus. eapply Rle_trans; [apply total_abs|]. apply total_le. intros i Hi. cbv beta.
  destruct (HE i Hi) as [_ A]. destruct (HE' i Hi) as [_ B]. set (a := val (q_scale q) * IZR (q_code q i - q_zp q)) in *. set (b := val (q_scale w) * IZR (q_code w i - q_zp w)) in *. set (x := q_value q i) in *. set (y := q_value w i) in *.
  replace (a * b - x * y) with (x * (b - y) + y * (a - x) + (a - x) * (b - y)) by ring.
  eapply Rle_trans; [apply Rabs_triang|]. apply Rplus_le_compat.
  - eapply Rle_trans; [apply Rabs_triang|]. rewrite !Rabs_mult. apply Rplus_le_compat; apply Rmult_le_compat_l; auto; apply Rabs_pos.
  - rewrite Rabs_mult. apply Rmult_le_compat; auto; apply Rabs_pos.
Qed.
(** the integer itself: its size (a 32-bit accumulator is enough for 33025 elements of uint8), and the usual rearrangement with zero-point corrections *)
Theorem C74_accumulator n q w : q_call n q -> q_fits n q \/ q_computed n q -> q_call n w -> q_fits n w \/ q_computed n w ->
  let acc := ztotal (fun i => (q_code q i - q_zp q) * (q_code w i - q_zp w))%Z n in
  (Z.abs acc <= Z.of_nat n * (code_max (q_type q) * code_max (q_type w)))%Z /\ ((Z.of_nat n <= 33025)%Z -> (- 2 ^ 31 <= acc < 2 ^ 31)%Z) /\
  acc = (ztotal (fun i => q_code q i * q_code w i) n - q_zp w * ztotal (q_code q) n - q_zp q * ztotal (q_code w) n + Z.of_nat n * (q_zp q * q_zp w))%Z.
Proof.
  intros HC HF HC' HF' acc. destruct (element_code n q HC HF) as (Hp & Hz & HE). destruct (element_code n w HC' HF') as (Hp' & Hz' & HE').
  assert (Q : quant_type (q_type q)) by apply HC. assert (Q' : quant_type (q_type w)) by apply HC'.
  pose proof (code_max_range _ Q) as M. pose proof (code_max_range _ Q') as M'.
  assert (B : (Z.abs acc <= Z.of_nat n * (code_max (q_type q) * code_max (q_type w)))%Z).
  { assert (G : forall i, (i < n)%nat -> (Z.abs ((q_code q i - q_zp q) * (q_code w i - q_zp w)) <= code_max (q_type q) * code_max (q_type w))%Z).
    { intros i Hi. destruct (HE i Hi) as [A _]. destruct (HE' i Hi) as [A' _]. rewrite Z.abs_mul. apply Z.mul_le_mono_nonneg; lia. }
    unfold acc. clear - G. set (F := fun i => _) in *. change (forall i, (i < n)%nat -> (Z.abs (F i) <= code_max (q_type q) * code_max (q_type w))%Z) in G. clearbody F.
    induction n; cbn [ztotal]; [lia|]. specialize (IHn ltac:(intros; apply G; lia)). pose proof (G n ltac:(lia)). lia. }
  split; auto. split.
  - intros Hn. assert (C : (code_max (q_type q) * code_max (q_type w) <= 255 * 255)%Z) by (apply Z.mul_le_mono_nonneg; lia). nia.
  - unfold acc. clear. induction n; cbn [ztotal]; [cbn; ring|]. rewrite IHn. rewrite Nat2Z.inj_succ. ring.
Qed.
