(** Witnesses30.v -- concrete instances of the theorems of PropsAggregate.v (C68). *)
From Coq Require Import ZArith List Lia Bool Arith ZifyBool ZifyNat Reals Lra.
From Flocq Require Import Core Binary Bits.
From Verif Require Import Base Floats Dtypes Spec ApiSpec Context Api MinMaxFacts FloatFacts FloatFacts2 PropsQuantize PropsDequantize PropsRoundTrip RoundTripFacts PropsIdempotent PropsStochastic
  QuantLanes MinMax ConfigSpec ConfigFacts PropsConfig PropsConfigAny PropsReadme PropsDequantBf16 PropsRoundTripTypes PropsAggregate Witnesses Witnesses2.
Import ListNotations.
Open Scope nat_scope.

(** seventy times 1/2 *)
Definition halves (d : dtype) : mem := concat (repeat (match d with DT_F32 => [0; 0; 0; 63]%Z | _ => [0; 63]%Z end) 70).
Lemma halves_facts d : float_type d ->
  length (halves d) = length (sample d) /\ numel d (length (halves d)) = 70 /\ Forall is_byte (halves d) /\
  forall i, i < 70 -> finite (elem_at d (halves d) i) /\ val (elem_at d (halves d) i) = (/ 2)%R.
Proof.
  intros Hd. split; [destruct Hd as [-> | ->]; reflexivity|]. split; [destruct Hd as [-> | ->]; vm_compute; reflexivity|]. split.
  - apply Forall_forall. intros x Hx. assert (H : forallb (fun x => (0 <=? x)%Z && (x <? 256)%Z) (halves d) = true) by (destruct Hd as [-> | ->]; vm_compute; reflexivity).
    rewrite forallb_forall in H. specialize (H x Hx). unfold is_byte. lia.
  - intros i Hi. assert (E : elem_at d (halves d) i = f32_of_bits 0x3f000000).
    { destruct Hd as [-> | ->]; unfold elem_at, f32_at; f_equal.
      - assert (H : forallb (fun i => (le_val (slice (4 * i) 4 (halves DT_F32)) =? 0x3f000000)%Z) (seq 0 70) = true) by (vm_compute; reflexivity).
        rewrite forallb_forall in H. apply Z.eqb_eq, H, in_seq. lia.
      - assert (H : forallb (fun i => (bf16_at (halves DT_BF16) i * 65536 =? 0x3f000000)%Z) (seq 0 70) = true) by (vm_compute; reflexivity).
        rewrite forallb_forall in H. apply Z.eqb_eq, H, in_seq. lia. }
    rewrite E. change (f32_of_bits 0x3f000000) with f_half. apply half_ok.
Qed.
Lemma halves_buffers nt din dq : float_type din -> quant_type dq -> few nt -> buffers_ok nt din dq (halves din) (sample_out dq).
Proof.
  intros Hd Hq Hn. destruct (halves_facts din Hd) as (L & N & B & _). destruct (sample_buffers nt din dq Hd Hq Hn) as (_ & _ & _ & L2 & S2). destruct (sample_len _ Hd) as [_ HL].
  rewrite HL in L2, S2. unfold buffers_ok. rewrite N, L. auto.
Qed.
Lemma one_normal : normal_scale f_one.
Proof. destruct f_one_ok as [F V]. split; auto. rewrite V, Rabs_R1. change 1%R with (bpow radix2 0). split; apply bpow_le; lia. Qed.

(** the seventy halves sum to 35; what comes back sums to 70 *)
Example C68_sum_error_witness A nt oaddr A2 din dq rq : float_type din -> quant_type dq -> few nt ->
  returns (halves din) (sample_out dq) (quantize_call A nt oaddr din dq f_one 0 RM_NEAREST f_zero (halves din) (sample_out dq)) rq ->
  exists p, rq = Ok p /\ forall r, returns (p ++ [0]%Z) (sample DT_F32) (dequantize_call A2 nt oaddr dq DT_F32 f_one 0 RO_SET (length p) (sample DT_F32)) r ->
  exists o, r = Ok o /\ total (values din (halves din)) 70 = 35%R /\ total (values DT_F32 o) 70 = 70%R.
Proof.
  intros Hd Hq Hn HQ. pose proof (halves_buffers nt din dq Hd Hq Hn) as HB. destruct (halves_facts din Hd) as (_ & N & _ & HV). destruct (sample_len DT_F32 (or_introl eq_refl)) as [_ HLo].
  destruct f_one_ok as [F1 V1].
  destruct (quantize_near_rm A nt oaddr din dq f_one 0 RM_NEAREST f_zero _ _ rq HB (normal_good _ one_normal) ltac:(cbn; lia)) as (p & -> & _); auto; try discriminate.
  { rewrite N. intros i Hi. destruct (HV i Hi) as [F V]. split; auto. rewrite V. unfold scaled. rewrite V1. replace (1 / 1)%R with 1%R by field.
    rewrite (RN32_fmt 1) by (apply (fmt32_int 1); lia). rewrite Rmult_1_r. rewrite RN32_fmt.
    - rewrite Rabs_pos_eq by lra. change (/ 2)%R with (bpow radix2 (-1)). apply bpow_lt. lia.
    - change (/ 2)%R with (bpow radix2 (-1)). apply generic_format_FLT_bpow; [exact _|lia]. }
  exists p. split; auto. intros r HR.
  assert (HS : sizes_ok (length (sample DT_F32)) (numel DT_F32 (length (sample DT_F32))) nt) by (rewrite HLo; apply sample_sizes; auto; left; reflexivity).
  assert (HX : Forall is_byte [0%Z]) by (repeat constructor; unfold is_byte; lia). assert (HN : [0%Z] <> []) by discriminate.
  assert (HE : numel din (length (halves din)) = numel DT_F32 (length (sample DT_F32))) by (rewrite N, HLo; reflexivity).
  destruct (C68_sum_error_attained A nt oaddr A2 nt oaddr din dq f_zero (halves din) (sample_out dq) p [0%Z] (sample DT_F32) r HB HE HS HX HN) as (o & -> & _ & T1 & T2 & _); auto.
  rewrite HLo in T1, T2. replace (INR 70) with 70%R in T1, T2 by (rewrite INR_IZR_INZ; reflexivity). exists o. split; auto. split; lra.
Qed.

(** the same data with scale 1/2 (both rounding modes): the sum of what comes back is within 36 of 35, for weights 1 *)
Example C68_aggregates_witness A nt oaddr A2 din dq rm p r : float_type din -> quant_type dq -> few nt ->
  returns (halves din) (sample_out dq) (quantize_call A nt oaddr din dq f_half 0 rm thr4 (halves din) (sample_out dq)) (Ok p) ->
  returns (p ++ [0]%Z) (sample DT_F32) (dequantize_call A2 nt oaddr dq DT_F32 f_half 0 RO_SET (length p) (sample DT_F32)) r ->
  exists o, r = Ok o /\ (Rabs (dot (fun _ => 1) (values DT_F32 o) 70 - dot (fun _ => 1) (values din (halves din)) 70) <= 36)%R.
Proof.
  intros Hd Hq Hn HQ HR. pose proof (halves_buffers nt din dq Hd Hq Hn) as HB. destruct (halves_facts din Hd) as (_ & N & _ & HV). destruct (sample_len DT_F32 (or_introl eq_refl)) as [_ HLo].
  destruct half_ok as [F1 V1].
  assert (HS : sizes_ok (length (sample DT_F32)) (numel DT_F32 (length (sample DT_F32))) nt) by (rewrite HLo; apply sample_sizes; auto; left; reflexivity).
  assert (HX : Forall is_byte [0%Z]) by (repeat constructor; unfold is_byte; lia). assert (HN : [0%Z] <> []) by discriminate.
  assert (HE : numel din (length (halves din)) = numel DT_F32 (length (sample DT_F32))) by (rewrite N, HLo; reflexivity).
  assert (HP : (0 < val f_half)%R) by (rewrite V1; lra). assert (HZ : (0 <= 0 <= code_max dq)%Z) by (destruct Hq as [->|[->| ->]]; vm_compute; split; discriminate).
  destruct (C68_aggregates A nt oaddr A2 nt oaddr din DT_F32 dq f_half 0 rm thr4 (halves din) (sample_out dq) p [0%Z] (sample DT_F32) r
    HB (or_introl eq_refl) HE HS (sample_bytes _) half_normal HP HZ (fun _ => quarter_threshold) HX HN) as (o & -> & _ & _ & D & _); auto.
  { intros i Hi. destruct (HV i) as [F V]; [rewrite <- HLo; exact Hi|]. split; auto. unfold values. rewrite V, V1.
    assert (K : (1 <= code_max dq - 0)%Z) by (destruct Hq as [->|[->| ->]]; vm_compute; discriminate). apply IZR_le in K. change (0 - 0)%Z with 0%Z. lra. }
  exists o. split; auto. cbv zeta in D. specialize (D (fun _ => 1%R)). rewrite HLo in D. eapply Rle_trans; [exact D|].
  destruct (uniform_error rm (val f_half) (bpow radix2 (-12)) (values din (halves din)) 70 (fun _ => 1%R)) as (_ & -> & _).
  replace (INR 70) with 70%R by (rewrite INR_IZR_INZ; reflexivity). unfold element_error. rewrite V1. change (bpow radix2 (-12)) with (/ 4096)%R. destruct rm; lra.
Qed.

(** computed parameters for {0, 5/4, -3, 200, 3/4} (fourteen times): the dot product with any weights *)
Example C68_calibrated_witness A A2 nt din dq scale zp rm p o w : float_type din -> quant_type dq -> few nt ->
  compute_quant_config_from_data AVX2 din dq (sample din) cut3 = Ok (scale, zp) ->
  returns (sample din) (sample_out dq) (quantize_call A nt 0 din dq scale zp rm thr4 (sample din) (sample_out dq)) (Ok p) ->
  returns (p ++ [0]%Z) (sample DT_F32) (dequantize_call A2 nt 0 dq DT_F32 scale zp RO_SET (length p) (sample DT_F32)) (Ok o) ->
  (Rabs (dot w (values DT_F32 o) 70 - dot w (values din (sample din)) 70) <= total (fun i => Rabs (w i)) 70 * element_error rm DT_F32 (val scale) (bpow radix2 (-11)) 0)%R.
Proof.
  intros Hd Hq Hn HC HQ HD. assert (Hdo : float_type DT_F32) by (left; reflexivity). destruct (sample_len _ Hd) as [_ HL], (sample_len _ Hdo) as [_ HLo].
  assert (HA : AVX2 <> SSE42) by discriminate. assert (HN : [0%Z] <> []) by discriminate.
  assert (H0 : (-3 <= 0 <= 200)%R) by lra.
  assert (HB : (bpow radix2 (-112) <= 200 - -3 <= bpow radix2 100)%R).
  { split.
    - apply Rle_trans with (bpow radix2 0); [apply bpow_le; lia|cbn; lra].
    - apply Rle_trans with (bpow radix2 10); [change (bpow radix2 10) with 1024%R; lra|apply bpow_le; lia]. }
  assert (Hx : Forall is_byte [0%Z]) by (repeat constructor; unfold is_byte; lia).
  pose proof (sample_finite _ Hd) as HF. pose proof (sample_range _ Hd) as HRg. pose proof (sample_sizes _ nt Hdo Hn) as HS. pose proof cut3_ok as HK.
  rewrite <- HLo in HF, HRg, HS, HK.
  assert (HE : numel din (length (sample din)) = numel DT_F32 (length (sample DT_F32))) by (rewrite HL, HLo; reflexivity).
  destruct (C68_calibrated AVX2 cut3 A nt 0 A2 nt 0 din DT_F32 dq scale zp rm thr4 (sample din) (sample_out dq) p [0%Z] (sample DT_F32) (Ok o) (-3) 200
    HA HF HK HRg H0 HB HC (sample_buffers nt _ _ Hd Hq Hn) Hdo HE HS (sample_bytes _) (fun _ => quarter_threshold) Hx HN HQ HD) as (o' & E & _ & _ & D & _).
  injection E as <-. rewrite HLo in D. specialize (D w). eapply Rle_trans; [exact D|]. apply Req_le.
  destruct (uniform_error rm (val scale) (bpow radix2 (-11)) (values din (sample din)) 70 w) as (-> & _). reflexivity.
Qed.
