(** Witnesses15.v -- concrete instances of the theorems of PropsTests.v (C56). *)
From Coq Require Import ZArith List Lia Bool Arith ZifyBool ZifyNat Reals Lra.
From Flocq Require Import Core Binary Bits.
From Verif Require Import Base Floats Dtypes Spec ApiSpec ConfigSpec Context Api FloatFacts FloatFacts2 PropsQuantize PropsDequantize PropsRoundTrip RoundTripFacts MinMax ConfigFacts PropsConfig
  PropsConfigRefuted PropsRoundTripTypes RoundTripFacts PropsTests Witnesses Witnesses5.
Import ListNotations.

(** {-1, 1, 1/2, -1/4, 3/4} as f32 or bf16 data; the output buffer holds 1/4 everywhere (add) or 0 (set). *)
Definition unit_bits : list Z := [0xBF80; 0x3F80; 0x3F00; 0xBE80; 0x3F40]%Z.
Definition as_buf (d : dtype) (hs : list Z) : mem := match d with DT_BF16 => bf16_buf hs | _ => f32_buf (map (fun h => h * 65536)%Z hs) end.
Definition unit_data (d : dtype) : mem := as_buf d unit_bits.
Definition prev_buf (d : dtype) (op : reduce_op) : mem := as_buf d (repeat (match op with RO_SET => 0 | RO_ADD => 0x3E80 end)%Z 5).
Lemma five_each (P : nat -> Prop) : P 0 -> P 1 -> P 2 -> P 3 -> P 4 -> forall i, i < 5 -> P i.
Proof. intros H0 H1 H2 H3 H4 i Hi. destruct i as [|[|[|[|[|i]]]]]; auto. lia. Qed.
Lemma unit_vals d : float_type d -> val (elem_at d (unit_data d) 0) = (-1)%R /\ val (elem_at d (unit_data d) 1) = 1%R /\ val (elem_at d (unit_data d) 2) = (1 / 2)%R /\
  val (elem_at d (unit_data d) 3) = (- (1 / 4))%R /\ val (elem_at d (unit_data d) 4) = (3 / 4)%R.
Proof. intros [->| ->]; repeat split; unfold val; cbn; unfold F2R; cbn; lra. Qed.
Lemma prev_vals d op i : float_type d -> i < 5 -> finite (elem_at d (prev_buf d op) i) /\ val (elem_at d (prev_buf d op) i) = match op with RO_SET => 0%R | RO_ADD => (1 / 4)%R end.
Proof. intros Hd. revert i. destruct Hd as [->| ->], op; apply five_each; (split; [vm_compute; reflexivity|unfold val; cbn; unfold F2R; cbn; lra]). Qed.
Lemma unit_len d op : float_type d -> length (unit_data d) = stride d * 5 /\ length (prev_buf d op) = stride d * 5 /\ numel d (length (unit_data d)) = 5 /\ numel d (length (prev_buf d op)) = 5.
Proof. intros [->| ->]; destruct op; repeat split. Qed.
Lemma unit_range d : float_type d -> data_range d (unit_data d) 5 (-1) 1.
Proof.
  intros Hd. destruct (unit_vals d Hd) as (V0 & V1 & V2 & V3 & V4). split; [exists 0; auto with arith|]. split; [exists 1; auto with arith|]. apply five_each; rewrite ?V0, ?V1, ?V2, ?V3, ?V4; lra.
Qed.
Lemma unit_bytes d : float_type d -> Forall is_byte (unit_data d).
Proof. intros [->| ->]; apply Forall_is_byte_b; vm_compute; reflexivity. Qed.
Lemma prev_bytes d op : float_type d -> Forall is_byte (prev_buf d op).
Proof. intros [->| ->]; destruct op; apply Forall_is_byte_b; vm_compute; reflexivity. Qed.
Lemma unit_finite d : float_type d -> finite_data d (unit_data d) 5.
Proof. intros Hd. split; [apply unit_bytes; auto|]. split; [apply (unit_len d RO_SET Hd)|]. destruct Hd as [->| ->]; apply five_each; vm_compute; reflexivity. Qed.
Lemma cover5 : block_cover 5 [(0, 2); (2, 5)].
Proof. split; [intros b [<-|[<-|[]]]; cbn; lia|]. intros t Ht. destruct (lt_dec t 2); [exists (0, 2)|exists (2, 5)]; cbn; split; auto; lia. Qed.
Lemma prev_test d op : float_type d -> test_prev d op (prev_buf d op) 5.
Proof.
  intros Hd i Hi. destruct (prev_vals d op i Hd Hi) as [F V]. split; auto. rewrite V. split; [destruct op; apply Rabs_le; lra|]. intros ->. reflexivity.
Qed.
Lemma five_sizes d op nt : float_type d -> few nt -> sizes_ok (length (prev_buf d op)) 5 nt.
Proof. intros Hd Hn. destruct (unit_len d op Hd) as (_ & -> & _). unfold sizes_ok, few in *. destruct Hd as [->| ->]; cbn [stride]; lia. Qed.
Lemma wide_enough : (bpow radix2 (-112) <= 1 - -1)%R.
Proof. apply Rle_trans with (bpow radix2 0); [apply bpow_le; lia|change (bpow radix2 0) with 1%R; lra]. Qed.

(** the library computes parameters for these data, and what the fused call then stores passes the check of test/requant.cpp *)
Example C56_requant_witness a A nt oaddr dt dq rm op : a <> SSE42 -> float_type dt -> quant_type dq -> (dt = DT_BF16 -> dq <> DT_UINT2) -> few nt ->
  exists scale zp, compute_quant_config_from_data a dt dq (unit_data dt) [(0, 2); (2, 5)] = Ok (scale, zp) /\
    forall r, returns (unit_data dt) (prev_buf dt op) (fused_call A nt oaddr dt dq scale zp rm op thr4 (unit_data dt) (prev_buf dt op)) r ->
    exists o, r = Ok o /\ forall i, i < 5 ->
      finite (test_value dt (prev_buf dt op) o i) /\ (Rabs (val (elem_at dt (unit_data dt) i) - val (test_value dt (prev_buf dt op) o i)) <= requant_tolerance dq)%R.
Proof.
  intros Ha Hd Hq Hu Hn. destruct (unit_len dt op Hd) as (L1 & L2 & N1 & N2).
  destruct (C21_documented_parameters a dt dq (unit_data dt) 5 [(0, 2); (2, 5)] (-1) 1 Ha Hd Hq (unit_finite dt Hd) cover5 (unit_range dt Hd) ltac:(lra)) as (s & E & _).
  exists s, (config_zp dq (-1) 1). split; auto. intros r HR.
  destruct (C56_requant_test a [(0, 2); (2, 5)] A nt oaddr dt dq s (config_zp dq (-1) 1) rm op thr4 (unit_data dt) (prev_buf dt op) r (-1) 1) as (o & -> & HO); rewrite ?N2; auto;
    auto using unit_finite, cover5, unit_range, wide_enough, five_sizes, prev_bytes, prev_test, quarter_threshold; try lra.
  - congruence.
  - rewrite N2 in HO. exists o. split; auto.
Qed.
(** likewise test/dequant.cpp, from any packed buffer the quantize call returns *)
Definition packed5 (dq : dtype) : mem := repeat 0%Z (bytes_for dq 5).
Example C56_dequant_witness a A nt oaddr A2 nt2 oaddr2 dt dq rm op : a <> SSE42 -> float_type dt -> quant_type dq -> few nt -> few nt2 ->
  exists scale zp, compute_quant_config_from_data a dt dq (unit_data dt) [(0, 2); (2, 5)] = Ok (scale, zp) /\
    forall rq, returns (unit_data dt) (packed5 dq) (quantize_call A nt oaddr dt dq scale zp rm thr4 (unit_data dt) (packed5 dq)) rq ->
    exists p, rq = Ok p /\
    forall r, returns (p ++ [7%Z]) (prev_buf dt op) (dequantize_call A2 nt2 oaddr2 dq dt scale zp op (length p) (prev_buf dt op)) r ->
    exists o, r = Ok o /\ forall i, i < 5 ->
      finite (test_value dt (prev_buf dt op) o i) /\ (Rabs (val (elem_at dt (unit_data dt) i) - val (test_value dt (prev_buf dt op) o i)) <= dequant_tolerance dq)%R.
Proof.
  intros Ha Hd Hq Hn Hn2. destruct (unit_len dt op Hd) as (L1 & L2 & N1 & N2).
  destruct (C21_documented_parameters a dt dq (unit_data dt) 5 [(0, 2); (2, 5)] (-1) 1 Ha Hd Hq (unit_finite dt Hd) cover5 (unit_range dt Hd) ltac:(lra)) as (s & E & _).
  exists s, (config_zp dq (-1) 1). split; auto. intros rq HQ.
  assert (HB : buffers_ok nt dt dq (unit_data dt) (packed5 dq)).
  { unfold buffers_ok. rewrite N1. split; auto. split; auto. split; [apply unit_bytes; auto|]. split; [apply repeat_length|]. rewrite L1, <- L2. apply five_sizes; auto. }
  assert (Hb : (bpow radix2 (-112) <= 1 - -1 <= bpow radix2 100)%R).
  { split; [apply wide_enough|]. apply Rle_trans with (bpow radix2 1); [change (bpow radix2 1) with 2%R; lra|apply bpow_le; lia]. }
  destruct (C56_range_test a [(0, 2); (2, 5)] A nt oaddr dt dq s (config_zp dq (-1) 1) rm thr4 (unit_data dt) (packed5 dq) rq (-1) 1) as (_ & _ & p & -> & _); rewrite ?N1; auto;
    auto using unit_finite, cover5, unit_range, quarter_threshold; try lra.
  exists p. split; auto. intros r HR.
  destruct (C56_dequant_test a [(0, 2); (2, 5)] A nt oaddr A2 nt2 oaddr2 dt dq s (config_zp dq (-1) 1) rm op thr4 (unit_data dt) (packed5 dq) p [7%Z] (prev_buf dt op) r (-1) 1) as (o & -> & HO);
    rewrite ?N2; auto; auto using unit_finite, cover5, unit_range, wide_enough, five_sizes, prev_bytes, prev_test, quarter_threshold; try lra; try discriminate.
  - congruence.
  - apply Forall_is_byte_b. reflexivity.
  - rewrite N2 in HO. exists o. split; auto.
Qed.

(** scale 1/2, zero point 2 (uint2: the representable range is [-1, 1/2]): 0.25 + (-0.25), and the same by quantize and dequantize(add) *)
Lemma unit_quantizable d i : float_type d -> i < 5 -> quantizable f_half (elem_at d (unit_data d) i).
Proof.
  intros Hd Hi. split; [apply unit_finite; auto|]. destruct (unit_range d Hd) as (_ & _ & B). specialize (B i Hi). pose proof (scaled_rel f_half (val (elem_at d (unit_data d) i)) half_normal) as S1.
  destruct half_ok as [_ V]. rewrite V in *. set (x := val (elem_at d (unit_data d) i)) in *. set (y := scaled (/ 2) x) in *.
  assert (X : (Rabs (x / / 2) <= 2)%R) by (apply Rabs_le; lra). destruct tiny_small as [_ T].
  assert (D : (Rabs (y - x / / 2) <= 1)%R) by (unfold u32r in S1; lra). apply Rabs_le_inv in D. apply Rabs_le_inv in X.
  apply Rle_lt_trans with 4%R; [apply Rabs_le; lra|]. change (bpow radix2 30) with 1073741824%R. lra.
Qed.
Lemma prev_old d op : float_type d -> old_ok d (prev_buf d op) 5.
Proof.
  intros Hd i Hi. destruct (prev_vals d op i Hd Hi) as [F V]. split; auto. rewrite V. apply Rle_trans with (bpow radix2 0); [change (bpow radix2 0) with 1%R; destruct op; apply Rabs_le; lra|apply bpow_le; lia].
Qed.
Lemma half_out d : float_type d -> out_scale d f_half.
Proof. intros [->| ->]; [apply half_normal|apply half_bf16_scale]. Qed.
Lemma quarter_sum d v : float_type d ->
  (Rabs (v - (1 / 4 + - (1 / 4))) <= / 2 * (/ 2 + bpow radix2 (-12)) + store_bound d RO_ADD (match d with DT_BF16 => / 127 | _ => 0 end) (1 / 4) (- (1 / 4)) (/ 2))%R -> (Rabs v <= 27 / 100)%R.
Proof.
  intros Hd H. replace (v - (1 / 4 + - (1 / 4)))%R with v in H by lra. eapply Rle_trans; [exact H|]. change (bpow radix2 (-12)) with (/ 4096)%R.
  assert (bpow radix2 (-126) <= / 10000)%R by (apply Rle_trans with (bpow radix2 (-30)); [apply bpow_le; lia|change (bpow radix2 (-30)) with (/ 1073741824)%R; lra]).
  destruct Hd as [->| ->]; cbn [store_bound]; rewrite Rabs_Ropp, (Rabs_pos_eq (1 / 4)) by lra; lra.
Qed.
Example C56_fused_witness A nt oaddr d dq r : float_type d -> quant_type dq -> few nt ->
  returns (unit_data d) (prev_buf d RO_ADD) (fused_call A nt oaddr d dq f_half 2 RM_NEAREST RO_ADD thr4 (unit_data d) (prev_buf d RO_ADD)) r ->
  exists o, r = Ok o /\ (Rabs (val (elem_at d o 3)) <= 27 / 100)%R.
Proof.
  intros Hd Hq Hn HR. destruct (unit_len d RO_ADD Hd) as (L1 & L2 & N1 & N2). destruct half_ok as [_ Vh].
  destruct (C56_fused_accuracy A nt oaddr d dq f_half 2 RM_NEAREST RO_ADD thr4 (unit_data d) (prev_buf d RO_ADD) r) as (o & -> & _ & HO); rewrite ?N2 in *; auto using five_sizes, prev_bytes, half_out, unit_quantizable, prev_old; try discriminate.
  - congruence.
  - lra.
  - destruct Hq as [->|[->| ->]]; vm_compute; split; discriminate.
  - exists o. split; auto. specialize (HO 3 ltac:(lia)). cbv zeta in HO. destruct (unit_vals d Hd) as (_ & _ & _ & V3 & _). destruct (prev_vals d RO_ADD 3 Hd ltac:(lia)) as [_ V].
    rewrite V3, V, Vh in HO. cbn [wanted] in HO. apply (quarter_sum d _ Hd). apply HO. clear - Hq.
    assert (K : (1 <= code_max dq - 2)%Z) by (destruct Hq as [->|[->| ->]]; vm_compute; discriminate). apply IZR_le in K. change (0 - 2)%Z with (-2)%Z. lra.
Qed.
Example C56_accumulate_witness A nt oaddr A2 nt2 oaddr2 d dq rq : float_type d -> quant_type dq -> few nt -> few nt2 ->
  returns (unit_data d) (packed5 dq) (quantize_call A nt oaddr d dq f_half 2 RM_NEAREST thr4 (unit_data d) (packed5 dq)) rq ->
  exists p, rq = Ok p /\ forall r, returns (p ++ [7%Z]) (prev_buf d RO_ADD) (dequantize_call A2 nt2 oaddr2 dq d f_half 2 RO_ADD (length p) (prev_buf d RO_ADD)) r ->
  exists o, r = Ok o /\ (Rabs (val (elem_at d o 3)) <= 27 / 100)%R.
Proof.
  intros Hd Hq Hn Hn2 HQ. destruct (unit_len d RO_ADD Hd) as (L1 & L2 & N1 & N2). destruct half_ok as [_ Vh].
  assert (HB : buffers_ok nt d dq (unit_data d) (packed5 dq)).
  { unfold buffers_ok. rewrite N1. split; auto. split; auto. split; [apply unit_bytes; auto|]. split; [apply repeat_length|]. rewrite L1, <- L2. apply five_sizes; auto. }
  assert (HX : forall i, i < numel d (length (unit_data d)) -> quantizable f_half (elem_at d (unit_data d) i)) by (rewrite N1; intros; apply unit_quantizable; auto).
  assert (Z22 : (Z.abs 2 <= 2 ^ 22)%Z) by (cbn; lia).
  destruct (quantize_near_rm A nt oaddr d dq f_half 2 RM_NEAREST thr4 (unit_data d) (packed5 dq) rq HB half_good) as (p & -> & _); auto; try discriminate.
  exists p. split; auto. intros r HR.
  destruct (C56_accumulate_accuracy A nt oaddr A2 nt2 oaddr2 d d dq f_half 2 RM_NEAREST thr4 (unit_data d) (packed5 dq) p [7%Z] (prev_buf d RO_ADD) r) as (o & -> & _ & HO);
    rewrite ?N2 in *; auto using five_sizes, prev_bytes, half_out, unit_quantizable, prev_old; try discriminate.
  - lra.
  - destruct Hq as [->|[->| ->]]; vm_compute; split; discriminate.
  - apply Forall_is_byte_b. reflexivity.
  - exists o. split; auto. specialize (HO 3 ltac:(lia)). cbv zeta in HO. destruct (unit_vals d Hd) as (_ & _ & _ & V3 & _). destruct (prev_vals d RO_ADD 3 Hd ltac:(lia)) as [_ V].
    rewrite V3, V, Vh in HO. apply (quarter_sum d _ Hd).
    assert (K : (1 <= code_max dq - 2)%Z) by (destruct Hq as [->|[->| ->]]; vm_compute; discriminate). apply IZR_le in K. change (0 - 2)%Z with (-2)%Z in HO.
    destruct HO as [_ HO]; [lra|intros _ _; cbn; lia|]. eapply Rle_trans; [exact HO|]. apply Rplus_le_compat_l. destruct Hd as [->| ->]; cbn [store_bound]; rewrite Rabs_Ropp, (Rabs_pos_eq (1 / 4)) by lra; lra.
Qed.
