(** Witnesses23.v -- concrete instances of the theorems of PropsUnits.v (C62). *)
From Coq Require Import ZArith List Lia Bool Arith ZifyBool ZifyNat Reals Lra.
From Flocq Require Import Core Binary Bits.
From Verif Require Import Base Floats Dtypes Spec ApiSpec QuantLanes ConfigSpec Context Api FloatFacts FloatFacts2 PropsQuantize PropsDequantize PropsRoundTrip RoundTripFacts PropsIdempotent
  MinMax F64Facts ConfigFacts PropsConfig PropsRepresent PropsOrder PropsStable PropsUnits Witnesses Witnesses5 Witnesses15 Witnesses22.
Import ListNotations.
Open Scope nat_scope.

(** {-1, 2, 1/4, 5/4, 0}, four times that, and its negation *)
Definition quarter_data (d : dtype) : mem := as_buf d [0xBF80; 0x4000; 0x3E80; 0x3FA0; 0]%Z.
Definition fourfold_data (d : dtype) : mem := as_buf d [0xC080; 0x4100; 0x3F80; 0x40A0; 0]%Z.
Definition negated_data (d : dtype) : mem := as_buf d [0x3F80; 0xC000; 0xBE80; 0xBFA0; 0x8000]%Z.

Lemma quarter_vals d : float_type d -> val (elem_at d (quarter_data d) 0) = (-1)%R /\ val (elem_at d (quarter_data d) 1) = 2%R /\ val (elem_at d (quarter_data d) 2) = (1 / 4)%R /\
  val (elem_at d (quarter_data d) 3) = (5 / 4)%R /\ val (elem_at d (quarter_data d) 4) = 0%R.
Proof. intros [->| ->]; repeat split; unfold val; cbn; unfold F2R; cbn; lra. Qed.
Lemma fourfold_vals d i : float_type d -> i < 5 -> val (elem_at d (fourfold_data d) i) = (val (elem_at d (quarter_data d) i) * bpow radix2 2)%R.
Proof. intros Hd. revert i. change (bpow radix2 2) with 4%R. destruct Hd as [->| ->]; apply five_each; unfold val; cbn; unfold F2R; cbn; lra. Qed.
Lemma negated_vals d i : float_type d -> i < 5 -> val (elem_at d (negated_data d) i) = (- val (elem_at d (quarter_data d) i))%R.
Proof. intros Hd. revert i. destruct Hd as [->| ->]; apply five_each; unfold val; cbn; unfold F2R; cbn; lra. Qed.
Lemma quarter_range d : float_type d -> data_range d (quarter_data d) 5 (-1) 2.
Proof.
  intros Hd. destruct (quarter_vals d Hd) as (V0 & V1 & V2 & V3 & V4). split; [exists 0; auto with arith|]. split; [exists 1; auto with arith|].
  apply five_each; rewrite ?V0, ?V1, ?V2, ?V3, ?V4; lra.
Qed.
Lemma five_finite d l : float_type d -> length l = 5 -> Forall is_byte (as_buf d l) -> (forall i, i < 5 -> finite (elem_at d (as_buf d l) i)) -> finite_data d (as_buf d l) 5.
Proof.
  intros Hd HL HB HF. split; auto. split; auto. do 5 (destruct l as [|? l]; [discriminate|]). destruct l; [|discriminate]. destruct Hd as [->| ->]; reflexivity.
Qed.
Lemma quarter_finite d : float_type d -> finite_data d (quarter_data d) 5.
Proof. intros Hd. apply five_finite; auto; destruct Hd as [->| ->]; try (apply Forall_is_byte_b; vm_compute; reflexivity); apply five_each; vm_compute; reflexivity. Qed.
Lemma fourfold_finite d : float_type d -> finite_data d (fourfold_data d) 5.
Proof. intros Hd. apply five_finite; auto; destruct Hd as [->| ->]; try (apply Forall_is_byte_b; vm_compute; reflexivity); apply five_each; vm_compute; reflexivity. Qed.
Lemma negated_finite d : float_type d -> finite_data d (negated_data d) 5.
Proof. intros Hd. apply five_finite; auto; destruct Hd as [->| ->]; try (apply Forall_is_byte_b; vm_compute; reflexivity); apply five_each; vm_compute; reflexivity. Qed.

Lemma width3 : (bpow radix2 (-118) <= 2 - -1 <= bpow radix2 100)%R.
Proof.
  split; [apply Rle_trans with (bpow radix2 0); [apply bpow_le; lia|change (bpow radix2 0) with 1%R; lra]|].
  apply Rle_trans with (bpow radix2 2); [change (bpow radix2 2) with 4%R; lra|apply bpow_le; lia].
Qed.
Lemma width12 : (bpow radix2 (-118) <= (2 - -1) * bpow radix2 2 <= bpow radix2 100)%R.
Proof.
  change (bpow radix2 2) with 4%R. split; [apply Rle_trans with (bpow radix2 0); [apply bpow_le; lia|change (bpow radix2 0) with 1%R; lra]|].
  apply Rle_trans with (bpow radix2 4); [change (bpow radix2 4) with 16%R; lra|apply bpow_le; lia].
Qed.

Lemma quarter_inputs A din dq s i : float_type din -> quant_type dq -> normal_scale s -> val s = config_scale dq (-1) 2 -> i < 5 ->
  nearest_ok A s (elem_at din (quarter_data din) i).
Proof.
  intros Hd Hq Hs Vs Hi. assert (L1 : (-1 < 2)%R) by lra.
  assert (I1 : in32 (-1)) by (destruct (quarter_range din Hd) as ((j & Hj & <-) & _); apply in32_val, (quarter_finite din Hd); auto).
  assert (I2 : in32 2) by (destruct (quarter_range din Hd) as (_ & (j & Hj & <-) & _); apply in32_val, (quarter_finite din Hd); auto).
  destruct (config_scale_rel dq (-1) 2 Hq I1 I2 width3) as (e & He & Es & Bs1 & _). destruct (step_bounds dq (-1) 2 Hq I1 I2 L1) as (g & Hg & ES & _).
  pose proof (code_max_R dq Hq) as Q. pose proof (bpow_gt_0 radix2 (-126)) as P1. apply Rabs_le_inv in He. apply Rabs_le_inv in Hg. unfold u32r in He. unfold u64r in Hg.
  set (x := val (elem_at din (quarter_data din) i)). set (m := IZR (code_max dq)) in *.
  set (h := ((1 + g) * (1 + e))%R). assert (Hh : (1 - / 8000000 <= h <= 1 + / 8000000)%R) by (unfold h; split; nra).
  assert (Ih : (1 - / 7000000 <= / h <= 1 + / 7000000)%R) by (split; apply Rmult_le_reg_r with h; try lra; rewrite Rinv_l by lra; nra).
  assert (EX : (x / val s = x * m / 3 * / h)%R) by (rewrite Vs, Es, ES; unfold h; field; lra).
  assert (HX : (-1 <= x <= 2)%R) by (destruct (quarter_range din Hd) as (_ & _ & B); apply B; auto).
  pose proof (scaled_rel s x Hs) as SR. destruct tiny_small as [_ T2]. rewrite EX in SR. set (y := scaled (val s) x) in *.
  set (v := (x * m / 3)%R) in *. assert (BV : (-85 <= v <= 170)%R) by (unfold v; split; nra).
  assert (BJ : (v - / 10000 <= v * / h <= v + / 10000)%R) by (split; nra).
  assert (AB : (Rabs (v * / h) <= 171)%R) by (apply Rabs_le; lra).
  assert (D : (Rabs (y - v * / h) <= / 1000)%R) by (unfold u32r in SR; lra). apply Rabs_le_inv in D.
  split; [split; [apply (quarter_finite din Hd); auto|]; fold x y; apply Rle_lt_trans with 200%R; [apply Rabs_le; lra|change (bpow radix2 30) with 1073741824%R; lra]|].
  intros _ E. fold x y in E. pose proof pred_half_bounds as PB. assert (PH : pred_half = (/ 2 - / 33554432)%R) by (unfold pred_half; change (bpow radix2 (-25)) with (/ 33554432)%R; lra).
  assert (C : (v <= -1 \/ v = 0 \/ v = / 4 \/ 1 <= v)%R).
  { destruct (quarter_vals din Hd) as (V0 & V1 & V2 & V3 & V4). unfold v, x. clear - Q V0 V1 V2 V3 V4 Hi Hq.
    assert (M : (m = 3 \/ 15 <= m)%R) by (unfold m; destruct Hq as [->|[->| ->]]; [left; reflexivity|right; change (code_max DT_UINT4) with 15%Z|right; change (code_max DT_UINT8) with 255%Z]; lra).
    revert i Hi. apply five_each; rewrite ?V0, ?V1, ?V2, ?V3, ?V4; lra. }
  assert (Y : (y = pred_half \/ y = - pred_half)%R) by (rewrite <- E; unfold Rabs; destruct Rcase_abs; [right; ring|auto]).
  rewrite PH in Y. lra.
Qed.

Lemma five_buffers nt din dq l : float_type din -> quant_type dq -> few nt -> finite_data din (as_buf din l) 5 -> buffers_ok nt din dq (as_buf din l) (repeat 0%Z (bytes_for dq 5)) /\ numel din (length (as_buf din l)) = 5.
Proof.
  intros Hd Hq Hn (HB & HL & _). assert (N : numel din (length (as_buf din l)) = 5) by (rewrite HL; destruct Hd as [->| ->]; reflexivity).
  split; auto. unfold buffers_ok. rewrite N, HL. split; auto. split; auto. split; auto. split; [apply repeat_length|].
  unfold sizes_ok, few in *. destruct Hd as [->| ->]; cbn [stride]; lia.
Qed.

Example C62_witness a a' A A' nt nt' oaddr oaddr' din dq rm : a <> SSE42 -> a' <> SSE42 -> float_type din -> quant_type dq -> few nt -> few nt' ->
  (rm = RM_NEAREST) ->
  exists scale zp scale4 p, 
    compute_quant_config_from_data a din dq (quarter_data din) [(0, 2); (2, 5)] = Ok (scale, zp) /\
    compute_quant_config_from_data a' din dq (fourfold_data din) [(0, 2); (2, 5)] = Ok (scale4, zp) /\ val scale4 = (val scale * 4)%R /\
    compute_quant_config_from_data a' din dq (negated_data din) [(0, 2); (2, 5)] = Ok (scale, code_max dq - zp)%Z /\
    returns (quarter_data din) (repeat 0%Z (bytes_for dq 5)) (quantize_call A nt oaddr din dq scale zp rm f_zero (quarter_data din) (repeat 0%Z (bytes_for dq 5))) (Ok p) /\
    (exists p4, returns (fourfold_data din) (repeat 0%Z (bytes_for dq 5)) (quantize_call A' nt' oaddr' din dq scale4 zp rm f_zero (fourfold_data din) (repeat 0%Z (bytes_for dq 5))) (Ok p4) /\
       forall i, i < 5 -> code_at dq p4 i = code_at dq p i) /\
    (exists pn, returns (negated_data din) (repeat 0%Z (bytes_for dq 5)) (quantize_call A' nt' oaddr' din dq scale (code_max dq - zp) rm f_zero (negated_data din) (repeat 0%Z (bytes_for dq 5))) (Ok pn) /\
       forall i, i < 5 -> code_at dq pn i = (code_max dq - code_at dq p i)%Z).
Proof.
  intros Ha Ha' Hd Hq Hn Hn' ->. set (pk := repeat 0%Z (bytes_for dq 5)). assert (L0 : (-1 <= 0 <= 2)%R) by lra. assert (L1 : (-1 < 2)%R) by lra.
  destruct (C62_units_parameters a a' din din dq (quarter_data din) (fourfold_data din) 5 [(0, 2); (2, 5)] [(0, 2); (2, 5)] (-1) 2 2 Ha Ha' Hd Hd Hq (quarter_finite din Hd) (fourfold_finite din Hd)
    cover5 cover5 (fun i Hi => fourfold_vals din i Hd Hi) (quarter_range din Hd) width3 width12) as (s & s4 & z & E & E4 & N & N4 & P & V).
  destruct (C62_negation_parameters a a' din din dq (quarter_data din) (negated_data din) 5 [(0, 2); (2, 5)] [(0, 2); (2, 5)] (-1) 2 Ha Ha' Hd Hd Hq (quarter_finite din Hd) (negated_finite din Hd)
    cover5 cover5 (fun i Hi => negated_vals din i Hd Hi) (quarter_range din Hd) L0 width3 (third_off dq Hq)) as (s' & z' & E' & En & _ & _ & Hz).
  rewrite E in E'. injection E' as <- <-.
  assert (Vs : val s = config_scale dq (-1) 2).
  { destruct (C21_documented_parameters a din dq (quarter_data din) 5 [(0, 2); (2, 5)] (-1) 2 Ha Hd Hq (quarter_finite din Hd) cover5 (quarter_range din Hd) L1) as (s0 & E0 & _ & V0).
    rewrite E in E0. injection E0 as -> _. exact V0. }
  destruct (five_buffers nt din dq _ Hd Hq Hn (quarter_finite din Hd)) as [HB HN]. fold (quarter_data din) in HB, HN. fold pk in HB.
  destruct (five_buffers nt' din dq _ Hd Hq Hn' (fourfold_finite din Hd)) as [HB4 _]. fold (fourfold_data din) in HB4. fold pk in HB4.
  destruct (five_buffers nt' din dq _ Hd Hq Hn' (negated_finite din Hd)) as [HBn _]. fold (negated_data din) in HBn. fold pk in HBn.
  destruct (returns_total (quarter_data din) pk (quantize_call A nt oaddr din dq s z RM_NEAREST f_zero (quarter_data din) pk)) as [r HR].
  destruct (returns_total (fourfold_data din) pk (quantize_call A' nt' oaddr' din dq s4 z RM_NEAREST f_zero (fourfold_data din) pk)) as [r4 HR4].
  destruct (returns_total (negated_data din) pk (quantize_call A' nt' oaddr' din dq s (code_max dq - z) RM_NEAREST f_zero (negated_data din) pk)) as [rn HRn].
  pose proof (code_max_range dq Hq) as Hm.
  assert (HI : forall i, i < 5 -> input_ok A RM_NEAREST s z f_zero (elem_at din (quarter_data din) i) /\ input_ok A' RM_NEAREST s z f_zero (elem_at din (quarter_data din) i)).
  { intros i Hi. split; (split; [apply (quarter_inputs _ din dq s i); auto|lia]). }
  assert (NS : RM_NEAREST = RM_STOCHASTIC -> threshold f_zero) by discriminate.
  pose proof (C62_units_codes a a' [(0, 2); (2, 5)] [(0, 2); (2, 5)] A A' nt nt' oaddr oaddr' din dq RM_NEAREST f_zero (quarter_data din) (fourfold_data din) pk pk s s4 z z (-1) 2 2 r r4) as C.
  cbv zeta in C. rewrite HN in C.
  destruct (C Ha Ha' (quarter_finite din Hd) (fourfold_finite din Hd) cover5 cover5 (fun i Hi => fourfold_vals din i Hd Hi) (quarter_range din Hd) width3 width12 E E4 HB HB4 NS HI HR HR4)
    as (_ & p & p4 & -> & -> & HC4). clear C.
  pose proof (C62_negation_codes a a' [(0, 2); (2, 5)] [(0, 2); (2, 5)] A A' nt nt' oaddr oaddr' din dq RM_NEAREST f_zero (quarter_data din) (negated_data din) pk pk s s z (code_max dq - z) (-1) 2 (Ok p) rn) as C.
  cbv zeta in C. rewrite HN in C.
  destruct (C Ha Ha' (quarter_finite din Hd) (negated_finite din Hd) cover5 cover5 (fun i Hi => negated_vals din i Hd Hi) (quarter_range din Hd) L0 width3 (third_off dq Hq) E En HB HBn NS HI HR HRn)
    as (_ & _ & p' & pn & Ep & -> & HCn). injection Ep as <-.
  exists s, z, s4, p. repeat (split; auto).
  - exists p4. auto.
  - exists pn. auto.
Qed.
