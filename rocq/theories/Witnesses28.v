(** Witnesses28.v -- a concrete instance of the theorems of PropsStable16.v (C61 through bf16). *)
From Coq Require Import ZArith List Lia Bool Arith ZifyBool ZifyNat Reals Lra.
From Flocq Require Import Core Binary Bits.
From Verif Require Import QuantLanes F64Facts QuantFacts ConfigFacts PropsIdempotent Base Floats Dtypes Spec ApiSpec ConfigSpec Context Api FloatFacts FloatFacts2 PropsQuantize PropsDequantize PropsRoundTrip RoundTripFacts MinMax
  PropsConfig PropsRepresent PropsReadme PropsStable PropsStable16 Witnesses Witnesses5 Witnesses15 Witnesses22.
Import ListNotations.
Open Scope nat_scope.

(** {-1, 2, 1/2, 5/4, 0}, uint4: quantized with its own parameters, then dequantized to bf16 and f32 alternately, a thousand trips. *)
Example C61_float_witness A nt oaddr a din dq k : a <> SSE42 -> float_type din -> small_type dq -> few nt -> k <= 1000 ->
  exists scale zp p scale' p',
    compute_quant_config_from_data a din dq (third_data din) [(0, 2); (2, 5)] = Ok (scale, zp) /\
    returns (third_data din) (repeat 0%Z (bytes_for dq 5)) (quantize_call A nt oaddr din dq scale zp RM_NEAREST f_zero (third_data din) (repeat 0%Z (bytes_for dq 5))) (Ok p) /\
    full_range dq p 5 /\ float_trips dq 5 k (scale, zp, p) (scale', zp, p') /\ forall i, i < 5 -> code_at dq p' i = code_at dq p i.
Proof.
  intros Ha Hd Hs Hn Hk. destruct (small_quant dq Hs) as [Hq HM].
  destruct (C61_witness A nt oaddr a din dq 0 Ha Hd Hq Hn ltac:(lia)) as (s & zp & p & s' & p' & EC & HQ & HF & _).
  assert (L1 : (-1 < 2)%R) by lra.
  assert (L0 : (-1 <= 0 <= 2)%R) by lra.
  destruct (C21_documented_parameters a din dq (third_data din) 5 [(0, 2); (2, 5)] (-1) 2 Ha Hd Hq (third_finite din Hd) cover5 (third_range din Hd) L1) as (s2 & E & Fs & Vs).
  rewrite EC in E. injection E as <- ->. set (zp := config_zp dq (-1) 2) in *. set (pk := repeat 0%Z (bytes_for dq 5)) in *.
  assert (N5 : numel din (length (third_data din)) = 5) by (destruct Hd as [->| ->]; reflexivity).
  assert (HBu : buffers_ok nt din dq (third_data din) pk).
  { unfold buffers_ok. rewrite N5. split; auto. split; auto. split; [apply (third_finite din Hd)|]. split; [apply repeat_length|].
    unfold sizes_ok, few in *. destruct Hd as [->| ->]; change (length (third_data DT_F32)) with 20; change (length (third_data DT_BF16)) with 10; lia. }
  assert (HW : (bpow radix2 (-90) <= 2 - -1 <= bpow radix2 80)%R).
  { split; [apply Rle_trans with (bpow radix2 0); [apply bpow_le; lia|change (bpow radix2 0) with 1%R; lra]|].
    apply Rle_trans with (bpow radix2 2); [change (bpow radix2 2) with 4%R; lra|apply bpow_le; lia]. }
  assert (HW' : (bpow radix2 (-118) <= 2 - -1 <= bpow radix2 100)%R).
  { split; [apply Rle_trans with (bpow radix2 (-90))|apply Rle_trans with (bpow radix2 80)]; try apply HW; apply bpow_le; lia. }
  assert (I1 : in32 (-1)) by (destruct (third_range din Hd) as ((i & Hi & <-) & _); apply in32_val, (third_finite din Hd); auto).
  assert (I2 : in32 2) by (destruct (third_range din Hd) as (_ & (i & Hi & <-) & _); apply in32_val, (third_finite din Hd); auto).
  destruct (config_scale_rel dq (-1) 2 Hq I1 I2 HW') as (e & He & Es & Bs1 & Bs2). destruct (step_bounds dq (-1) 2 Hq I1 I2 L1) as (g & Hg & ES & _).
  destruct (config_zp_near dq (-1) 2 Hq I1 I2 L1 L0) as (T & Z & N). fold zp in Z, N. pose proof (code_max_R dq Hq) as Q.
  pose proof (bpow_gt_0 radix2 (-126)) as P1.
  assert (MS : (/ 256 <= val s <= 2)%R).
  { rewrite Vs, Es, ES. apply Rabs_le_inv in He. apply Rabs_le_inv in Hg. unfold u32r in He. unfold u64r in Hg.
    set (m := IZR (code_max dq)) in *. set (h := ((1 + g) * (1 + e))%R). assert (Hh : (/ 2 <= h <= 1 + / 2)%R) by (unfold h; split; nra).
    replace ((2 - -1) / m * (1 + g) * (1 + e))%R with (3 / m * h)%R by (unfold h; field; lra).
    assert (3 / 255 <= 3 / m)%R by (apply Rmult_le_compat_l; [lra|apply Rinv_le; lra]).
    assert (3 / m <= 3 / 3)%R by (apply Rmult_le_compat_l; [lra|apply Rinv_le; lra]). split; nra. }
  assert (HP : length p = bytes_for dq 5 /\ Forall is_byte p).
  { assert (Hns : normal_scale s) by (split; auto; rewrite Rabs_pos_eq; lra).
    destruct (quantize_near A nt oaddr din dq s zp f_zero (third_data din) pk (Ok p) HBu (normal_good _ Hns)) as (p2 & E & HL & Hb & _); auto; try lia.
    - rewrite N5. intros i Hi. split; [apply (third_finite din Hd); auto|]. destruct (third_range din Hd) as (_ & _ & HRg). specialize (HRg i Hi).
      set (x := val (elem_at din (third_data din) i)) in *. pose proof (scaled_rel s x Hns) as SR. destruct tiny_small as [_ T2].
      assert (IS : (/ 2 <= / val s <= 256)%R) by (split; apply Rmult_le_reg_r with (val s); try lra; rewrite Rinv_l by lra; lra).
      assert (XS : (Rabs (x / val s) <= 512)%R) by (apply Rabs_le; unfold Rdiv; split; nra).
      unfold u32r in SR. set (y := scaled (val s) x) in *. assert (D : (Rabs (y - x / val s) <= 1)%R) by lra. apply Rabs_le_inv in XS. apply Rabs_le_inv in D.
      apply Rle_lt_trans with 600%R; [apply Rabs_le; lra|]. change (bpow radix2 30) with 1073741824%R. lra.
    - injection E as <-. split; auto. rewrite HL. apply repeat_length. }
  destruct HP as [HL Hb].
  assert (SB : (bpow radix2 (-100) <= val s <= bpow radix2 80)%R).
  { split; [apply Rle_trans with (bpow radix2 (-8)); [apply bpow_le; lia|change (bpow radix2 (-8)) with (/ 256)%R; lra]|].
    apply Rle_trans with (bpow radix2 1); [change (bpow radix2 1) with 2%R; lra|apply bpow_le; lia]. }
  destruct (C61_float_trips_possible dq 5 k s zp p A a (fun j => if Nat.even j then DT_BF16 else DT_F32) Hs Hk Fs SB Z HL Hb HF) as (s1 & z1 & p1 & HT); auto; try lia.
  { intros j. cbv beta. destruct (Nat.even j); [right|left]; reflexivity. }
  assert (R : z1 = zp /\ forall i, i < 5 -> code_at dq p1 i = code_at dq p i).
  { rewrite <- N5 in HT.
    pose proof (C61_float_workflow a [(0, 2); (2, 5)] A nt oaddr din dq s zp f_zero (third_data din) pk p (-1) 2 k s1 z1 p1) as C. cbv zeta in C. rewrite N5 in C, HT.
    destruct C as (R1 & _ & _ & R4); auto using third_finite, cover5, third_range, third_off. }
  destruct R as [-> R]. exists s, zp, p, s1, p1. auto 6.
Qed.
