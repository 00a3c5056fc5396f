(** Witnesses22.v -- a concrete instance of the theorems of PropsStable.v (C61). *)
From Coq Require Import ZArith List Lia Bool Arith ZifyBool ZifyNat Reals Lra.
From Flocq Require Import Core Binary Bits.
From Verif Require Import QuantLanes F64Facts QuantFacts ConfigFacts PropsIdempotent Base Floats Dtypes Spec ApiSpec ConfigSpec Context Api FloatFacts FloatFacts2 PropsQuantize PropsDequantize PropsRoundTrip RoundTripFacts MinMax ConfigFacts
  PropsConfig PropsRepresent PropsStable Witnesses Witnesses5 Witnesses15.
Import ListNotations.
Open Scope nat_scope.

(** {-1, 2, 1/2, 5/4, 0}: zero sits exactly on code 1 of 3, 5 of 15, 85 of 255. *)
Definition third_data (d : dtype) : mem := as_buf d [0xBF80; 0x4000; 0x3F00; 0x3FA0; 0]%Z.
Lemma third_range d : float_type d -> data_range d (third_data d) 5 (-1) 2.
Proof.
  intros Hd.
  assert (V : val (elem_at d (third_data d) 0) = (-1)%R /\ val (elem_at d (third_data d) 1) = 2%R /\ val (elem_at d (third_data d) 2) = (1 / 2)%R /\
    val (elem_at d (third_data d) 3) = (5 / 4)%R /\ val (elem_at d (third_data d) 4) = 0%R).
  { destruct Hd as [->| ->]; repeat split; unfold val; cbn; unfold F2R; cbn; lra. }
  destruct V as (V0 & V1 & V2 & V3 & V4). split; [exists 0; auto with arith|]. split; [exists 1; auto with arith|]. apply five_each; rewrite ?V0, ?V1, ?V2, ?V3, ?V4; lra.
Qed.
Lemma third_finite d : float_type d -> finite_data d (third_data d) 5.
Proof.
  intros Hd. split; [destruct Hd as [->| ->]; apply Forall_is_byte_b; vm_compute; reflexivity|]. split; [destruct Hd as [->| ->]; reflexivity|].
  destruct Hd as [->| ->]; apply five_each; vm_compute; reflexivity.
Qed.
Lemma third_off dq : quant_type dq -> zero_off_tie dq (-1) 2.
Proof.
  intros Hq j. change (bpow radix2 (-12)) with (/ 4096)%R.
  assert (E : exists q, (- (-1) * IZR (code_max dq) / (2 - -1) = IZR q)%R).
  { destruct Hq as [->|[->| ->]]; [exists 1%Z; change (code_max DT_UINT2) with 3%Z|exists 5%Z; change (code_max DT_UINT4) with 15%Z|exists 85%Z; change (code_max DT_UINT8) with 255%Z]; lra. }
  destruct E as [q ->]. replace (IZR q - (IZR j + / 2))%R with (IZR (q - j) - / 2)%R by (rewrite minus_IZR; ring).
  destruct (Z.le_gt_cases (q - j) 0) as [L|L].
  - apply IZR_le in L. rewrite Rabs_left by lra. lra.
  - assert (1 <= IZR (q - j))%R by (apply IZR_le; lia). rewrite Rabs_pos_eq; lra.
Qed.

Example C61_witness A nt oaddr a din dq k : a <> SSE42 -> float_type din -> quant_type dq -> few nt -> (Z.of_nat k <= 2 ^ 20)%Z ->
  exists scale zp p scale' p',
    compute_quant_config_from_data a din dq (third_data din) [(0, 2); (2, 5)] = Ok (scale, zp) /\
    returns (third_data din) (repeat 0%Z (bytes_for dq 5)) (quantize_call A nt oaddr din dq scale zp RM_NEAREST f_zero (third_data din) (repeat 0%Z (bytes_for dq 5))) (Ok p) /\
    full_range dq p 5 /\ trips dq 5 k (scale, zp, p) (scale', zp, p') /\ forall i, i < 5 -> code_at dq p' i = code_at dq p i.
Proof.
  intros Ha Hd Hq Hn Hk. assert (L0 : (-1 <= 0 <= 2)%R) by lra. assert (L1 : (-1 < 2)%R) by lra.
  destruct (C21_documented_parameters a din dq (third_data din) 5 [(0, 2); (2, 5)] (-1) 2 Ha Hd Hq (third_finite din Hd) cover5 (third_range din Hd) L1) as (s & E & Fs & Vs).
  set (pk := repeat 0%Z (bytes_for dq 5)). set (zp := config_zp dq (-1) 2) in *.
  destruct (returns_total (third_data din) pk (quantize_call A nt oaddr din dq s zp RM_NEAREST f_zero (third_data din) pk)) as [r HR].
  assert (N5 : numel din (length (third_data din)) = 5) by (destruct Hd as [->| ->]; reflexivity).
  assert (HBu : buffers_ok nt din dq (third_data din) pk).
  { unfold buffers_ok. rewrite N5. split; auto. split; auto. split; [apply (third_finite din Hd)|]. split; [apply repeat_length|].
    unfold sizes_ok, few in *. destruct Hd as [->| ->]; change (length (third_data DT_F32)) with 20; change (length (third_data DT_BF16)) with 10; lia. }
  assert (HW : (bpow radix2 (-100) <= 2 - -1 <= bpow radix2 88)%R).
  { split; [apply Rle_trans with (bpow radix2 0); [apply bpow_le; lia|change (bpow radix2 0) with 1%R; lra]|].
    apply Rle_trans with (bpow radix2 2); [change (bpow radix2 2) with 4%R; lra|apply bpow_le; lia]. }
  assert (HW' : (bpow radix2 (-118) <= 2 - -1 <= bpow radix2 100)%R).
  { split; [apply Rle_trans with (bpow radix2 (-100))|apply Rle_trans with (bpow radix2 88)]; try apply HW; apply bpow_le; lia. }
  assert (I1 : in32 (-1)) by (destruct (third_range din Hd) as ((i & Hi & <-) & _); apply in32_val, (third_finite din Hd); auto).
  assert (I2 : in32 2) by (destruct (third_range din Hd) as (_ & (i & Hi & <-) & _); apply in32_val, (third_finite din Hd); auto).
  destruct (config_scale_rel dq (-1) 2 Hq I1 I2 HW') as (e & He & Es & Bs1 & Bs2). destruct (step_bounds dq (-1) 2 Hq I1 I2 L1) as (g & Hg & ES & _).
  destruct (config_zp_near dq (-1) 2 Hq I1 I2 L1 L0) as (T & Z & N). fold zp in Z, N. pose proof (code_max_R dq Hq) as Q. pose proof (code_max_range dq Hq) as Hm.
  pose proof (bpow_gt_0 radix2 (-126)) as P1.
  assert (Hs : normal_scale s) by (split; auto; rewrite Vs, Rabs_pos_eq; lra).
  assert (MS : (/ 256 <= val s <= 2)%R).
  { rewrite Vs, Es, ES. apply Rabs_le_inv in He. apply Rabs_le_inv in Hg. unfold u32r in He. unfold u64r in Hg.
    set (m := IZR (code_max dq)) in *. set (h := ((1 + g) * (1 + e))%R). assert (Hh : (/ 2 <= h <= 1 + / 2)%R) by (unfold h; split; nra).
    replace ((2 - -1) / m * (1 + g) * (1 + e))%R with (3 / m * h)%R by (unfold h; field; lra).
    assert (3 / 255 <= 3 / m)%R by (apply Rmult_le_compat_l; [lra|apply Rinv_le; lra]).
    assert (3 / m <= 3 / 3)%R by (apply Rmult_le_compat_l; [lra|apply Rinv_le; lra]). split; nra. }
  assert (QZ : forall i, i < 5 -> quantizable s (elem_at din (third_data din) i)).
  { intros i Hi. split; [apply (third_finite din Hd); auto|]. destruct (third_range din Hd) as (_ & _ & HRg). specialize (HRg i Hi).
    set (x := val (elem_at din (third_data din) i)) in *.
    pose proof (scaled_rel s x Hs) as SR. destruct tiny_small as [_ T2].
    assert (IS : (/ 2 <= / val s <= 256)%R).
    { split; apply Rmult_le_reg_r with (val s); try lra; rewrite Rinv_l by lra; lra. }
    assert (XS : (Rabs (x / val s) <= 512)%R) by (apply Rabs_le; unfold Rdiv; split; nra).
    unfold u32r in SR. set (y := scaled (val s) x) in *.
    assert (D : (Rabs (y - x / val s) <= 1)%R) by lra. apply Rabs_le_inv in XS. apply Rabs_le_inv in D.
    apply Rle_lt_trans with 600%R; [apply Rabs_le; lra|]. change (bpow radix2 30) with 1073741824%R. lra. }
  destruct (quantize_near A nt oaddr din dq s zp f_zero (third_data din) pk r HBu (normal_good _ Hs)) as (p & -> & HLp & Hbp & _); auto; try lia.
  { rewrite N5. exact QZ. }
  assert (W : forall j scale' zp' p', (Z.of_nat j <= 2 ^ 20)%Z -> trips dq 5 j (s, zp, p) (scale', zp', p') ->
    full_range dq p 5 /\ zp' = zp /\ (Rabs (val scale' - val s) <= INR j * bpow radix2 (-21) * val s)%R /\ length p' = length p /\ forall i, i < 5 -> code_at dq p' i = code_at dq p i).
  { intros j s' z' p' Hj HT. rewrite <- N5 in HT.
    pose proof (C61_workflow a [(0, 2); (2, 5)] A nt oaddr din dq s zp f_zero (third_data din) pk p (-1) 2 j s' z' p') as C. cbv zeta in C. rewrite N5 in C, HT.
    apply C; auto using third_finite, cover5, third_range, third_off. }
  destruct (W 0 s zp p ltac:(lia) (NoTrip _ _ _)) as (HF & _).
  destruct (C61_trips_possible dq 5 k s zp p A a Hq Hk Fs) as (s' & z' & p' & HT); auto; try lia.
  { split; [apply Rle_trans with (bpow radix2 (-8)); [apply bpow_le; lia|change (bpow radix2 (-8)) with (/ 256)%R; lra]|].
    apply Rle_trans with (bpow radix2 1); [change (bpow radix2 1) with 2%R; lra|apply bpow_le; lia]. }
  { rewrite HLp. apply repeat_length. }
  destruct (W k s' z' p' Hk HT) as (_ & -> & _ & _ & HC). exists s, zp, p, s', p'. auto 6.
Qed.
