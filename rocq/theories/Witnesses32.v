(** Witnesses32.v -- concrete instances of the theorems of PropsTranscode.v (C71) and PropsClip.v (C72). *)
From Coq Require Import ZArith List Lia Bool Arith ZifyBool ZifyNat Reals Lra.
From Flocq Require Import Core Binary Bits.
From Verif Require Import Base Floats Dtypes Spec ApiSpec ConfigSpec Context Api FloatFacts QuantFacts FloatFacts2 PropsQuantize PropsDequantize PropsRoundTrip RoundTripFacts PropsDequantBf16 PropsRoundTripTypes MinMax
  MinMaxFacts ConfigFacts PropsConfig PropsRepresent F64Facts PropsBf16Zero PropsTranscode PropsClip Witnesses5 Witnesses10 Witnesses Witnesses31.
Import ListNotations.
Open Scope nat_scope.

Definition f_17_2 : f32 := f32_of_bits 0x41080000.   (* 8.5 *)
Lemma f_17_2_ok : finite f_17_2 /\ val f_17_2 = (17 / 2)%R.
Proof. split; [reflexivity|]. unfold val; cbn; unfold F2R; cbn; lra. Qed.
Lemma f_17_2_normal : normal_scale f_17_2.
Proof. destruct f_17_2_ok as [F V]. apply moderate_normal; auto. rewrite V. lra. Qed.
Lemma times_17 : times 17 f_half f_17_2.
Proof.
  unfold times. destruct half_ok as [_ ->], f_17_2_ok as [_ ->]. replace (17 / 2 - 17 * / 2)%R with 0%R by field. rewrite Rabs_R0.
  apply Rmult_le_pos; [apply bpow_ge_0|]. pose proof (Rabs_pos (/ 2)). lra.
Qed.
Lemma dq_exists A nt oaddr d scale zp : quant_type d -> few nt -> normal_scale scale -> (Z.abs zp <= 2 ^ 30)%Z ->
  exists o, returns (packed d) (sample DT_F32) (dequantize_call A nt oaddr d DT_F32 scale zp RO_SET (bytes_for d 70) (sample DT_F32)) (Ok o) /\ length o = length (sample DT_F32).
Proof.
  intros Hq Hn Hs Hz. assert (Hd : float_type DT_F32) by (left; reflexivity).
  destruct (returns_total (packed d) (sample DT_F32) (dequantize_call A nt oaddr d DT_F32 scale zp RO_SET (bytes_for d 70) (sample DT_F32))) as [r HR].
  assert (Hno : RO_SET = RO_ADD -> finite scale) by discriminate.
  destruct (dequantize_f32 _ _ _ _ _ _ _ _ _ _ _ (sample_dq nt _ _ Hd Hq Hn) Hz Hno HR) as (o & -> & L & _). exists o. auto.
Qed.
(** the 70 uint8 codes of [packed] (zero point 119, scale 1/2) narrowed to uint4 (zero point 7, scale 17/2): code 37 becomes 2 *)
Example C71_narrow_witness A A' nt nt' oaddr thr r : few nt -> few nt' -> forall o pk,
  returns (packed DT_UINT8) (sample DT_F32) (dequantize_call A nt oaddr DT_UINT8 DT_F32 f_half (17 * 7) RO_SET 70 (sample DT_F32)) (Ok o) -> length pk = 35 ->
  returns o pk (quantize_call A' nt' oaddr DT_F32 DT_UINT4 f_17_2 7 RM_NEAREST thr o pk) r ->
  exists p, r = Ok p /\ code_at DT_UINT8 (packed DT_UINT8) 1 = 37%Z /\ code_at DT_UINT4 p 1 = 2%Z.
Proof.
  intros Hn Hn' o pk HD HL HQ. assert (Hd : float_type DT_F32) by (left; reflexivity). assert (Q8 : quant_type DT_UINT8) by (right; right; reflexivity). assert (Q4 : quant_type DT_UINT4) by (right; left; reflexivity).
  destruct (sample_len _ Hd) as [_ HLn].
  destruct (C71_narrow A nt oaddr A' nt' oaddr DT_UINT8 DT_UINT4 f_half f_17_2 7 17 thr (packed DT_UINT8) 70 (sample DT_F32) o pk r
    (sample_dq nt _ _ Hd Q8 Hn) Q4 ltac:(lia) eq_refl ltac:(change (code_max DT_UINT4) with 15%Z; lia) half_normal f_17_2_normal times_17 (sample_bytes _) HD
    ltac:(rewrite HLn; exact HL) ltac:(rewrite HLn; apply sample_sizes; auto) HQ) as (p & -> & _ & H).
  exists p. split; auto. assert (C : code_at DT_UINT8 (packed DT_UINT8) 1 = 37%Z) by (vm_compute; reflexivity). split; auto. rewrite HLn in H. specialize (H 1 ltac:(lia)). rewrite C in H. lia.
Qed.
(** such calls exist *)
Example C71_exists A A' nt nt' oaddr thr pk : few nt -> exists o r,
  returns (packed DT_UINT8) (sample DT_F32) (dequantize_call A nt oaddr DT_UINT8 DT_F32 f_half (17 * 7) RO_SET 70 (sample DT_F32)) (Ok o) /\
  returns o pk (quantize_call A' nt' oaddr DT_F32 DT_UINT4 f_17_2 7 RM_NEAREST thr o pk) r.
Proof.
  intros Hn. destruct (dq_exists A nt oaddr DT_UINT8 f_half 119 ltac:(right; right; reflexivity) Hn half_normal ltac:(lia)) as (o & H & _). exists o.
  destruct (returns_total o pk (quantize_call A' nt' oaddr DT_F32 DT_UINT4 f_17_2 7 RM_NEAREST thr o pk)) as [r HR]. exists r. split; auto.
Qed.
(** zero point 40 to -40 on the same type: code 37 saturates at 0 (37 - 40 - 40 < 0); widening uint4 to uint8 keeps code 5 *)
Example C71_move_zero_witness A A' nt nt' oaddr thr r : few nt -> few nt' -> forall o pk,
  returns (packed DT_UINT8) (sample DT_F32) (dequantize_call A nt oaddr DT_UINT8 DT_F32 f_half 40 RO_SET 70 (sample DT_F32)) (Ok o) -> length pk = 70 ->
  returns o pk (quantize_call A' nt' oaddr DT_F32 DT_UINT8 f_half (-40) RM_NEAREST thr o pk) r ->
  exists p, r = Ok p /\ code_at DT_UINT8 p 1 = 0%Z /\ code_at DT_UINT8 (packed DT_UINT8) 5 = 185%Z /\ code_at DT_UINT8 p 5 = 105%Z.
Proof.
  intros Hn Hn' o pk HD HL HQ. assert (Hd : float_type DT_F32) by (left; reflexivity). assert (Q8 : quant_type DT_UINT8) by (right; right; reflexivity). destruct (sample_len _ Hd) as [_ HLn].
  destruct (C71_move_zero A nt oaddr A' nt' oaddr DT_UINT8 DT_UINT8 f_half 40 (-40) thr (packed DT_UINT8) 70 (sample DT_F32) o pk r
    (sample_dq nt _ _ Hd Q8 Hn) Q8 half_normal ltac:(lia) ltac:(lia) (sample_bytes _) HD ltac:(rewrite HLn; exact HL) ltac:(rewrite HLn; apply sample_sizes; auto) HQ) as (p & -> & _ & H).
  exists p. split; auto. rewrite HLn in H. assert (C1 : code_at DT_UINT8 (packed DT_UINT8) 1 = 37%Z) by (vm_compute; reflexivity). assert (C5 : code_at DT_UINT8 (packed DT_UINT8) 5 = 185%Z) by (vm_compute; reflexivity).
  rewrite !H by lia. rewrite C1, C5. change (code_max DT_UINT8) with 255%Z. lia.
Qed.
Example C71_widen_witness A A' nt nt' oaddr thr r : few nt -> few nt' -> forall o pk,
  returns (packed DT_UINT4) (sample DT_F32) (dequantize_call A nt oaddr DT_UINT4 DT_F32 f_half 9 RO_SET 35 (sample DT_F32)) (Ok o) -> length pk = 70 ->
  returns o pk (quantize_call A' nt' oaddr DT_F32 DT_UINT8 f_half 9 RM_NEAREST thr o pk) r ->
  exists p, r = Ok p /\ code_at DT_UINT4 (packed DT_UINT4) 2 = 5%Z /\ code_at DT_UINT8 p 2 = 5%Z.
Proof.
  intros Hn Hn' o pk HD HL HQ. assert (Hd : float_type DT_F32) by (left; reflexivity). assert (Q8 : quant_type DT_UINT8) by (right; right; reflexivity). assert (Q4 : quant_type DT_UINT4) by (right; left; reflexivity).
  destruct (sample_len _ Hd) as [_ HLn].
  destruct (C71_widen A nt oaddr A' nt' oaddr DT_UINT4 DT_UINT8 f_half 9 thr (packed DT_UINT4) 35 (sample DT_F32) o pk r
    (sample_dq nt _ _ Hd Q4 Hn) Q8 ltac:(change (code_max DT_UINT4) with 15%Z; change (code_max DT_UINT8) with 255%Z; lia) half_normal ltac:(lia) (sample_bytes _) HD
    ltac:(rewrite HLn; exact HL) ltac:(rewrite HLn; apply sample_sizes; auto) HQ) as (p & -> & _ & H).
  exists p. split; auto. assert (C : code_at DT_UINT4 (packed DT_UINT4) 2 = 5%Z) by (vm_compute; reflexivity). split; auto. rewrite HLn in H. rewrite H by lia. exact C.
Qed.

(** ** C72: the value 200 with scale 1/2 and zero point 20 (uint8 represents -10.25 .. 117.75): 82.25 outside, and the round trip is within 83 of it *)
Example C72_clipped_witness A A2 nt oaddr dout rm : float_type dout -> few nt ->
  exists p o, returns (sample DT_F32) (sample_out DT_UINT8) (quantize_call A nt oaddr DT_F32 DT_UINT8 f_half 20 rm thr4 (sample DT_F32) (sample_out DT_UINT8)) (Ok p) /\
    returns (p ++ [0]%Z) (sample dout) (dequantize_call A2 nt oaddr DT_UINT8 dout f_half 20 RO_SET (length p) (sample dout)) (Ok o) /\
    forall i, i < 70 -> i mod 5 = 3 -> sval i = 200%R /\ outside (- (41 / 4)) (471 / 4) (sval i) = (329 / 4)%R /\ (Rabs (val (elem_at dout o i) - 200) <= 84)%R.
Proof.
  intros Hdo Hn. assert (Hd : float_type DT_F32) by (left; reflexivity). assert (Hq : quant_type DT_UINT8) by (right; right; reflexivity).
  destruct (sample_len _ Hd) as [_ HL], (sample_len _ Hdo) as [_ HLo]. destruct half_ok as [Fh Vh].
  pose proof (sample_buffers nt _ _ Hd Hq Hn) as HB.
  assert (HI : forall i, i < 70 -> quantizable f_half (elem_at DT_F32 (sample DT_F32) i)) by (intros; apply sample_quantizable; auto).
  destruct (returns_total (sample DT_F32) (sample_out DT_UINT8) (quantize_call A nt oaddr DT_F32 DT_UINT8 f_half 20 rm thr4 (sample DT_F32) (sample_out DT_UINT8))) as [q HQ].
  destruct (quantize_near_rm A nt oaddr DT_F32 DT_UINT8 f_half 20 rm thr4 _ _ q HB half_good ltac:(lia) (fun _ => quarter_threshold) ltac:(rewrite HL; exact HI) HQ) as (p & -> & _).
  destruct (returns_total (p ++ [0]%Z) (sample dout) (dequantize_call A2 nt oaddr DT_UINT8 dout f_half 20 RO_SET (length p) (sample dout))) as [r HR].
  assert (HS : sizes_ok (length (sample dout)) (numel dout (length (sample dout))) nt) by (rewrite HLo; apply sample_sizes; auto).
  assert (HO : out_scale dout f_half) by (destruct Hdo as [->| ->]; [apply half_normal|apply half_bf16_scale]).
  assert (HX : Forall is_byte [0%Z]) by (apply Forall_cons; [unfold is_byte; lia|apply Forall_nil]). assert (HN : [0%Z] <> []) by discriminate.
  assert (HE : numel DT_F32 (length (sample DT_F32)) = numel dout (length (sample dout))) by (rewrite HL, HLo; reflexivity).
  assert (HP : (0 < val f_half)%R) by (rewrite Vh; lra). assert (HZ : (0 <= 20 <= code_max DT_UINT8)%Z) by (change (code_max DT_UINT8) with 255%Z; lia).
  destruct (C72_clipped A nt oaddr A2 nt oaddr DT_F32 dout DT_UINT8 f_half 20 rm thr4 (sample DT_F32) (sample_out DT_UINT8) p [0%Z] (sample dout) r
    HB Hdo HE HS (sample_bytes _) HO HP HZ (fun _ => quarter_threshold) HX HN ltac:(rewrite HLo; exact HI) HQ HR) as (o & -> & _ & B).
  exists p, o. split; auto. split; auto. intros i Hi Hm. rewrite HLo in B. specialize (B i Hi). cbv zeta in B.
  rewrite (proj2 (sample_elem DT_F32 i Hd Hi)) in B. rewrite Vh in B. destruct B as [_ B]. change (code_max DT_UINT8) with 255%Z in B.
  assert (E : sval i = 200%R) by (unfold sval; rewrite Hm; reflexivity). rewrite E in *. split; auto.
  assert (X : outside (- (41 / 4)) (471 / 4) 200 = (329 / 4)%R) by (unfold outside; rewrite (Rmax_right _ (200 - 471 / 4)) by lra; rewrite Rmax_right by lra; lra). split; auto.
  replace ((IZR (0 - 20) - / 2) * / 2)%R with (- (41 / 4))%R in B by (change (0 - 20)%Z with (-20)%Z; lra). replace ((IZR (255 - 20) + / 2) * / 2)%R with (471 / 4)%R in B by (change (255 - 20)%Z with 235%Z; lra).
  rewrite X, (Rabs_pos_eq 200) in B by lra. change (bpow radix2 (-11)) with (/ 2048)%R in B. destruct rm, Hdo as [->| ->]; lra.
Qed.

(** parameters computed from {0, 5/4, -3}, used on the sample (which also has the value 200, at distance 795/4 from the calibrated range) *)
Lemma part_range : data_range DT_F32 part 3 (-3) (5 / 4).
Proof.
  assert (V : forall i, i < 3 -> val (elem_at DT_F32 part i) = sval i) by (intros i Hi; exact (part_at i Hi)).
  split; [exists 2; split; [lia|rewrite V by lia; reflexivity]|]. split; [exists 1; split; [lia|rewrite V by lia; reflexivity]|].
  intros i Hi. rewrite V by auto. destruct i as [|[|[|i]]]; try lia; unfold sval; cbn; lra.
Qed.
Example C72_calibrated_witness A A2 nt oaddr rm : few nt ->
  exists s zp p o, compute_quant_config_from_data AVX2 DT_F32 DT_UINT8 part [(0, 3)] = Ok (s, zp) /\
    returns (sample DT_F32) (sample_out DT_UINT8) (quantize_call A nt oaddr DT_F32 DT_UINT8 s zp rm thr4 (sample DT_F32) (sample_out DT_UINT8)) (Ok p) /\
    returns (p ++ [0]%Z) (sample DT_F32) (dequantize_call A2 nt oaddr DT_UINT8 DT_F32 s zp RO_SET (length p) (sample DT_F32)) (Ok o) /\
    forall i, i < 70 -> (Rabs (val (elem_at DT_F32 o i) - sval i) <= 2 * val s + outside (-3) (5 / 4) (sval i))%R.
Proof.
  intros Hn. assert (Hd : float_type DT_F32) by (left; reflexivity). assert (Hq : quant_type DT_UINT8) by (right; right; reflexivity). destruct (sample_len _ Hd) as [_ HL].
  assert (BC : block_cover 3 [(0, 3)]).
  { split; [intros q [<-|[]]; cbn; lia|]. intros t Ht. exists (0, 3). split; [left; reflexivity|]. cbn. lia. }
  assert (W : (bpow radix2 (-112) <= 5 / 4 - -3 <= bpow radix2 100)%R).
  { split.
    - apply Rle_trans with (bpow radix2 0); [apply bpow_le; lia|change (bpow radix2 0) with 1%R; lra].
    - apply Rle_trans with (bpow radix2 10); [change (bpow radix2 10) with 1024%R; lra|apply bpow_le; lia]. }
  destruct (C21_documented_parameters AVX2 DT_F32 DT_UINT8 part 3 [(0, 3)] (-3) (5 / 4) ltac:(discriminate) Hd Hq part_ok BC part_range ltac:(lra)) as (s & EC & Fs & Vs).
  assert (I1 : in32 (-3)) by (destruct part_range as ((i & Hi & <-) & _); apply in32_val, part_ok; auto).
  assert (I2 : in32 (5 / 4)) by (destruct part_range as (_ & (i & Hi & <-) & _); apply in32_val, part_ok; auto).
  assert (W' : (bpow radix2 (-118) <= 5 / 4 - -3 <= bpow radix2 100)%R) by (split; [apply Rle_trans with (bpow radix2 (-112)); [apply bpow_le; lia|apply W]|apply W]).
  destruct (config_scale_rel DT_UINT8 (-3)%R (5 / 4)%R Hq I1 I2 W') as (e & He & Es & Bs1 & Bs2).
  destruct (step_bounds DT_UINT8 (-3)%R (5 / 4)%R Hq I1 I2 ltac:(lra)) as (d & Hdd & Ed & _). change (code_max DT_UINT8) with 255%Z in Ed.
  destruct (config_zp_near DT_UINT8 (-3)%R (5 / 4)%R Hq I1 I2 ltac:(lra) ltac:(lra)) as (_ & Z & _). set (zp := config_zp DT_UINT8 (-3)%R (5 / 4)%R) in *.
  pose proof (bpow_gt_0 radix2 (-126)) as P1.
  assert (SB : (/ 100 <= val s <= / 50)%R).
  { rewrite Vs, Es, Ed. apply Rabs_le_inv in Hdd. apply Rabs_le_inv in He. unfold u64r, u32r in *.
    replace ((5 / 4 - -3) / IZR 255 * (1 + d) * (1 + e))%R with (1 / 60 * ((1 + d) * (1 + e)))%R by field. assert (99 / 100 <= (1 + d) * (1 + e) <= 101 / 100)%R by nra. lra. }
  assert (Ns : normal_scale s) by (apply moderate_normal; auto; lra).
  pose proof (sample_buffers nt _ _ Hd Hq Hn) as HB.
  assert (HI : forall i, i < 70 -> quantizable s (elem_at DT_F32 (sample DT_F32) i)).
  { intros i Hi. destruct (sample_elem DT_F32 i Hd Hi) as [F V]. split; auto. rewrite V. pose proof (scaled_rel s (sval i) Ns) as SR. destruct tiny_small as [_ T2].
    assert (Sv : (Rabs (sval i) <= 200)%R) by (apply Rabs_le; unfold sval; mod5 i; cbn [nth]; lra).
    assert (T : (Rabs (sval i / val s) <= 20000)%R).
    { unfold Rdiv. rewrite Rabs_mult, Rabs_inv, (Rabs_pos_eq (val s)) by lra.
      apply Rle_trans with (200 * / / 100)%R; [|lra]. apply Rmult_le_compat; auto using Rabs_pos; [left; apply Rinv_0_lt_compat; lra|apply Rinv_le; lra]. }
    set (t := (sval i / val s)%R) in *. set (y := scaled _ _) in *. unfold u32r in SR.
    replace y with ((y - t) + t)%R by ring. eapply Rle_lt_trans; [apply Rabs_triang|]. change (bpow radix2 30) with 1073741824%R.
    assert (tiny <= 1)%R by (unfold tiny; change 1%R with (bpow radix2 0); apply bpow_le; lia). lra. }
  destruct (returns_total (sample DT_F32) (sample_out DT_UINT8) (quantize_call A nt oaddr DT_F32 DT_UINT8 s zp rm thr4 (sample DT_F32) (sample_out DT_UINT8))) as [q HQ].
  change (code_max DT_UINT8) with 255%Z in Z.
  destruct (quantize_near_rm A nt oaddr DT_F32 DT_UINT8 s zp rm thr4 _ _ q HB (normal_good _ Ns) ltac:(lia) (fun _ => quarter_threshold) ltac:(rewrite HL; exact HI) HQ) as (p & -> & _).
  destruct (returns_total (p ++ [0]%Z) (sample DT_F32) (dequantize_call A2 nt oaddr DT_UINT8 DT_F32 s zp RO_SET (length p) (sample DT_F32))) as [r HR].
  assert (HS : sizes_ok (length (sample DT_F32)) (numel DT_F32 (length (sample DT_F32))) nt) by (rewrite HL; apply sample_sizes; auto).
  assert (HX : Forall is_byte [0%Z]) by (apply Forall_cons; [unfold is_byte; lia|apply Forall_nil]). assert (HN : [0%Z] <> []) by discriminate.
  destruct (C72_calibrated AVX2 [(0, 3)] part 3 DT_F32 (-3) (5 / 4) A nt oaddr A2 nt oaddr DT_F32 DT_F32 DT_UINT8 s zp rm thr4 (sample DT_F32) (sample_out DT_UINT8) p [0%Z] (sample DT_F32) r
    ltac:(discriminate) Hd part_ok BC part_range ltac:(lra) W EC HB Hd eq_refl HS (sample_bytes _) (fun _ => quarter_threshold) HX HN ltac:(rewrite HL; exact HI) HQ HR) as (o & -> & _ & B).
  exists s, zp, p, o. split; auto. split; auto. split; auto. intros i Hi. rewrite HL in B. specialize (B i Hi). cbv zeta in B. rewrite (proj2 (sample_elem DT_F32 i Hd Hi)) in B. destruct B as [_ B].
  eapply Rle_trans; [exact B|]. change (bpow radix2 (-10)) with (/ 1024)%R. set (O := outside _ _ _). destruct rm; lra.
Qed.
