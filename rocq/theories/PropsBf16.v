(** PropsBf16.v -- C37: bf16 arithmetic rounds once; C39: type limits. *)
From Coq Require Import ZArith List Lia Bool Reals Lra.
From Flocq Require Import Core Binary Bits Double_rounding.
From Verif Require Import Base Floats Dtypes Spec ApiSpec FloatFacts FloatFacts2 Bf16Spec Bf16Facts MinMax MinMaxFacts.
Local Open Scope R_scope.

(** The correctly rounded bf16 result of an operation with exact result [z]: round once to 8 bits (ties to even); infinite beyond the range. *)
Definition rounds_once (b : Z) (z : R) : Prop :=
  (0 <= b < 65536)%Z /\
  if Rlt_bool (Rabs (RN16 z)) (bpow radix2 128)
  then finite (bf16_to_f32 b) /\ val (bf16_to_f32 b) = RN16 z
  else bf16_to_f32 b = B754_infinity 24 128 (Rlt_bool z 0).

Lemma fmt16_val b : (0 <= b < 65536)%Z -> finite (bf16_to_f32 b) -> generic_format radix2 (FLT_exp (-133) 8) (val (bf16_to_f32 b)).
Proof.
  intros Hb F. assert (N : ~ nan (bf16_to_f32 b)) by (apply finite_not_nan; auto).
  pose proof (C17_round_to_nearest_even _ F) as H. cbv zeta in H. rewrite (C17_identity b Hb N) in H. destruct H as (_ & _ & H).
  destruct (Rlt_bool _ _).
  - destruct H as [_ ->]. apply generic_format_round; auto with typeclass_instances.
    apply FLT_exp_valid. reflexivity.
  - rewrite H in F. discriminate.
Qed.
Global Instance prec8 : Prec_gt_0 8. Proof. reflexivity. Qed.
Global Instance prec24 : Prec_gt_0 24. Proof. reflexivity. Qed.

Lemma RN16_le x y : x <= y -> RN16 x <= RN16 y.
Proof. apply round_le; auto with typeclass_instances. Qed.
Lemma RN16_fmt x : generic_format radix2 (FLT_exp (-133) 8) x -> RN16 x = x.
Proof. apply round_generic; auto with typeclass_instances. Qed.

Lemma sign_of_finite (x : f32) : finite x -> val x <> 0 -> Bsign 24 128 x = Rlt_bool (val x) 0.
Proof.
  unfold finite, val. destruct x as [s|s|s pl Hp|s m e He]; cbn [is_finite B2R Bsign]; intros F H; try discriminate; try lra.
  destruct s; cbn [cond_Zopp]; symmetry; [apply Rlt_bool_true|apply Rlt_bool_false].
  - apply F2R_lt_0. reflexivity.
  - left. apply F2R_gt_0. reflexivity.
Qed.
Lemma RN32_sign z : 0 < Rabs (RN32 z) -> Rlt_bool (RN32 z) 0 = Rlt_bool z 0.
Proof.
  intros H. destruct (Rlt_bool_spec z 0) as [L|L].
  - apply Rlt_bool_true. apply Rlt_le in L. apply RN32_le in L. rewrite RN32_0 in L. destruct L as [L|L]; auto. rewrite L, Rabs_R0 in H. lra.
  - apply Rlt_bool_false. apply RN32_le in L. rewrite RN32_0 in L. auto.
Qed.
Lemma two_roundings (f : f32) z :
  (Rabs (RN32 z) < max32 -> finite f /\ val f = RN32 z) -> (max32 <= Rabs (RN32 z) -> f = B754_infinity 24 128 (Rlt_bool z 0)) ->
  RN16 (RN32 z) = RN16 z -> rounds_once (bf16_of_f32 f) z.
Proof.
  intros H1 H2 E. unfold rounds_once.
  assert (B : generic_format radix2 (FLT_exp (-133) 8) (bpow radix2 128)) by (apply generic_format_bpow; unfold FLT_exp; lia).
  destruct (Rlt_le_dec (Rabs (RN32 z)) max32) as [L|L].
  - destruct (H1 L) as [F V]. pose proof (C17_round_to_nearest_even f F) as C. cbv zeta in C. rewrite V, E in C. destruct C as (C1 & C2 & C3). split; auto.
    destruct (Rlt_bool_spec (Rabs (RN16 z)) (bpow radix2 128)) as [LT|LT]; auto.
    rewrite C3. f_equal. rewrite sign_of_finite; auto.
    + rewrite V. apply RN32_sign. apply Rabs_pos_lt. intros Z. rewrite Z, RN16_0 in E. rewrite <- E, Rabs_R0 in LT. pose proof (bpow_gt_0 radix2 128). lra.
    + rewrite V. intros Z. rewrite Z, RN16_0 in E. rewrite <- E, Rabs_R0 in LT. pose proof (bpow_gt_0 radix2 128). lra.
  - rewrite (H2 L). pose proof (C17_infinity (Rlt_bool z 0)) as I. split; [destruct (Rlt_bool z 0); vm_compute; split; congruence|].
    rewrite Rlt_bool_false; auto. rewrite <- E. 
    assert (G : bpow radix2 128 <= Rabs (RN32 z)) by exact L.
    unfold Rabs in G. destruct (Rcase_abs (RN32 z)) as [N|N].
    + assert (RN16 (RN32 z) <= - bpow radix2 128). { rewrite <- (RN16_fmt (- bpow radix2 128)) by (apply generic_format_opp; auto). apply RN16_le. lra. }
      pose proof (bpow_gt_0 radix2 128). rewrite Rabs_left; lra.
    + assert (bpow radix2 128 <= RN16 (RN32 z)). { rewrite <- (RN16_fmt (bpow radix2 128)) at 1 by auto. apply RN16_le. lra. }
      pose proof (bpow_gt_0 radix2 128). rewrite Rabs_pos_eq; lra.
Qed.

(** Overflow of a binary32 operation gives an infinity with the sign of the exact result. *)
Lemma inf_of_B2FF (x : f32) s : B2FF 24 128 x = F754_infinity s -> x = B754_infinity 24 128 s.
Proof. destruct x; cbn; intros H; try discriminate. injection H as ->. reflexivity. Qed.
Lemma max32_le_0 z : max32 <= Rabs (RN32 z) -> z <> 0.
Proof. intros H ->. rewrite RN32_0, Rabs_R0 in H. unfold max32 in H. pose proof (bpow_gt_0 radix2 128). lra. Qed.
Lemma sign_val (x : f32) : finite x -> (Bsign 24 128 x = true -> val x <= 0) /\ (Bsign 24 128 x = false -> 0 <= val x).
Proof.
  unfold finite, val. destruct x as [s|s|s pl Hp|s m e He]; cbn [is_finite B2R Bsign]; intros F; try discriminate; [split; lra|].
  destruct s; cbn [cond_Zopp]; split; intros; try discriminate; [apply F2R_le_0|apply F2R_ge_0]; cbn; lia.
Qed.
Lemma fadd_over x y : finite x -> finite y -> max32 <= Rabs (RN32 (val x + val y)) -> fadd x y = B754_infinity 24 128 (Rlt_bool (val x + val y) 0).
Proof.
  intros Fx Fy H. unfold fadd, b32_plus. match goal with |- Bplus _ _ ?a ?b ?c ?d _ _ = _ => pose proof (Bplus_correct 24 128 a b c d x y Fx Fy) as C end.
  change (SpecFloat.emin 24 128) with (-149)%Z in C. cbn [BinarySingleNaN.round_mode] in C. pose proof (max32_le_0 _ H) as NZ.
  unfold val, RN32, max32, finite in *. rewrite Rlt_bool_false in C by exact H. destruct C as [C1 C2]. apply inf_of_B2FF. rewrite C1.
  change (F754_infinity (Bsign 24 128 x) = F754_infinity (Rlt_bool (B2R 24 128 x + B2R 24 128 y) 0)). f_equal.
  destruct (sign_val x Fx) as [X1 X2], (sign_val y Fy) as [Y1 Y2]. unfold val in *. rewrite <- C2 in *. destruct (Bsign 24 128 x).
  - symmetry. apply Rlt_bool_true. specialize (X1 eq_refl). specialize (Y1 eq_refl). lra.
  - symmetry. apply Rlt_bool_false. specialize (X2 eq_refl). specialize (Y2 eq_refl). lra.
Qed.
Lemma fsub_over x y : finite x -> finite y -> max32 <= Rabs (RN32 (val x - val y)) -> fsub x y = B754_infinity 24 128 (Rlt_bool (val x - val y) 0).
Proof.
  intros Fx Fy H. unfold fsub, b32_minus. match goal with |- Bminus _ _ ?a ?b ?c ?d _ _ = _ => pose proof (Bminus_correct 24 128 a b c d x y Fx Fy) as C end.
  change (SpecFloat.emin 24 128) with (-149)%Z in C. cbn [BinarySingleNaN.round_mode] in C. pose proof (max32_le_0 _ H) as NZ.
  unfold val, RN32, max32, finite in *. rewrite Rlt_bool_false in C by exact H. destruct C as [C1 C2]. apply inf_of_B2FF. rewrite C1.
  change (F754_infinity (Bsign 24 128 x) = F754_infinity (Rlt_bool (B2R 24 128 x - B2R 24 128 y) 0)). f_equal.
  destruct (sign_val x Fx) as [X1 X2], (sign_val y Fy) as [Y1 Y2]. unfold val in *. destruct (Bsign 24 128 x), (Bsign 24 128 y); try discriminate.
  - symmetry. apply Rlt_bool_true. specialize (X1 eq_refl). specialize (Y2 eq_refl). lra.
  - symmetry. apply Rlt_bool_false. specialize (X2 eq_refl). specialize (Y1 eq_refl). lra.
Qed.
Lemma fmul_over x y : finite x -> finite y -> max32 <= Rabs (RN32 (val x * val y)) -> fmul x y = B754_infinity 24 128 (Rlt_bool (val x * val y) 0).
Proof.
  intros Fx Fy H. unfold fmul, b32_mult. match goal with |- Bmult _ _ ?a ?b ?c ?d _ _ = _ => pose proof (Bmult_correct 24 128 a b c d x y) as C end.
  change (SpecFloat.emin 24 128) with (-149)%Z in C. cbn [BinarySingleNaN.round_mode] in C. pose proof (max32_le_0 _ H) as NZ.
  unfold val, RN32, max32, finite in *. rewrite Rlt_bool_false in C by exact H. apply inf_of_B2FF. rewrite C.
  change (F754_infinity (xorb (Bsign 24 128 x) (Bsign 24 128 y)) = F754_infinity (Rlt_bool (B2R 24 128 x * B2R 24 128 y) 0)). f_equal.
  destruct (sign_val x Fx) as [X1 X2], (sign_val y Fy) as [Y1 Y2]. unfold val in *.
  destruct (Bsign 24 128 x), (Bsign 24 128 y); cbn [xorb]; symmetry; [apply Rlt_bool_false|apply Rlt_bool_true|apply Rlt_bool_true|apply Rlt_bool_false];
   try specialize (X1 eq_refl); try specialize (X2 eq_refl); try specialize (Y1 eq_refl); try specialize (Y2 eq_refl); nra.
Qed.
Lemma fdiv_over x y : finite x -> finite y -> val y <> 0 -> max32 <= Rabs (RN32 (val x / val y)) -> fdiv x y = B754_infinity 24 128 (Rlt_bool (val x / val y) 0).
Proof.
  intros Fx Fy Ny H. unfold fdiv, b32_div. match goal with |- Bdiv _ _ ?a ?b ?c ?d _ _ = _ => pose proof (Bdiv_correct 24 128 a b c d x y Ny) as C end.
  change (SpecFloat.emin 24 128) with (-149)%Z in C. cbn [BinarySingleNaN.round_mode] in C. pose proof (max32_le_0 _ H) as NZ.
  unfold val, RN32, max32, finite in *. rewrite Rlt_bool_false in C by exact H. apply inf_of_B2FF. rewrite C.
  change (F754_infinity (xorb (Bsign 24 128 x) (Bsign 24 128 y)) = F754_infinity (Rlt_bool (B2R 24 128 x / B2R 24 128 y) 0)). f_equal.
  destruct (sign_val x Fx) as [X1 X2], (sign_val y Fy) as [Y1 Y2]. unfold val in *. set (a := B2R 24 128 x) in *. set (b := B2R 24 128 y) in *.
  assert (P : 0 < / b * / b) by (apply Rsqr_pos_lt; apply Rinv_neq_0_compat; auto). unfold Rdiv in *.
  assert (E : a * / b = a * b * (/ b * / b)) by (field; auto).
  destruct (Bsign 24 128 x), (Bsign 24 128 y); cbn [xorb]; symmetry; [apply Rlt_bool_false|apply Rlt_bool_true|apply Rlt_bool_true|apply Rlt_bool_false];
   try specialize (X1 eq_refl); try specialize (X2 eq_refl); try specialize (Y1 eq_refl); try specialize (Y2 eq_refl).
  - rewrite E. apply Rmult_le_pos; [nra|lra].
  - assert (a * / b <= 0) by (rewrite E; assert (a * b <= 0) by nra; nra). lra.
  - assert (a * / b <= 0) by (rewrite E; assert (a * b <= 0) by nra; nra). lra.
  - rewrite E. apply Rmult_le_pos; [nra|lra].
Qed.

(** Products: exact in binary32, or so small that both roundings give 0. *)
Lemma RN16_tiny z : Rabs z <= bpow radix2 (-134) -> RN16 z = 0.
Proof.
  intros H. assert (T : RN16 (bpow radix2 (-134)) = 0).
  { unfold RN16, round, scaled_mantissa, cexp. rewrite mag_bpow. unfold FLT_exp. change (Z.max (-134 + 1 - 8) (-133)) with (-133)%Z. rewrite <- bpow_plus.
    change (bpow radix2 (-134 + - -133)) with (/ 2). 
    replace (ZnearestE (/ 2)) with 0%Z; [apply F2R_0|]. unfold Znearest. replace (Zfloor (/ 2)) with 0%Z by (symmetry; apply Zfloor_imp; cbn; lra).
    rewrite Rcompare_Eq by (cbn; lra). reflexivity. }
  apply Rabs_le_inv in H. destruct H as [H1 H2]. apply RN16_le in H1. apply RN16_le in H2. rewrite RN16_opp, T in H1. rewrite T in H2. lra.
Qed.
Lemma mul_once x y : generic_format radix2 (FLT_exp (-133) 8) x -> generic_format radix2 (FLT_exp (-133) 8) y -> RN16 (RN32 (x * y)) = RN16 (x * y).
Proof.
  intros Hx Hy. apply FLT_format_generic in Hx; [|reflexivity]. apply FLT_format_generic in Hy; [|reflexivity].
  destruct Hx as [[mx ex] Ex Mx Lx], Hy as [[my ey] Ey My Ly]. cbn [Fnum Fexp] in *.
  assert (E : x * y = F2R (Float radix2 (mx * my) (ex + ey))) by (rewrite Ex, Ey; unfold F2R; cbn [Fnum Fexp]; rewrite mult_IZR, bpow_plus; ring).
  assert (M : (Z.abs (mx * my) <= 65025)%Z) by (rewrite Z.abs_mul; change (radix2 ^ 8)%Z with 256%Z in *; nia).
  destruct (Z_lt_le_dec (ex + ey) (-149)) as [L|L].
  - assert (S : Rabs (x * y) <= bpow radix2 (-134)).
    { rewrite E. unfold F2R. cbn [Fnum Fexp]. rewrite Rabs_mult, <- abs_IZR, (Rabs_pos_eq (bpow _ _)) by apply bpow_ge_0.
      apply Rle_trans with (bpow radix2 16 * bpow radix2 (-150)).
      - apply Rmult_le_compat; [apply IZR_le; lia|apply bpow_ge_0| |apply bpow_le; lia]. change (bpow radix2 16) with 65536. apply IZR_le. lia.
      - rewrite <- bpow_plus. apply bpow_le. lia. }
    rewrite (RN16_tiny _ S). apply RN16_tiny. apply Rabs_le_inv in S. destruct S as [S1 S2]. apply RN32_le in S1. apply RN32_le in S2. rewrite RN32_opp in S1.
    rewrite (RN32_fmt (bpow radix2 (-134))) in * by (apply generic_format_bpow; unfold FLT_exp; lia). apply Rabs_le. lra.
  - rewrite (RN32_fmt (x * y)); auto. apply generic_format_FLT. rewrite E. exists (Float radix2 (mx * my) (ex + ey)); cbn [Fnum Fexp]; auto.
    change (radix2 ^ 24)%Z with 16777216%Z. lia.
Qed.

(** ** C37.  a + b, a - b, a * b, a / b on finite bf16 values (and a nonzero divisor): the exact result, rounded once. *)
Theorem C37_add a b : (0 <= a < 65536)%Z -> (0 <= b < 65536)%Z -> finite (bf16_to_f32 a) -> finite (bf16_to_f32 b) ->
  rounds_once (bf16_add a b) (val (bf16_to_f32 a) + val (bf16_to_f32 b)).
Proof.
  intros Ha Hb Fa Fb. unfold bf16_add. rewrite !f32_of_bf16_eq. apply two_roundings.
  - intros H. apply fadd_ok; auto.
  - intros H. apply fadd_over; auto.
  - apply (round_round_plus_FLT radix2 (-133) 8 (-149) 24); try lia; apply FLT_format_generic; try reflexivity; apply fmt16_val; auto.
Qed.
Theorem C37_sub a b : (0 <= a < 65536)%Z -> (0 <= b < 65536)%Z -> finite (bf16_to_f32 a) -> finite (bf16_to_f32 b) ->
  rounds_once (bf16_sub a b) (val (bf16_to_f32 a) - val (bf16_to_f32 b)).
Proof.
  intros Ha Hb Fa Fb. unfold bf16_sub. rewrite !f32_of_bf16_eq. apply two_roundings.
  - intros H. apply fsub_ok; auto.
  - intros H. apply fsub_over; auto.
  - apply (round_round_minus_FLT radix2 (-133) 8 (-149) 24); try lia; apply FLT_format_generic; try reflexivity; apply fmt16_val; auto.
Qed.
Theorem C37_mul a b : (0 <= a < 65536)%Z -> (0 <= b < 65536)%Z -> finite (bf16_to_f32 a) -> finite (bf16_to_f32 b) ->
  rounds_once (bf16_mul a b) (val (bf16_to_f32 a) * val (bf16_to_f32 b)).
Proof.
  intros Ha Hb Fa Fb. unfold bf16_mul. rewrite !f32_of_bf16_eq. apply two_roundings.
  - intros H. apply fmul_ok; auto.
  - intros H. apply fmul_over; auto.
  - apply mul_once; apply fmt16_val; auto.
Qed.
Theorem C37_div a b : (0 <= a < 65536)%Z -> (0 <= b < 65536)%Z -> finite (bf16_to_f32 a) -> finite (bf16_to_f32 b) -> val (bf16_to_f32 b) <> 0 ->
  rounds_once (bf16_div a b) (val (bf16_to_f32 a) / val (bf16_to_f32 b)).
Proof.
  intros Ha Hb Fa Fb Nb. unfold bf16_div. rewrite !f32_of_bf16_eq. apply two_roundings.
  - intros H. apply fdiv_ok; auto.
  - intros H. apply fdiv_over; auto.
  - apply (round_round_div_FLT radix2 (-133) 8 (-149) 24); try lia; auto; [exists 1%Z; reflexivity| |]; apply FLT_format_generic; try reflexivity; apply fmt16_val; auto.
Qed.
(** NaN operands give a (quiet) NaN in every operation. *)
Theorem C37_nan a b : nan (bf16_to_f32 a) \/ nan (bf16_to_f32 b) ->
  forall r, r = bf16_add a b \/ r = bf16_sub a b \/ r = bf16_mul a b \/ r = bf16_div a b -> (0 <= r < 65536)%Z /\ nan (bf16_to_f32 r) /\ Z.testbit r 6 = true.
Proof.
  intros N r Hr. unfold bf16_add, bf16_sub, bf16_mul, bf16_div in Hr. rewrite !f32_of_bf16_eq in Hr. revert N Hr. generalize (bf16_to_f32 a), (bf16_to_f32 b). intros x y N Hr.
  assert (G : forall f, nan f -> (0 <= bf16_of_f32 f < 65536)%Z /\ nan (bf16_to_f32 (bf16_of_f32 f)) /\ Z.testbit (bf16_of_f32 f) 6 = true).
  { intros f Nf. destruct (C17_nan f Nf) as (? & ? & ? & _). auto. }
  assert (NN : nan (fadd x y) /\ nan (fsub x y) /\ nan (fmul x y) /\ nan (fdiv x y)).
  { unfold nan in *. destruct N as [N|N]; [destruct x; try discriminate; repeat split; reflexivity|destruct y; try discriminate]. destruct x; repeat split; reflexivity. }
  destruct NN as (N1 & N2 & N3 & N4). destruct Hr as [->|[->|[->| ->]]]; apply G; auto.
Qed.
(** Non-vacuity: 1 + 2^-7 (the largest ulp) and 1 + 2^-8 (a tie, to even). *)
Example C37_witness : (bf16_add 0x3f80 0x3c00 = 0x3f81 /\ bf16_add 0x3f80 0x3b80 = 0x3f80)%Z /\ finite (bf16_to_f32 0x3f80%Z) /\ finite (bf16_to_f32 0x3b80%Z).
Proof. repeat split; vm_compute; reflexivity. Qed.

(** ** C39.  The limits of the quantized types are 0 and 2^bits - 1; those of float bound every finite float and are attained. *)
Theorem C39_quantized_limits d : quant_type d -> limit_min d = 0%Z /\ limit_max d = (2 ^ Z.of_nat (bit_size d) - 1)%Z.
Proof. intros [->|[->| ->]]; split; reflexivity. Qed.
Theorem C39_float_limits x : finite x -> val flt_lowest <= val x <= val flt_max /\ finite flt_lowest /\ finite flt_max.
Proof. intros F. pose proof (flt_max_bound x F). pose proof (flt_lowest_bound x F). split; [lra|]. split; reflexivity. Qed.
(** include/piquant.hpp:172-173: [bfp16_t min {0xFF7F}; bfp16_t max {0x7F7F};] call the constructor from float with the integers 65407 and 32639. *)
Definition bf16_limit_min : bf16 := bf16_of_f32 (f32_of_Z 0xFF7F%Z).
Definition bf16_limit_max : bf16 := bf16_of_f32 (f32_of_Z 0x7F7F%Z).
(** They are 65280 and 32640: min > max, and neither bounds the type (whose finite range is +-(2 - 2^-7) 2^127). *)
Theorem C39_bf16_limits_refuted : val (f32_of_bf16 bf16_limit_min) = 65280 /\ val (f32_of_bf16 bf16_limit_max) = 32640 /\
  val (f32_of_bf16 bf16_limit_max) < val (f32_of_bf16 bf16_limit_min) /\
  (exists b, finite (f32_of_bf16 b) /\ val (f32_of_bf16 bf16_limit_max) < val (f32_of_bf16 b)) /\
  (exists b, finite (f32_of_bf16 b) /\ val (f32_of_bf16 b) < val (f32_of_bf16 bf16_limit_min)).
Proof.
  assert (E1 : bf16_limit_min = 0x477f%Z) by (vm_compute; reflexivity).
  assert (E2 : bf16_limit_max = 0x46ff%Z) by (vm_compute; reflexivity).
  assert (V1 : val (f32_of_bf16 0x477f%Z) = 65280).
  { unfold val, f32_of_bf16. vm_compute f32_of_bits. cbn [B2R]. unfold F2R. cbn [Fnum Fexp cond_Zopp bpow]. change (Z.pow_pos radix2 8) with 256%Z. lra. }
  assert (V2 : val (f32_of_bf16 0x46ff%Z) = 32640).
  { unfold val, f32_of_bf16. vm_compute f32_of_bits. cbn [B2R]. unfold F2R. cbn [Fnum Fexp cond_Zopp bpow]. change (Z.pow_pos radix2 9) with 512%Z. lra. }
  rewrite E1, E2, V1, V2. split; auto. split; auto. split; [lra|]. split.
  - exists 0x477f%Z. rewrite V1. split; [vm_compute; reflexivity|lra].
  - exists 0x46ff%Z. rewrite V2. split; [vm_compute; reflexivity|lra].
Qed.
