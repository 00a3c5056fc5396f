(** FlushFacts2.v -- the quantization kernels of Flush.v, continued: stochastic rounding, the NEON block, the kernels, the call. *)
From Coq Require Import ZArith List Lia Bool Reals Lra Psatz FunctionalExtensionality.
From Flocq Require Import Core BinarySingleNaN Binary Bits.
From Verif Require Import Base Floats Simd Dtypes QuantKernels DequantKernels Context MinMax Spec FloatFacts FloatFacts2 FloatFacts3 QuantLanes PropsBadScale
  Flush FlushFacts.
Import ListNotations.
Local Open Scope R_scope.

(** ** Stochastic rounding *)
(** A threshold drawn as a multiple of 2^-64 that is not 0. *)
Definition coarse (thr : f32) : Prop := finite thr /\ bpow radix2 (-64) <= val thr.
Lemma coarse_fl thr : coarse thr -> fl32 thr = thr.
Proof.
  intros [F H]. apply fl_id. intros _. right. pose proof (bpow_gt_0 radix2 (-64)). rewrite Rabs_pos_eq by lra.
  apply Rle_trans with (bpow radix2 (-64)); [|exact H]. apply bpow_le. lia.
Qed.
Definition stoch_float_z (m : fmode) (thr rnd : f32) : f32 :=
  let dec := fabs (fsub_z m rnd (ftrunc rnd)) in
  let adj := if flt_z m thr dec then f_one else f_zero in
  fadd_z m (ftrunc rnd) (if flt_z m rnd f_zero then fmul_z m f_neg_one adj else adj).
Lemma stoch_ieee thr p : stoch_float_z ieee_mode thr p = stoch_float thr p. Proof. reflexivity. Qed.
Lemma finite_zero x : finite x -> val x = 0 -> exists s, x = B754_zero 24 128 s.
Proof.
  intros F V. apply is_zero_val in V; auto. destruct x; try discriminate. eexists. reflexivity.
Qed.
Lemma small_trunc p : small p -> exists s, ftrunc p = B754_zero 24 128 s.
Proof.
  intros [F H]. pose proof b65. destruct (ftrunc_ok p F) as [Ft Et]. apply finite_zero; auto. rewrite Et.
  apply Rabs_le_inv in H. assert (-1 < Ztrunc (val p) < 1)%Z; [|replace (Ztrunc (val p)) with 0%Z by lia; reflexivity].
  destruct (Rle_or_lt 0 (val p)).
  - rewrite Ztrunc_floor by auto. pose proof (Zfloor_lb (val p)). pose proof (Zfloor_ub (val p)). split; [apply lt_IZR; lra|].
    apply lt_IZR. lra.
  - rewrite Ztrunc_ceil by lra. pose proof (Zceil_ub (val p)). pose proof (Zceil_lb (val p)). split; [|apply lt_IZR; lra].
    apply lt_IZR. lra.
Qed.
Lemma fin_zero m s : fin32 m (B754_zero 24 128 s) = B754_zero 24 128 s. Proof. unfold fin32. destruct daz; reflexivity. Qed.
Lemma fsub_z_small m p s : small p -> small (fsub_z m p (B754_zero 24 128 s)).
Proof.
  intros [F H]. unfold fsub_z, op32. rewrite fin_zero. destruct (fin_abs m p F) as [F' A]. apply fout_small.
  destruct (fsub_ok (fin32 m p) (B754_zero 24 128 s) F' eq_refl) as [F2 V].
  - rewrite zero_val, Rminus_0_r. apply Rle_lt_trans with (bpow radix2 (-65)); [|apply bpow_max; lia]. apply RN32_abs_le; [lia|lra].
  - change (b32_minus mode_NE (fin32 m p) (B754_zero 24 128 s)) with (fsub (fin32 m p) (B754_zero 24 128 s)).
    split; [exact F2|]. rewrite V, zero_val, Rminus_0_r. apply RN32_abs_le; [lia|lra].
Qed.
Lemma stoch_small m thr p : coarse thr -> small p -> f_to_Z (stoch_float_z m thr p) = Some 0%Z.
Proof.
  intros C Sp. unfold stoch_float_z. destruct (small_trunc p Sp) as [s ->].
  assert (flt_z m thr (fabs (fsub_z m p (B754_zero 24 128 s))) = false) as ->.
  { destruct (fsub_z_small m p s Sp) as [F H]. set (d := fsub_z m p (B754_zero 24 128 s)) in *. clearbody d.
    unfold flt_z. rewrite (fin_id m thr) by (apply coarse_fl; auto). destruct (fabs_ok d F) as [Fa Va].
    destruct (fin_abs m (fabs d) Fa) as [F' A]. rewrite flt_ok by (try apply C; auto). apply Rlt_bool_false.
    rewrite Va, Rabs_Rabsolu in A. destruct C as [_ C]. apply Rle_trans with (bpow radix2 (-64)); [|exact C].
    apply Rle_trans with (Rabs (val (fin32 m (fabs d)))); [apply RRle_abs|]. apply Rle_trans with (bpow radix2 (-65)); [lra|apply bpow_le; lia]. }
  destruct flt_z; destruct m as [[] []], s; vm_compute; reflexivity.
Qed.
Lemma nonfinite_sub md a b : ~ (finite a /\ finite b) ->
  ~ finite (b32_minus md a b) /\ subnormal32 (b32_minus md a b) = false /\ is_zero32 (b32_minus md a b) = false.
Proof.
  unfold finite. destruct a as [|sa| |], b as [|sb| |]; cbn; intros H; try (exfalso; apply H; split; reflexivity); try (repeat split; auto; discriminate).
  destruct sa, sb; cbn; repeat split; auto; discriminate.
Qed.
Lemma fsub_keep2 m a b : fl32 a = a -> fl32 b = b -> (finite a -> finite b -> normalish (val a - val b)) -> fsub_z m a b = fsub a b.
Proof.
  intros Ea Eb H. unfold fsub_z, op32, fsub. rewrite !fin_id by auto. destruct (both_dec a b) as [[Fa Fb]|N].
  - apply fout_keep with (val a - val b); auto using fsub_fits.
  - destruct (nonfinite_sub mode_ZR a b N) as (_ & S & Zr). destruct (nonfinite_sub mode_NE a b N) as (N' & _). apply fout_nonfinite; auto.
Qed.
Lemma int_normalish n : normalish (IZR n).
Proof.
  destruct (Z.eq_dec n 0) as [->|N]; [left; reflexivity|right]. rewrite <- abs_IZR. apply Rle_trans with 1; [change 1 with (bpow radix2 0); apply bpow_le; lia|].
  apply IZR_le. lia.
Qed.
Lemma normalish_fl x : (finite x -> normalish (val x)) -> fl32 x = x.
Proof. intros H. apply fl_id. exact H. Qed.
(* a number of the format whose magnitude is at least 2^e has a fractional part that is 0 or at least 2^(e-24) *)
Lemma frac_normalish p : finite p -> ~ small p -> normalish (val p - IZR (Ztrunc (val p))).
Proof.
  intros F N. assert (H : bpow radix2 (-65) < Rabs (val p)).
  { destruct (Rle_or_lt (Rabs (val p)) (bpow radix2 (-65))); auto. exfalso. apply N. split; auto. }
  destruct (Req_dec (val p - IZR (Ztrunc (val p))) 0) as [E|E]; [left; exact E|right].
  pose proof (val_fmt p) as Fy. unfold fmt32, generic_format in Fy.
  set (ce := cexp radix2 (FLT_exp (-149) 24) (val p)) in *.
  assert (Hc : (-100 <= ce)%Z).
  { unfold ce, cexp, FLT_exp. assert (-65 < mag radix2 (val p))%Z; [|lia]. apply (mag_gt_bpow radix2). lra. }
  set (M := Ztrunc (scaled_mantissa radix2 (FLT_exp (-149) 24) (val p))) in *.
  assert (E2 : exists k, val p - IZR (Ztrunc (val p)) = IZR k * bpow radix2 (-100)).
  { exists (M * 2 ^ (ce + 100) - Ztrunc (val p) * 2 ^ 100)%Z. rewrite minus_IZR, !mult_IZR.
    change 2%Z with (radix_val radix2). rewrite !IZR_Zpower by lia. rewrite Rmult_minus_distr_r. rewrite !Rmult_assoc, <- !bpow_plus.
    replace (ce + 100 + -100)%Z with ce by lia. replace (100 + -100)%Z with 0%Z by lia. cbn [bpow]. rewrite Rmult_1_r.
    f_equal. exact Fy. }
  destruct E2 as [k Ek]. rewrite Ek in *. assert (k <> 0)%Z by (intros ->; apply E; lra).
  rewrite Rabs_mult, <- abs_IZR, (Rabs_pos_eq (bpow radix2 (-100))) by apply bpow_ge_0.
  apply Rle_trans with (1 * bpow radix2 (-100)); [rewrite Rmult_1_l; apply bpow_le; lia|].
  apply Rmult_le_compat_r; [apply bpow_ge_0|]. apply IZR_le. lia.
Qed.
Lemma frac_exact p : finite p -> fsub p (ftrunc p) = fsub p (ftrunc p) /\ finite (fsub p (ftrunc p)) /\ val (fsub p (ftrunc p)) = val p - IZR (Ztrunc (val p)).
Proof.
  intros F. split; [reflexivity|]. destruct (ftrunc_ok p F) as [Ft Et]. pose proof (val_fmt p) as Fy.
  assert (Efr : RN32 (val p - IZR (Ztrunc (val p))) = val p - IZR (Ztrunc (val p))) by (apply RN32_fmt, frac_fmt; auto).
  destruct (fsub_ok p (ftrunc p) F Ft) as [Fs Es]; rewrite ?Et, ?Efr in *; auto.
  set (y := val p) in *. clearbody y. 
  assert (Hfr : Rabs (y - IZR (Ztrunc y)) < 1).
  { destruct (Rle_or_lt 0 y) as [H0|H0].
    - rewrite (Ztrunc_floor y) by auto. pose proof (Zfloor_lb y). pose proof (Zfloor_ub y). rewrite Rabs_pos_eq by lra. lra.
    - rewrite (Ztrunc_ceil y) by lra. pose proof (Zceil_ub y). pose proof (Zceil_lb y). rewrite Rabs_left1 by lra. lra. }
  apply Rlt_trans with 1; [exact Hfr|]. change 1 with (bpow radix2 0). apply bpow_max. lia.
Qed.
Lemma nonfinite_trunc p : ~ finite p -> ~ finite (ftrunc p).
Proof. unfold finite. destruct p; cbn; auto. Qed.
Lemma fl_fixed x : fl32 x = x -> subnormal32 x = false.
Proof. unfold fl32. destruct (subnormal32 x) eqn:E; auto. intros H. rewrite <- H in E. discriminate E. Qed.
Lemma fabs_fl x : fl32 x = x -> fl32 (fabs x) = fabs x.
Proof.
  intros H. apply fl_fixed in H. apply fl_id. intros F.
  assert (Fx : finite x) by (unfold fabs, finite, b32_abs in *; rewrite is_finite_Babs in F; exact F).
  destruct (fabs_ok x Fx) as [_ ->]. rewrite Rabs_Rabsolu. destruct (sub_false x Fx H) as [->|]; [left; apply Rabs_R0|right; auto].
Qed.
Lemma trunc_fl p : fl32 (ftrunc p) = ftrunc p.
Proof.
  apply normalish_fl. intros F. destruct (finite_dec p) as [Fp|N]; [|apply nonfinite_trunc in N; tauto].
  destruct (ftrunc_ok p Fp) as [_ ->]. apply int_normalish.
Qed.
Lemma stoch_keep m thr p : coarse thr -> ~ small p -> stoch_float_z m thr p = stoch_float thr p.
Proof.
  intros C N. pose proof (not_small_fl p N) as Ep. pose proof (trunc_fl p) as Et. unfold stoch_float_z, stoch_float.
  assert (Es : fsub_z m p (ftrunc p) = fsub p (ftrunc p)).
  { apply fsub_keep2; auto. intros F _. destruct (ftrunc_ok p F) as [_ ->]. apply frac_normalish; auto. }
  rewrite Es, flt_z_keep, flt_z_keep; auto using coarse_fl, f_zero_fl.
  2:{ apply fabs_fl. apply normalish_fl. intros F. destruct (finite_dec p) as [Fp|Np].
      - destruct (frac_exact p Fp) as (_ & _ & ->). apply frac_normalish; auto.
      - exfalso. assert (~ (finite p /\ finite (ftrunc p))) as N2 by tauto. apply (nonfinite_sub mode_NE) in N2. destruct N2 as [N2 _]. apply N2. exact F. }
  set (b := flt thr _). set (s := flt p f_zero). clearbody b s.
  assert (Ea : (if s then fmul_z m f_neg_one (if b then f_one else f_zero) else if b then f_one else f_zero) =
               (if s then fmul f_neg_one (if b then f_one else f_zero) else if b then f_one else f_zero)).
  { destruct s; [|reflexivity]. apply fmul_keep; [reflexivity|destruct b; reflexivity|]. intros _ _. destruct f_neg_one_ok as [_ ->].
    destruct b; [destruct f_one_ok as [_ ->]|destruct f_zero_ok as [_ ->]]; rewrite <- mult_IZR; apply int_normalish. }
  rewrite Ea. set (adj := if s then fmul f_neg_one _ else _).
  assert (Ha : finite adj /\ exists n, val adj = IZR n).
  { destruct f_zero_ok as [F0 E0], f_one_ok as [F1 E1], f_neg_one_ok as [Fn En].
    unfold adj. destruct s, b.
    - destruct (fmul_ok f_neg_one f_one Fn F1) as [A B]; rewrite En, E1 in *; replace (-1 * 1) with (IZR (-1)) in * by lra;
        rewrite RN32_fmt in * by (apply fmt32_int; lia); [|split; [exact A|exists (-1)%Z; exact B]].
      rewrite Rabs_left by lra. replace (- -1) with (bpow radix2 0) by (cbn; lra). apply bpow_max. lia.
    - destruct (fmul_ok f_neg_one f_zero Fn F0) as [A B]; rewrite En, E0 in *; replace (-1 * 0) with 0 in * by lra;
        rewrite RN32_0 in *; [|split; [exact A|exists 0%Z; exact B]]. rewrite Rabs_R0. apply bpow_gt_0.
    - split; [exact F1|exists 1%Z; exact E1].
    - split; [exact F0|exists 0%Z; exact E0]. }
  clearbody adj. destruct Ha as [Fa [n Va]]. apply fadd_keep; auto.
  - apply normalish_fl. intros _. rewrite Va. apply int_normalish.
  - intros Ft _. destruct (finite_dec p) as [Fp|Np]; [|apply nonfinite_trunc in Np; tauto].
    destruct (ftrunc_ok p Fp) as [_ ->]. rewrite Va, <- plus_IZR. apply int_normalish.
Qed.
Lemma stoch_lane m thr x inv : coarse thr -> good_inv inv -> f_to_Z (stoch_float_z m thr (fmul_z m x inv)) = f_to_Z (stoch_float thr (fmul x inv)).
Proof.
  intros C G. destruct (fmul_z_cases m x inv G) as [->|[S1 S2]].
  - destruct (small_dec (fmul x inv)) as [Sp|N].
    + rewrite <- stoch_ieee, !stoch_small by auto. reflexivity.
    + rewrite stoch_keep by auto. reflexivity.
  - rewrite <- stoch_ieee, !stoch_small by auto. reflexivity.
Qed.
Lemma q_stoch_keep m mx thr inv zp : coarse thr -> good_inv inv -> q_stochastic_z m mx thr inv zp = q_stochastic mx thr inv zp.
Proof.
  intros C G. extensionality x. rewrite q_stochastic_float. change (q_stochastic_z m mx thr inv zp x) with
    (q <- f32_to_i64 (stoch_float_z m thr (fmul_z m x inv)) ;; integral <- i64 (q + zp) ;; Ok (clampZ 0 mx integral)).
  unfold f32_to_i64. rewrite stoch_lane by auto. reflexivity.
Qed.
Lemma q_step_keep m rm mx thr inv zp : (rm = RM_STOCHASTIC -> coarse thr) -> good_inv inv ->
  quant_step_scalar_z m rm mx thr inv zp = quant_step_scalar rm mx thr inv zp.
Proof.
  intros C G. extensionality x. destruct rm; cbn [quant_step_scalar_z quant_step_scalar]; [rewrite q_i64_keep by auto|rewrite q_stoch_keep by auto]; reflexivity.
Qed.

(** ** The reciprocal *)
Definition flush_scale (scale : f32) : Prop := finite scale /\ bpow radix2 (-60) <= val scale <= bpow radix2 126.
Lemma flush_scale_pos scale : flush_scale scale -> 0 < val scale.
Proof. intros [_ [H _]]. pose proof (bpow_gt_0 radix2 (-60)). lra. Qed.
Lemma flush_scale_fl scale : flush_scale scale -> fl32 scale = scale.
Proof.
  intros H. pose proof (flush_scale_pos _ H). apply fl_id. intros _. right. rewrite Rabs_pos_eq by lra. apply Rle_trans with (bpow radix2 (-60)); [apply bpow_le; lia|apply H].
Qed.
Lemma inv_range scale : flush_scale scale -> minn <= 1 / val scale <= bpow radix2 60.
Proof.
  intros H. pose proof (flush_scale_pos _ H) as P. destruct H as [_ [L U]]. unfold minn, Rdiv. rewrite Rmult_1_l. split.
  - change (-126)%Z with (Z.opp 126); rewrite (bpow_opp radix2 126). apply Rinv_le; auto.
  - change 60%Z with (Z.opp (-60)) at 1. rewrite (bpow_opp radix2 (-60)). apply Rinv_le; auto. apply bpow_gt_0.
Qed.
Lemma inv_keep m scale : flush_scale scale -> fdiv_z m f_one scale = fdiv f_one scale.
Proof.
  intros H. pose proof (flush_scale_pos _ H). destruct f_one_ok as [F1 V1]. apply fdiv_keep; auto.
  - apply flush_scale_fl; auto.
  - lra.
  - rewrite V1. right. pose proof (inv_range _ H). pose proof minn_pos. rewrite Rabs_pos_eq; lra.
Qed.
Lemma good_inv_of scale : flush_scale scale -> good_inv (fdiv f_one scale).
Proof.
  intros H. pose proof (flush_scale_pos _ H). destruct f_one_ok as [F1 V1]. pose proof (inv_range _ H) as [L U].
  pose proof (fdiv_fits mode_NE f_one scale F1) as G. unfold fits in G. cbn [round_mode] in G. fold (RN32 (val f_one / val scale)) in G. rewrite V1 in G.
  assert (B1 : minn <= RN32 (1 / val scale)) by (rewrite <- (round_minn mode_NE); apply round_le; auto with typeclass_instances).
  assert (B2 : RN32 (1 / val scale) <= bpow radix2 60).
  { apply round_le_generic; auto with typeclass_instances. apply fmt32_bpow. lia. }
  pose proof minn_pos. rewrite Rlt_bool_true in G.
  - destruct G as [V F]; [lra|]. split; [exact F|]. change (b32_div mode_NE f_one scale) with (fdiv f_one scale) in V. rewrite V. split; auto.
  - rewrite Rabs_pos_eq by lra. eapply Rle_lt_trans; [exact B2|apply bpow_max; lia].
Qed.

(** ** The NEON block *)
Lemma vcvta_lane m x inv : good_inv inv -> vcvta (fmul_z m x inv) = vcvta (fmul x inv).
Proof.
  intros G. destruct (fmul_z_cases m x inv G) as [->|[S1 S2]]; [reflexivity|]. unfold vcvta. rewrite !fround_small by auto. reflexivity.
Qed.
Lemma neon_lanes m inv n l : good_inv inv -> map vcvta (mul_ps_z m l (set1 n inv)) = map vcvta (mul_ps l (set1 n inv)).
Proof.
  intros G. unfold mul_ps_z, mul_ps, set1. revert l. induction n as [|n IH]; intros [|x l]; try reflexivity. cbn [repeat map2 map]. rewrite IH, vcvta_lane by auto. reflexivity.
Qed.
Lemma blk_neon_keep m inv zp : good_inv inv -> blk_f32_u8_neon_z m inv zp = blk_f32_u8_neon inv zp.
Proof. intros G. extensionality b. unfold blk_f32_u8_neon_z, blk_f32_u8_neon. rewrite !neon_lanes by auto. reflexivity. Qed.

(** ** The kernels *)
Section Blocks.
Variables (m : fmode) (inv : f32) (zp : Z).
Hypothesis G : good_inv inv.
Let V n : vround_z m n inv zp = vround n inv zp := vround_keep m n inv zp G.
Lemma blk1 : blk_f32_u8_avx512_z m inv zp = blk_f32_u8_avx512 inv zp.
Proof. unfold blk_f32_u8_avx512_z, blk_u8_avx512_groups_z. rewrite V. reflexivity. Qed.
Lemma blk2 : blk_bf16_u8_avx512_z m inv zp = blk_bf16_u8_avx512 inv zp.
Proof. unfold blk_bf16_u8_avx512_z, blk_u8_avx512_groups_z. rewrite V. reflexivity. Qed.
Lemma blk3 : blk_f32_u8_avx2_z m inv zp = blk_f32_u8_avx2 inv zp.
Proof. unfold blk_f32_u8_avx2_z, blk_u8_avx2_z. rewrite V. reflexivity. Qed.
Lemma blk4 : blk_bf16_u8_avx2_z m inv zp = blk_bf16_u8_avx2 inv zp.
Proof. unfold blk_bf16_u8_avx2_z, blk_u8_avx2_z. rewrite V. reflexivity. Qed.
Lemma blk5 : blk_f32_u8_sse_z m inv zp = blk_f32_u8_sse inv zp.
Proof. unfold blk_f32_u8_sse_z, blk_u8_sse_z. rewrite V. reflexivity. Qed.
Lemma blk6 : blk_bf16_u8_sse_z m inv zp = blk_bf16_u8_sse inv zp.
Proof. unfold blk_bf16_u8_sse_z, blk_u8_sse_z. rewrite V. reflexivity. Qed.
Lemma blk7 : blk_f32_u4_avx512_z m inv zp = blk_f32_u4_avx512 inv zp.
Proof. unfold blk_f32_u4_avx512_z, blk_u4_avx512_z. rewrite V. reflexivity. Qed.
Lemma blk8 : blk_f32_u4_avx2_z m inv zp = blk_f32_u4_avx2 inv zp.
Proof. unfold blk_f32_u4_avx2_z, blk_u4_avx2_z. rewrite V. reflexivity. Qed.
Lemma blk9 : blk_f32_u4_sse_z m inv zp = blk_f32_u4_sse inv zp.
Proof. unfold blk_f32_u4_sse_z, blk_u4_sse_z. rewrite V. reflexivity. Qed.
Lemma blk10 : blk_bf16_u4_avx512_z m inv zp = blk_bf16_u4_avx512 inv zp.
Proof. unfold blk_bf16_u4_avx512_z, blk_u4_avx512_z. rewrite V. reflexivity. Qed.
Lemma blk11 : blk_bf16_u4_avx2_z m inv zp = blk_bf16_u4_avx2 inv zp.
Proof. unfold blk_bf16_u4_avx2_z, blk_u4_avx2_z. rewrite V. reflexivity. Qed.
Lemma blk12 : blk_bf16_u4_sse_z m inv zp = blk_bf16_u4_sse inv zp.
Proof. unfold blk_bf16_u4_sse_z, blk_u4_sse_z. rewrite V. reflexivity. Qed.
Lemma blk13 : blk_bf16_u2_avx512_z m inv zp = blk_bf16_u2_avx512 inv zp.
Proof. unfold blk_bf16_u2_avx512_z. rewrite V. reflexivity. Qed.
End Blocks.
Lemma quant_generic_keep m A din dout rm oaddr numel scale thr zp : flush_scale scale -> (rm = RM_STOCHASTIC -> coarse thr) ->
  quant_generic_z m A din dout rm oaddr numel scale thr zp = quant_generic A din dout rm oaddr numel scale thr zp.
Proof.
  intros H C. pose proof (good_inv_of _ H) as G. unfold quant_generic_z, quant_generic.
  unfold quant_f32_to_uint8_nearest_z, quant_f32_to_uint4_nearest_z, quant_bf16_to_uint8_nearest_z, quant_bf16_to_uint4_nearest_z, quant_bf16_to_uint2_nearest_z.
  rewrite inv_keep, q_step_keep, !q_i32_keep, blk1, blk2, blk3, blk4, blk5, blk6, blk7, blk8, blk9, blk10, blk11, blk12, blk13, blk_neon_keep by auto.
  reflexivity.
Qed.
