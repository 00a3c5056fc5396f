(** FlushFacts3.v -- the dequantization kernels of Flush.v (SET), the fused kernel (SET) and the calls. *)
From Coq Require Import ZArith List Lia Bool Reals Lra Psatz FunctionalExtensionality.
From Flocq Require Import Core BinarySingleNaN Binary Bits.
From Verif Require Import Base Floats Simd Dtypes QuantKernels DequantKernels Context MinMax Spec ApiSpec FloatFacts FloatFacts2 FloatFacts3 QuantLanes Contract ContractFacts
  Bf16Spec Bf16Facts PropsBadScale Flush FlushFacts FlushFacts2.
Import ListNotations.
Local Open Scope R_scope.

(** ** Numbers that are 0 or at least 2^e *)
Definition above (e : Z) (x : R) : Prop := x = 0 \/ bpow radix2 e <= Rabs x.
Lemma above_normalish e x : (-126 <= e)%Z -> above e x -> normalish x.
Proof. intros He [H|H]; [left; auto|right]. apply Rle_trans with (bpow radix2 e); auto. apply bpow_le. exact He. Qed.
Lemma above_fl e x : (-126 <= e)%Z -> (finite x -> above e (val x)) -> fl32 x = x.
Proof. intros He H. apply normalish_fl. intros F. apply (above_normalish e); auto. Qed.
Lemma above_mult e f x y : above e x -> above f y -> above (e + f) (x * y).
Proof.
  intros [->|H] [->|K]; unfold above; rewrite ?Rmult_0_l, ?Rmult_0_r; auto. right. rewrite Rabs_mult, bpow_plus.
  apply Rmult_le_compat; auto using bpow_ge_0.
Qed.
Lemma above_RN e x : (-149 <= e)%Z -> above e x -> above e (RN32 x).
Proof.
  intros He [->|H]; [left; apply RN32_0|right]. apply abs_round_ge_generic; auto with typeclass_instances. apply fmt32_bpow. exact He.
Qed.
Lemma above_grid e x : (-126 <= e)%Z -> finite x -> above e (val x) -> exists k, val x = IZR k * bpow radix2 (e - 23).
Proof.
  intros He F [H|H]; [exists 0%Z; rewrite H; lra|].
  pose proof (val_fmt x) as Fy. unfold fmt32, generic_format in Fy. set (ce := cexp radix2 (FLT_exp (-149) 24) (val x)) in *.
  assert (Hc : (e - 23 <= ce)%Z).
  { unfold ce, cexp, FLT_exp. assert (e < mag radix2 (val x))%Z; [|lia]. apply (mag_gt_bpow radix2). exact H. }
  set (M := Ztrunc (scaled_mantissa radix2 (FLT_exp (-149) 24) (val x))) in *.
  exists (M * 2 ^ (ce - (e - 23)))%Z. rewrite mult_IZR. change 2%Z with (radix_val radix2). rewrite IZR_Zpower by lia.
  rewrite Rmult_assoc, <- bpow_plus. replace (ce - (e - 23) + (e - 23))%Z with ce by lia. exact Fy.
Qed.
Lemma grid_above k e : above e (IZR k * bpow radix2 e).
Proof.
  destruct (Z.eq_dec k 0) as [->|N]; [left; lra|right]. rewrite Rabs_mult, <- abs_IZR, (Rabs_pos_eq (bpow radix2 e)) by apply bpow_ge_0.
  rewrite <- (Rmult_1_l (bpow radix2 e)) at 1. apply Rmult_le_compat_r; [apply bpow_ge_0|]. apply IZR_le. lia.
Qed.
Lemma scale_above scale : flush_scale scale -> above (-60) (val scale).
Proof. intros H. pose proof (flush_scale_pos _ H). right. rewrite Rabs_pos_eq by lra. apply H. Qed.
Lemma fofZ_above z : finite (f32_of_Z z) -> above 0 (val (f32_of_Z z)).
Proof.
  intros F. pose proof (binary_normalize_correct 24 128 Hprec32 Hmax32 mode_NE z 0 false) as C. fold (f32_of_Z z) in C. cbv zeta in C.
  assert (EF : F2R (Float radix2 z 0) = IZR z) by (unfold F2R; cbn; lra). rewrite EF in C.
  destruct (Rlt_bool_spec (Rabs (round radix2 (SpecFloat.fexp 24 128) (round_mode mode_NE) (IZR z))) (bpow radix2 128)) as [L|L].
  - destruct C as (C & _). unfold val. rewrite C. apply above_RN; [lia|]. destruct (Z.eq_dec z 0) as [->|N]; [left; reflexivity|right].
    rewrite <- abs_IZR. change (bpow radix2 0) with 1. apply IZR_le. lia.
  - exfalso. unfold finite in F. destruct (f32_of_Z z); try discriminate; unfold B2FF, binary_overflow in C; cbn in C; discriminate.
Qed.
Lemma fofZ_fl z : fl32 (f32_of_Z z) = f32_of_Z z.
Proof. apply (above_fl 0); [lia|]. apply fofZ_above. Qed.

Lemma mul_scale_keep m a e scale : (-60 <= e)%Z -> fl32 a = a -> (finite a -> above e (val a)) -> flush_scale scale -> fmul_z m a scale = fmul a scale.
Proof.
  intros He Ea Ha H. apply fmul_keep; auto using flush_scale_fl. intros F _. apply (above_normalish (e + -60)); [lia|].
  apply above_mult; auto using scale_above.
Qed.
Lemma dq_mul_keep m d scale : flush_scale scale -> fmul_z m (f32_of_Z d) scale = fmul (f32_of_Z d) scale.
Proof. intros H. apply (mul_scale_keep m _ 0); auto using fofZ_fl, fofZ_above. lia. Qed.
Lemma dq_i32_keep m scale zp : flush_scale scale -> dq_i32_z m scale zp = dq_i32 scale zp.
Proof. intros H. extensionality q. unfold dq_i32_z, dq_i32. destruct (i32 (q - zp)); cbn [bind]; auto. rewrite dq_mul_keep by auto. reflexivity. Qed.
Lemma dq_i64_keep m scale zp : flush_scale scale -> dq_i64_z m scale zp = dq_i64 scale zp.
Proof. intros H. extensionality q. unfold dq_i64_z, dq_i64. destruct (i64 (q - zp)); cbn [bind]; auto. rewrite dq_mul_keep by auto. reflexivity. Qed.
Lemma fofZ_grid z : finite (f32_of_Z z) -> exists k, val (f32_of_Z z) = IZR k * bpow radix2 (-23).
Proof. intros F. apply (above_grid 0); auto; [lia|]. apply fofZ_above. exact F. Qed.
Lemma fsub_above a b e : (-126 <= e)%Z -> finite a -> finite b -> above e (val a - val b) -> finite (fsub a b) -> above e (val (fsub a b)).
Proof.
  intros He Fa Fb H F. pose proof (fsub_fits mode_NE a b Fa Fb) as G. unfold fits in G. cbn [round_mode] in G.
  change (round radix2 fexp32 ZnearestE (val a - val b)) with (RN32 (val a - val b)) in G.
  destruct (Rlt_bool_spec (Rabs (RN32 (val a - val b))) (bpow radix2 128)) as [L|L].
  - destruct G as [V _]. change (b32_minus mode_NE a b) with (fsub a b) in V. rewrite V. apply above_RN; auto. lia.
  - destruct G as [G1 G2]. change (b32_minus mode_NE a b) with (fsub a b) in G1, G2.
    exfalso. pose proof (Bminus_correct 24 128 eq_refl eq_refl binop_nan_pl32 mode_NE a b Fa Fb) as C. cbv zeta in C.
    rewrite Rlt_bool_false in C by exact L. destruct C as [C _].
    change (Bminus 24 128 eq_refl eq_refl binop_nan_pl32 mode_NE a b) with (fsub a b) in C. unfold finite in F.
    destruct (fsub a b); try discriminate; unfold binary_overflow in C; cbn in C; discriminate.
Qed.
Lemma dq_sub_keep m scale zp : flush_scale scale -> dq_sub_z m scale zp = dq_sub scale zp.
Proof.
  intros H. extensionality q. unfold dq_sub_z, dq_sub. f_equal.
  assert (D : finite (f32_of_Z q) -> finite (f32_of_Z zp) -> above (-23) (val (f32_of_Z q) - val (f32_of_Z zp))).
  { intros Fa Fb. destruct (fofZ_grid q Fa) as [k ->]. destruct (fofZ_grid zp Fb) as [k' ->]. rewrite <- Rmult_minus_distr_r, <- minus_IZR. apply grid_above. }
  rewrite fsub_keep2; auto using fofZ_fl.
  2:{ intros Fa Fb. apply (above_normalish (-23)); [lia|auto]. }
  assert (A : finite (fsub (f32_of_Z q) (f32_of_Z zp)) -> above (-23) (val (fsub (f32_of_Z q) (f32_of_Z zp)))).
  { intros F. destruct (both_dec (f32_of_Z q) (f32_of_Z zp)) as [[Fa Fb]|N].
    - apply fsub_above; auto. lia.
    - apply (nonfinite_sub mode_NE) in N. destruct N as [N _]. contradiction. }
  apply (mul_scale_keep m _ (-23)); auto; [lia|]. apply (above_fl (-23)); [lia|auto].
Qed.
Lemma lanes_mul_keep m n scale zp : flush_scale scale -> lanes_mul_z m n scale zp = lanes_mul n scale zp.
Proof.
  intros H. extensionality q. unfold lanes_mul_z, lanes_mul, mul_ps_z, mul_ps, set1, cvtepi32_ps, sub_epi32. revert q.
  induction n as [|n IH]; intros [|x q]; try reflexivity. cbn [repeat map2 map]. rewrite IH, dq_mul_keep by auto. reflexivity.
Qed.
Lemma fneg_fl x : fl32 x = x -> fl32 (fneg x) = fneg x.
Proof.
  intros H. apply fl_fixed in H. apply fl_id. intros F.
  assert (Fx : finite x) by (unfold fneg, finite, b32_opp in *; rewrite is_finite_Bopp in F; exact F).
  assert (val (fneg x) = - val x) as -> by (unfold fneg, val, b32_opp; apply B2R_Bopp).
  rewrite Rabs_Ropp. destruct (sub_false x Fx H) as [->|]; [left; apply Ropp_0|right; auto].
Qed.
Lemma fneg_above e x : (finite x -> above e (val x)) -> finite (fneg x) -> above e (val (fneg x)).
Proof.
  intros H F. assert (Fx : finite x) by (unfold fneg, finite, b32_opp in *; rewrite is_finite_Bopp in F; exact F).
  assert (val (fneg x) = - val x) as -> by (unfold fneg, val, b32_opp; apply B2R_Bopp).
  destruct (H Fx) as [->|K]; [left; apply Ropp_0|right]. rewrite Rabs_Ropp. exact K.
Qed.
Lemma vbias_keep m scale zp : flush_scale scale -> vbias_z m scale zp = vbias scale zp.
Proof.
  intros H. unfold vbias_z, vbias. apply (mul_scale_keep m _ 0); auto using fneg_fl, fofZ_fl; [lia|]. apply fneg_above, fofZ_above.
Qed.
Lemma fmul_above a b e : (-126 <= e)%Z -> finite a -> finite b -> above e (val a * val b) -> finite (fmul a b) -> above e (val (fmul a b)).
Proof.
  intros He Fa Fb H F. destruct (fmul_cases a b Fa Fb) as [(_ & -> & _)|[E _]]; [apply above_RN; auto; lia|]. rewrite E in F. discriminate F.
Qed.
Lemma vbias_above scale zp : flush_scale scale -> finite (vbias scale zp) -> above (-60) (val (vbias scale zp)).
Proof.
  intros H F. unfold vbias in *. destruct (both_dec (fneg (f32_of_Z zp)) scale) as [[Fa Fb]|N].
  - apply fmul_above; auto; [lia|]. apply (above_mult 0 (-60)); auto using scale_above. apply fneg_above; auto. apply fofZ_above.
  - apply (nonfinite_mul mode_NE) in N. destruct N as [N _]. contradiction.
Qed.
Lemma nonfinite_fma md a b c : ~ (finite a /\ finite b /\ finite c) ->
  ~ finite (b32_fma md a b c) /\ subnormal32 (b32_fma md a b c) = false /\ is_zero32 (b32_fma md a b c) = false.
Proof.
  unfold finite. destruct a as [sa|sa| |sa], b as [sb|sb| |sb], c as [sc|sc| |sc]; cbn; intros H;
    try (exfalso; apply H; repeat split; reflexivity); try (repeat split; auto; discriminate);
    destruct sa, sb, sc; cbn; repeat split; auto; discriminate.
Qed.
Lemma ffma_keep2 m a b c : fl32 a = a -> fl32 b = b -> fl32 c = c -> (finite a -> finite b -> finite c -> normalish (val a * val b + val c)) ->
  ffma_z m a b c = ffma a b c.
Proof.
  intros Ea Eb Ec H. destruct (both_dec a b) as [[Fa Fb]|N]; [destruct (finite_dec c) as [Fc|N]|].
  - apply ffma_keep; auto.
  - unfold ffma_z, ffma. rewrite !fin_id by auto. assert (N2 : ~ (finite a /\ finite b /\ finite c)) by tauto.
    destruct (nonfinite_fma mode_ZR a b c N2) as (_ & S & Zr). destruct (nonfinite_fma mode_NE a b c N2) as (N' & _). apply fout_nonfinite; auto.
  - unfold ffma_z, ffma. rewrite !fin_id by auto. assert (N2 : ~ (finite a /\ finite b /\ finite c)) by tauto.
    destruct (nonfinite_fma mode_ZR a b c N2) as (_ & S & Zr). destruct (nonfinite_fma mode_NE a b c N2) as (N' & _). apply fout_nonfinite; auto.
Qed.
Lemma fma_lane m scale zp q : flush_scale scale -> ffma_z m (f32_of_Z q) scale (vbias scale zp) = ffma (f32_of_Z q) scale (vbias scale zp).
Proof.
  intros H. apply ffma_keep2; auto using fofZ_fl, flush_scale_fl.
  - apply (above_fl (-60)); [lia|]. apply vbias_above. exact H.
  - intros Fa Fb Fc. destruct (fofZ_grid q Fa) as [k1 ->]. destruct (above_grid (-60) scale ltac:(lia) Fb (scale_above _ H)) as [k2 ->].
    destruct (above_grid (-60) _ ltac:(lia) Fc (vbias_above _ _ H Fc)) as [k3 ->].
    apply (above_normalish (-106)); [lia|].
    replace (IZR k1 * bpow radix2 (-23) * (IZR k2 * bpow radix2 (-60 - 23)) + IZR k3 * bpow radix2 (-60 - 23)) with (IZR (k1 * k2 + k3 * 2 ^ 23) * bpow radix2 (-106)); [apply grid_above|].
    rewrite plus_IZR, !mult_IZR. change (-106)%Z with (-23 + -83)%Z. change (-60 - 23)%Z with (-83)%Z.
    assert (IZR (2 ^ 23) * bpow radix2 (-23) = 1) by (change (IZR (2 ^ 23)) with (bpow radix2 23); rewrite <- bpow_plus; reflexivity).
    rewrite bpow_plus. rewrite Rmult_plus_distr_r. f_equal; [ring|].
    replace (IZR k3 * IZR (2 ^ 23) * (bpow radix2 (-23) * bpow radix2 (-83))) with (IZR k3 * (IZR (2 ^ 23) * bpow radix2 (-23)) * bpow radix2 (-83)) by ring.
    rewrite H0. ring.
Qed.
Lemma lanes_fma_keep m n scale zp : flush_scale scale -> lanes_fma_z m n scale zp = lanes_fma n scale zp.
Proof.
  intros H. extensionality q. unfold lanes_fma_z, lanes_fma. rewrite vbias_keep by auto. unfold set1, cvtepi32_ps. revert q.
  induction n as [|n IH]; intros [|x q]; try reflexivity. cbn [repeat map fmadd_ps_z fmadd_ps]. rewrite IH, fma_lane by auto. reflexivity.
Qed.

(** ** Kernels *)
Lemma put_f32_set m : put_f32_z m RO_SET = put_f32 RO_SET. Proof. reflexivity. Qed.
Lemma put_bf16_set m : put_bf16_z m RO_SET = put_bf16 RO_SET. Proof. reflexivity. Qed.
Lemma reg_f32_set m l : reg_f32_z m RO_SET l = reg_f32 RO_SET l. Proof. reflexivity. Qed.
Lemma reg_bf16_set m A l : reg_bf16_z m A RO_SET l = reg_bf16 A RO_SET l. Proof. reflexivity. Qed.
Lemma dequant_generic_keep m A din dout numel scale zp : flush_scale scale ->
  dequant_generic_z m A din dout RO_SET numel scale zp = dequant_generic A din dout RO_SET numel scale zp.
Proof.
  intros H. unfold dequant_generic_z, dequant_generic, dequant_uint8_to_f32_z, dequant_uint4_to_f32_z, dequant_uint8_to_bf16_z, dequant_uint4_to_bf16_z,
    dequant_uint2_to_bf16_z, dequant_uint2_f32_z.
  rewrite dq_i64_keep, !dq_i32_keep, dq_sub_keep by auto. rewrite !lanes_fma_keep by auto.
  assert (E : forall n zp, lanes_mul_z m n scale zp = lanes_mul n scale zp) by (intros; apply lanes_mul_keep; auto).
  destruct din, dout; try reflexivity; destruct A; rewrite ?E; reflexivity.
Qed.

(** ** The fused kernel *)
#[local] Instance valid16 : Valid_exp (FLT_exp (-133) 8).
Proof. apply FLT_exp_valid. reflexivity. Qed.
Lemma fmt16_bpow e : (-133 <= e)%Z -> generic_format radix2 (FLT_exp (-133) 8) (bpow radix2 e).
Proof. intros H. apply generic_format_bpow. unfold FLT_exp. lia. Qed.
Lemma above_bf16 e x : (-126 <= e)%Z -> finite x -> above e (val x) -> Rabs (val x) <= bpow radix2 127 ->
  finite (f32_of_bf16 (bf16_of_f32 x)) /\ above e (val (f32_of_bf16 (bf16_of_f32 x))).
Proof.
  intros He F H U. pose proof (C17_round_to_nearest_even x F) as C. cbv zeta in C. destruct C as (_ & _ & C).
  assert (Rabs (RN16 (val x)) <= bpow radix2 127).
  { apply abs_round_le_generic; auto with typeclass_instances. apply fmt16_bpow. lia. }
  rewrite Rlt_bool_true in C. 2:{ eapply Rle_lt_trans; [exact H0|]. apply bpow_lt. lia. }
  change (f32_of_bf16 (bf16_of_f32 x)) with (bf16_to_f32 (bf16_of_f32 x)) || rewrite f32_of_bf16_eq.
  destruct C as [C1 ->]. split; [exact C1|]. destruct H as [->|H]; [left; apply RN16_0|right].
  apply abs_round_ge_generic; auto with typeclass_instances. apply fmt16_bpow. lia.
Qed.
Lemma bf16_mul_keep m d scale : (Z.abs d <= 2 ^ 64)%Z -> flush_scale scale ->
  bf16_mul_z m (bf16_of_f32 (f32_of_Z d)) (bf16_of_f32 scale) = bf16_mul (bf16_of_f32 (f32_of_Z d)) (bf16_of_f32 scale).
Proof.
  intros Hd H. unfold bf16_mul_z, bf16_mul. f_equal.
  destruct (f32_of_Z_finite d) as [Fd Vd]; [lia|].
  destruct (above_bf16 0 (f32_of_Z d)) as [F1 A1]; [lia|auto|apply fofZ_above; auto| |].
  { rewrite Vd. apply RN32_abs_le; [lia|]. rewrite <- abs_IZR. change 127%Z with (64 + 63)%Z. apply Rle_trans with (bpow radix2 64); [|apply bpow_le; lia].
    change (bpow radix2 64) with (IZR (2 ^ 64)). apply IZR_le. exact Hd. }
  destruct (above_bf16 (-60) scale) as [F2 A2]; [lia|apply H|apply scale_above; auto| |].
  { pose proof (flush_scale_pos _ H). rewrite Rabs_pos_eq by lra. apply Rle_trans with (bpow radix2 126); [apply H|apply bpow_le; lia]. }
  apply fmul_keep.
  - apply (above_fl 0); [lia|auto].
  - apply (above_fl (-60)); [lia|auto].
  - intros _ _. apply (above_normalish (0 + -60)); [lia|]. apply above_mult; auto.
Qed.
Lemma dq_bf16_keep m scale zp : flush_scale scale -> dq_i64_bf16_z m scale zp = dq_i64_bf16 scale zp.
Proof.
  intros H. extensionality q. unfold dq_i64_bf16_z, dq_i64_bf16, i64. destruct (in_i64 (q - zp)) eqn:E; cbn [bind]; auto.
  rewrite bf16_mul_keep; auto. unfold in_i64 in E. apply andb_prop in E. lia.
Qed.
Lemma requant_generic_keep m d dq rm numel scale thr zp : flush_scale scale -> (rm = RM_STOCHASTIC -> coarse thr) ->
  requant_generic_z m d dq rm RO_SET numel scale thr zp = requant_generic d dq rm RO_SET numel scale thr zp.
Proof.
  intros H C. unfold requant_generic_z, requant_generic, ract_z.
  assert (R : requant_elem_z m d dq rm RO_SET scale thr zp = requant_elem d dq rm RO_SET scale thr zp).
  { extensionality b. extensionality o. unfold requant_elem_z, requant_elem. rewrite inv_keep, q_step_keep, dq_bf16_keep, dq_i64_keep by auto using good_inv_of. reflexivity. }
  rewrite R. reflexivity.
Qed.

(** ** The calls *)
Lemma job_entry_keep m A oaddr d ti tc : flush_scale (d_scale d) -> (d_rounding d = RM_STOCHASTIC -> coarse (d_threshold d)) ->
  (match d_type d with CMD_QUANT => True | _ => d_reducing d = RO_SET end) ->
  job_entry_z m A oaddr d ti tc = job_entry A oaddr d ti tc.
Proof.
  intros H C R. unfold job_entry_z, job_entry, quantize_dispatch. destruct (partition_row d ti tc) as [[[o n]|]| |]; cbn [bind]; auto.
  destruct (select_kernel d) as [k| |] eqn:K; cbn [bind]; auto. f_equal. f_equal.
  destruct k as [src dst rm|inn outt op|src dst rm op]; cbn [call_kernel_z call_kernel].
  - apply quant_generic_keep; auto. intros ->. apply C. clear -K.
    destruct d as [ty n s z i o r re th]; destruct ty, i, o, r, re; cbn in *; try discriminate; injection K as <- <-; reflexivity.
  - assert (op = RO_SET) as ->; [|apply dequant_generic_keep; auto]. clear -K R.
    destruct d as [ty n s z i o r re th]; destruct ty, i, o, r, re; cbn in *; try discriminate; injection K as <- <- <-; auto.
  - assert (op = RO_SET /\ rm = d_rounding d) as [-> ->]; [|apply requant_generic_keep; auto]. clear -K R.
    destruct d as [ty n s z i o r re th]; destruct ty, i, o, r, re; cbn in *; try discriminate; injection K as <- <- <- <-; auto.
Qed.
Lemma run_command_keep md A nt oaddr d thr : flush_scale (d_scale d) -> (d_rounding d = RM_STOCHASTIC -> coarse thr) ->
  (match d_type d with CMD_QUANT => True | _ => d_reducing d = RO_SET end) ->
  run_command_z md A nt oaddr d thr = run_command A nt oaddr d thr.
Proof.
  intros H C R. unfold run_command_z, run_command. f_equal. apply map_ext. intros ti. apply job_entry_keep.
  - destruct (d_rounding d); auto.
  - destruct (d_rounding d) eqn:E; cbn; auto. intros Q. rewrite Q in E. discriminate.
  - destruct (d_rounding d); auto.
Qed.
Lemma quantize_keep md A nt oaddr is din os dout scale zp rm thr : flush_scale scale -> (rm = RM_STOCHASTIC -> coarse thr) ->
  quantize_z md A nt oaddr is din os dout scale zp rm thr = quantize A nt oaddr is din os dout scale zp rm thr.
Proof. intros H C. unfold quantize_z, quantize. rewrite run_command_keep by (cbn; auto). reflexivity. Qed.
Lemma dequantize_keep md A nt oaddr is din os dout scale zp : flush_scale scale ->
  dequantize_z md A nt oaddr is din os dout scale zp RO_SET = dequantize A nt oaddr is din os dout scale zp RO_SET.
Proof. intros H. unfold dequantize_z, dequantize. rewrite run_command_keep by (cbn; auto; discriminate). reflexivity. Qed.
Lemma fused_keep md A nt oaddr is d os dq scale zp rm thr : flush_scale scale -> (rm = RM_STOCHASTIC -> coarse thr) ->
  quantize_dequantize_fused_z md A nt oaddr is d os dq scale zp rm RO_SET thr = quantize_dequantize_fused A nt oaddr is d os dq scale zp rm RO_SET thr.
Proof. intros H C. unfold quantize_dequantize_fused_z, quantize_dequantize_fused. rewrite run_command_keep by (cbn; auto). reflexivity. Qed.
