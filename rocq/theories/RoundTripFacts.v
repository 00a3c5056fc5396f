(** RoundTripFacts.v -- error analysis of quantization followed by dequantization, and the other way round. *)
From Coq Require Import ZArith List Lia Bool Reals Lra Psatz.
From Flocq Require Import Core Relative Binary Bits.
From Verif Require Import Base Floats Dtypes Spec FloatFacts QuantLanes.
Import ListNotations.
Local Open Scope R_scope.

(** unit roundoff of binary32 *)
Definition u32r : R := / 16777216.
Lemma u32r_bpow : / 2 * bpow radix2 (- (24) + 1) = u32r.
Proof. unfold u32r. simpl. lra. Qed.
(** absolute error of a subnormal result *)
Definition tiny : R := bpow radix2 (-150).
Lemma tiny_small : 0 < tiny /\ tiny <= / 1000000.
Proof.
  split; [apply bpow_gt_0|]. unfold tiny. apply Rle_trans with (bpow radix2 (-20)); [apply bpow_le; lia|].
  simpl. lra.
Qed.
Lemma RN32_rel x : bpow radix2 (-126) <= Rabs x -> exists d, Rabs d <= u32r /\ RN32 x = x * (1 + d).
Proof.
  intros H. destruct (relative_error_N_FLT_ex radix2 (-149) 24 Hprec32 (fun z => negb (Z.even z)) x) as (d & Hd & E).
  { exact H. }
  exists d. rewrite u32r_bpow in Hd. split; auto.
Qed.
Lemma RN32_err x : exists d e, Rabs d <= u32r /\ Rabs e <= tiny /\ RN32 x = x * (1 + d) + e.
Proof.
  destruct (error_N_FLT radix2 (-149) 24 ltac:(lia) (fun z => negb (Z.even z)) x) as (d & e & Hd & He & _ & E).
  exists d, e. rewrite u32r_bpow in Hd. split; auto. split; auto.
  change (/ 2) with (bpow radix2 (-1)) in He. rewrite <- bpow_plus in He. exact He.
Qed.

(** a normal, not astronomically large scale: its reciprocal is normal too, and a million steps do not overflow *)
Definition normal_scale (scale : f32) : Prop := finite scale /\ bpow radix2 (-126) <= Rabs (val scale) <= bpow radix2 100.

Lemma normal_good scale : normal_scale scale -> good_scale scale.
Proof.
  intros (F & L & U). assert (P : 0 < Rabs (val scale)) by (eapply Rlt_le_trans; [apply bpow_gt_0|exact L]).
  assert (N : val scale <> 0) by (intros E; rewrite E, Rabs_R0 in P; lra). split; auto.
  assert (B : Rabs (1 / val scale) <= bpow radix2 126).
  { unfold Rdiv. rewrite Rabs_mult, Rabs_R1, Rmult_1_l, Rabs_inv. change 126%Z with (- (-126))%Z. rewrite bpow_opp.
    apply Rinv_le; auto. apply bpow_gt_0. }
  apply Rle_lt_trans with (bpow radix2 126); [|unfold max32; apply bpow_lt; lia].
  apply abs_round_le_generic; auto with typeclass_instances.
  apply generic_format_bpow. unfold fexp32, FLT_exp. lia.
Qed.
Lemma recip_rel scale : normal_scale scale -> exists d, Rabs d <= u32r /\ RN32 (1 / val scale) = / val scale * (1 + d).
Proof.
  intros (F & L & U). assert (P : 0 < Rabs (val scale)) by (eapply Rlt_le_trans; [apply bpow_gt_0|exact L]).
  destruct (RN32_rel (1 / val scale)) as (d & Hd & E).
  - unfold Rdiv. rewrite Rabs_mult, Rabs_R1, Rmult_1_l, Rabs_inv. change (-126)%Z with (- (126))%Z. rewrite bpow_opp.
    apply Rinv_le; auto. apply Rle_trans with (1 := U). apply bpow_le. lia.
  - exists d. split; auto. rewrite E. unfold Rdiv. ring.
Qed.

(** the scaled value is x/scale up to a relative error of 2^-23 (and a bit) *)
Lemma scaled_rel scale x : normal_scale scale ->
  Rabs (scaled (val scale) x - x / val scale) <= 3 * u32r * Rabs (x / val scale) + tiny.
Proof.
  intros Hs. destruct (recip_rel scale Hs) as (d2 & H2 & E2). unfold scaled. rewrite E2.
  destruct (RN32_err (x * (/ val scale * (1 + d2)))) as (d3 & e & H3 & He & E3). rewrite E3.
  set (t := x / val scale). replace (x * (/ val scale * (1 + d2))) with (t * (1 + d2)) by (unfold t, Rdiv; ring).
  replace (t * (1 + d2) * (1 + d3) + e - t) with (t * (d2 + d3 + d2 * d3) + e) by ring.
  eapply Rle_trans; [apply Rabs_triang|]. apply Rplus_le_compat; auto. rewrite Rabs_mult, (Rmult_comm _ (Rabs t)).
  apply Rmult_le_compat_l; [apply Rabs_pos|].
  assert (M : Rabs (d2 * d3) <= u32r * u32r) by (rewrite Rabs_mult; apply Rmult_le_compat; auto; apply Rabs_pos).
  apply Rle_trans with (Rabs d2 + Rabs d3 + Rabs (d2 * d3)).
  - eapply Rle_trans; [apply Rabs_triang|]. apply Rplus_le_compat_r, Rabs_triang.
  - unfold u32r in *. lra.
Qed.

Lemma rha_near y k : Rabs (y - IZR k) < / 2 -> round_half_away y = k.
Proof.
  intros H. pose proof (rha_error y) as E. apply Rabs_def2 in H. apply Rabs_le_inv in E.
  assert (- (1) < IZR (round_half_away y) - IZR k < 1) as [A B] by lra.
  rewrite <- minus_IZR in A, B. change (- (1)) with (IZR (-1)) in A. apply lt_IZR in A. apply lt_IZR in B. lia.
Qed.

(** A value within [eta] steps of the integer multiple k of the scale is quantized to k. *)
Lemma scaled_near scale x k eta : normal_scale scale -> Rabs (IZR k) <= 1048576 -> 0 <= eta <= 1 ->
  Rabs (x / val scale - IZR k) <= eta ->
  Rabs (scaled (val scale) x - IZR k) <= eta + 4 * u32r * (Rabs (IZR k) + 1).
Proof.
  intros Hs Hk He H. pose proof (scaled_rel scale x Hs) as R. set (t := x / val scale) in *. set (y := scaled (val scale) x) in *.
  replace (y - IZR k) with ((y - t) + (t - IZR k)) by ring. eapply Rle_trans; [apply Rabs_triang|].
  assert (T : Rabs t <= Rabs (IZR k) + eta).
  { replace t with ((t - IZR k) + IZR k) by ring. eapply Rle_trans; [apply Rabs_triang|]. lra. }
  destruct tiny_small as [T1 T2]. assert (tiny <= u32r * 1).
  { unfold tiny, u32r. apply Rle_trans with (bpow radix2 (-24)); [apply bpow_le; lia|]. simpl. lra. }
  clearbody t y. pose proof (Rabs_pos (IZR k)). unfold u32r in *. set (K := Rabs (IZR k)) in *. set (Ta := Rabs t) in *. set (Ya := Rabs (y - t)) in *. set (Da := Rabs (t - IZR k)) in *. clearbody K Ta Ya Da.
  lra.
Qed.

(** C16, the arithmetic: if y = scaled value rounds to k, then k*scale is within half a step (and a bit) of x *)
Lemma unscaled_near scale x k : normal_scale scale -> Rabs (IZR k) <= 1048576 ->
  round_half_away (scaled (val scale) x) = k ->
  Rabs (x / val scale - IZR k) <= / 2 + 7/2 * u32r * (Rabs (IZR k) + 1).
Proof.
  intros Hs Hk E. pose proof (scaled_rel scale x Hs) as R. set (t := x / val scale) in *. set (y := scaled (val scale) x) in *.
  pose proof (rha_error y) as H. rewrite E in H. 
  replace (t - IZR k) with ((t - y) + (y - IZR k)) by ring. eapply Rle_trans; [apply Rabs_triang|].
  rewrite (Rabs_minus_sym t y). rewrite (Rabs_minus_sym y (IZR k)).
  assert (T : Rabs t <= Rabs (IZR k) + / 2 + Rabs (y - t)).
  { replace t with (IZR k - (IZR k - y) - (y - t)) at 1 by ring. eapply Rle_trans; [apply Rabs_triang|]. rewrite Rabs_Ropp.
    apply Rplus_le_compat_r. eapply Rle_trans; [apply Rabs_triang|]. rewrite Rabs_Ropp. lra. }
  assert (tiny <= u32r * / 100).
  { unfold tiny, u32r. apply Rle_trans with (bpow radix2 (-40)); [apply bpow_le; lia|]. simpl. lra. }
  assert (0 <= Rabs (y - t)) by apply Rabs_pos.
  unfold u32r in *. lra.
Qed.

(** the dequantized value, f32 *)
Lemma product_rel scale k : normal_scale scale -> exists d, Rabs d <= u32r /\ RN32 (IZR k * val scale) = IZR k * val scale * (1 + d).
Proof.
  intros (F & L & U). destruct (Z.eq_dec k 0) as [->|N].
  - exists 0. rewrite Rabs_R0, !Rmult_0_l. split; [unfold u32r; lra|]. apply RN32_0.
  - apply RN32_rel. rewrite Rabs_mult. apply Rle_trans with (1 * Rabs (val scale)); [lra|]. apply Rmult_le_compat_r; [apply Rabs_pos|].
    rewrite <- abs_IZR. apply IZR_le. lia.
Qed.
Lemma product_near scale k : normal_scale scale ->
  Rabs (RN32 (IZR k * val scale) / val scale - IZR k) <= u32r * Rabs (IZR k).
Proof.
  intros Hs. destruct (product_rel scale k Hs) as (d & Hd & ->). destruct (normal_good scale Hs) as [N _].
  replace (IZR k * val scale * (1 + d) / val scale - IZR k) with (d * IZR k) by (field; auto).
  rewrite Rabs_mult. apply Rmult_le_compat_r; auto. apply Rabs_pos.
Qed.

Lemma product_bound scale k : normal_scale scale -> Rabs (IZR k) <= 1048576 -> Rabs (RN32 (IZR k * val scale)) < max32.
Proof.
  intros (F & L & U) Hk. apply Rle_lt_trans with (bpow radix2 120); [|unfold max32; apply bpow_lt; lia].
  apply abs_round_le_generic; auto with typeclass_instances.
  - apply generic_format_bpow. unfold fexp32, FLT_exp. lia.
  - rewrite Rabs_mult. change 120%Z with (20 + 100)%Z. rewrite bpow_plus. apply Rmult_le_compat; auto using Rabs_pos.
Qed.
