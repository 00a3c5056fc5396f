(** PropsStochastic.v -- C30: stochastic rounding is unbiased over equidistributed thresholds and monotone in the threshold. *)
From Coq Require Import ZArith List Lia Bool Arith ZifyBool ZifyNat Reals Lra.
From Flocq Require Import Core Binary Bits.
From Verif Require Import Base Floats Simd Dtypes Spec ApiSpec QuantKernels DequantKernels ExecFacts FloatFacts QuantFacts QuantKernelFacts
  QuantGenericFacts DequantFacts DequantGenericFacts QuantLanes Context ContextFacts Footprint QuantizeFacts DequantizeFacts Api PropsQuantize.
Import ListNotations.

Ltac Zify.zify_post_hook ::= Z.div_mod_to_equations.

(** sum of f(0) .. f(n-1) *)
Definition sum_upto (n : nat) (f : nat -> Z) : Z := fold_right Z.add 0%Z (map f (seq 0 n)).

Lemma sum_upto_S n f : sum_upto (S n) f = (sum_upto n f + f n)%Z.
Proof.
  unfold sum_upto. rewrite seq_S, map_app, fold_right_app. cbn [map fold_right Nat.add].
  set (l := map f (seq 0 n)). generalize l. intros l0. induction l0; cbn; lia.
Qed.
Lemma sum_upto_ext n f g : (forall k, k < n -> f k = g k) -> sum_upto n f = sum_upto n g.
Proof. induction n as [|n IH]; intros H; [reflexivity|]. rewrite !sum_upto_S, IH, H; auto. Qed.
Lemma sum_upto_count n j c : (0 <= j)%Z -> sum_upto n (fun k => if (Z.of_nat k <? j)%Z then c + 1 else c)%Z = (Z.of_nat n * c + Z.min j (Z.of_nat n))%Z.
Proof.
  intros Hj. induction n as [|n IH]; [cbn; lia|]. rewrite sum_upto_S, IH. destruct (Z.ltb_spec (Z.of_nat n) j); lia.
Qed.
Lemma sum_upto_opp n f : sum_upto n (fun k => - f k)%Z = (- sum_upto n f)%Z.
Proof. induction n as [|n IH]; [reflexivity|]. rewrite !sum_upto_S, IH. lia. Qed.

Lemma stoch_round_opp t y : y <> 0%R -> stoch_round t (- y) = (- stoch_round t y)%Z.
Proof.
  intros N. unfold stoch_round. rewrite Rabs_Ropp. cbv zeta. set (z := if Rlt_bool t _ then _ else _).
  destruct (Rlt_bool_spec y 0), (Rlt_bool_spec (- y) 0); try lra; lia.
Qed.
Lemma stoch_round_grid N m k : (0 < N)%Z -> (0 <= m)%Z ->
  stoch_round (IZR k / IZR N) (IZR m / IZR N) = if (k <? m mod N)%Z then (m / N + 1)%Z else (m / N)%Z.
Proof.
  intros HN Hm. assert (PN : (0 < IZR N)%R) by (apply IZR_lt; auto).
  assert (Hy : (0 <= IZR m / IZR N)%R) by (apply Rmult_le_pos; [apply IZR_le; auto|left; apply Rinv_0_lt_compat; auto]).
  unfold stoch_round. rewrite (Rabs_pos_eq _ Hy). rewrite Zfloor_div by lia. cbv zeta.
  rewrite (Rlt_bool_false (IZR m / IZR N)) by auto.
  assert (E : (IZR m / IZR N - IZR (m / N))%R = (IZR (m mod N) / IZR N)%R).
  { rewrite Zmod_eq by lia. rewrite minus_IZR, mult_IZR. field. lra. }
  rewrite E. destruct (Z.ltb_spec k (m mod N)) as [L|L].
  - rewrite Rlt_bool_true; auto. apply Rmult_lt_compat_r; [apply Rinv_0_lt_compat; auto|]. apply IZR_lt; auto.
  - rewrite Rlt_bool_false; auto. apply Rmult_le_compat_r; [left; apply Rinv_0_lt_compat; auto|]. apply IZR_le; auto.
Qed.

(** The rounded values over the thresholds 0/N .. (N-1)/N average to the value itself, for every multiple of 1/N. *)
Lemma stoch_sum (N : nat) (m : Z) : N > 0 ->
  sum_upto N (fun k => stoch_round (IZR (Z.of_nat k) / IZR (Z.of_nat N)) (IZR m / IZR (Z.of_nat N))) = m.
Proof.
  intros HN. assert (P : forall m, (0 <= m)%Z -> sum_upto N (fun k => stoch_round (IZR (Z.of_nat k) / IZR (Z.of_nat N)) (IZR m / IZR (Z.of_nat N))) = m).
  { intros m' Hm. erewrite sum_upto_ext; [|intros k Hk; apply stoch_round_grid; lia].
    set (Nz := Z.of_nat N) in *. assert (0 < Nz)%Z by (unfold Nz; lia). 
    rewrite sum_upto_count by (apply Z.mod_pos_bound; auto). fold Nz. pose proof (Z.mod_pos_bound m' Nz H). rewrite Z.min_l by lia.
    rewrite <- Z.div_mod by lia. reflexivity. }
  destruct (Z_le_gt_dec 0 m) as [H|H]; [apply P; auto|].
  assert (PN : (0 < IZR (Z.of_nat N))%R) by (apply IZR_lt; lia).
  transitivity (- sum_upto N (fun k => stoch_round (IZR (Z.of_nat k) / IZR (Z.of_nat N)) (IZR (- m) / IZR (Z.of_nat N))))%Z; [|rewrite P; lia].
  rewrite <- sum_upto_opp. apply sum_upto_ext.
  intros k Hk. rewrite <- stoch_round_opp.
  - f_equal. rewrite opp_IZR. field. lra.
  - intros E. apply (Rmult_eq_compat_r (IZR (Z.of_nat N))) in E. unfold Rdiv in E. rewrite Rmult_assoc, Rinv_l, Rmult_0_l, Rmult_1_r in E by lra.
    change 0%R with (IZR 0) in E. apply eq_IZR in E. lia.
Qed.

(** ** C30.  One call per threshold k/2^24 (k = 0 .. 2^24-1), each possibly on another kernel set, with other threads: for every element whose
    scaled value y is a multiple of 2^-24 and whose two neighbours are within the code range, the codes minus the zero point average to y. *)
Theorem C30_unbiased (A : nat -> arch) (nt : nat -> nat) (oaddr : nat -> Z) din dout scale zp (thr : nat -> f32) inm (outm : nat -> mem) (o : nat -> mem) :
  let N := Z.to_nat (2 ^ 24) in
  good_scale scale -> (Z.abs zp <= 2 ^ 62)%Z ->
  (forall i, i < numel din (length inm) -> quantizable scale (elem_at din inm i)) ->
  (forall k, k < N -> buffers_ok (nt k) din dout inm (outm k) /\ finite (thr k) /\ val (thr k) = (IZR (Z.of_nat k) / IZR (2 ^ 24))%R /\
     returns inm (outm k) (quantize_call (A k) (nt k) (oaddr k) din dout scale zp RM_STOCHASTIC (thr k) inm (outm k)) (Ok (o k))) ->
  forall i, i < numel din (length inm) ->
    let y := scaled (val scale) (val (elem_at din inm i)) in
    (exists m, y = (IZR m / IZR (2 ^ 24))%R) ->
    (0 <= Zfloor y + zp /\ Zceil y + zp <= code_max dout)%Z ->
    (IZR (sum_upto N (fun k => code_at dout (o k) i - zp)%Z) / IZR (2 ^ 24))%R = y.
Proof.
  intros N Hs Hz HI HK i Hi y (m & Ey) [Rlo Rhi].
  assert (HN : Z.of_nat N = (2 ^ 24)%Z) by (unfold N; rewrite Z2Nat.id; lia). assert (HN0 : N > 0) by lia.
  assert (C : forall k, k < N -> (code_at dout (o k) i - zp)%Z = stoch_round (IZR (Z.of_nat k) / IZR (Z.of_nat N)) (IZR m / IZR (Z.of_nat N))).
  { intros k Hk. destruct (HK k Hk) as (HB & Ft & Vt & HR).
    assert (PN : (0 < IZR (2 ^ 24))%R) by (apply IZR_lt; lia).
    assert (T : threshold (thr k)).
    { split; auto. rewrite Vt. split; [apply Rmult_le_pos; [apply IZR_le; lia|left; apply Rinv_0_lt_compat; auto]|].
      apply Rmult_le_reg_r with (IZR (2 ^ 24)); auto. replace (IZR (Z.of_nat k) / IZR (2 ^ 24) * IZR (2 ^ 24))%R with (IZR (Z.of_nat k)) by (field; lra).
      rewrite Rmult_1_l. apply IZR_le. lia. }
    destruct (C29_quantize_stochastic _ _ _ _ _ _ _ _ _ _ _ HB Hs Hz T HI HR) as (o' & E & _ & HC). injection E as <-.
    rewrite HC by auto. unfold stoch_code. fold y. rewrite HN, <- Ey, <- Vt.
    pose proof HB as (_ & Hq & _). pose proof (code_max_range dout Hq) as Hm.
    assert (B : (Zfloor y <= stoch_round (val (thr k)) y <= Zceil y)%Z); [|unfold clamp; lia].
    clear -T. unfold stoch_round. cbv zeta. destruct T as [_ [T0 T1]]. set (t := val (thr k)) in *.
    assert (P : forall z, (0 <= z)%R -> (Zfloor z <= (if Rlt_bool t (z - IZR (Zfloor z)) then Zfloor z + 1 else Zfloor z) <= Zceil z)%Z).
    { intros z Hz. destruct (Rlt_bool_spec t (z - IZR (Zfloor z))).
      - rewrite (Zceil_floor_neq z) by lra. lia.
      - split; [lia|]. apply le_IZR. eapply Rle_trans; [apply Zfloor_lb|apply Zceil_ub]. }
    destruct (Rlt_bool_spec y 0) as [L|L].
    - rewrite Rabs_left by auto. specialize (P (- y)%R ltac:(lra)). unfold Zceil in P at 1. rewrite Ropp_involutive in P.
      unfold Zceil. lia.
    - rewrite Rabs_pos_eq by auto. apply P; auto. }
  rewrite (sum_upto_ext _ _ _ C), stoch_sum by auto. symmetry. exact Ey.
Qed.

(** Every scaled value with |y| >= 1/2 is a multiple of 2^-24. *)
Theorem C30_multiples scale x : (/ 2 <= Rabs (scaled scale x))%R -> exists m, scaled scale x = (IZR m / IZR (2 ^ 24))%R.
Proof.
  set (y := scaled scale x). intros H. assert (F : generic_format radix2 (FLT_exp (-149) 24) y) by apply RN32_in_fmt.
  rewrite F. set (e := cexp radix2 (FLT_exp (-149) 24) y). set (mm := Ztrunc _).
  assert (He : (-24 <= e)%Z).
  { unfold e, cexp, FLT_exp. assert (0 <= mag radix2 y)%Z; [|lia]. apply mag_ge_bpow. exact H. }
  exists (mm * 2 ^ (e + 24))%Z. unfold F2R. cbn [Fnum Fexp]. rewrite mult_IZR. change 2%Z with (radix_val radix2) at 1.
  rewrite IZR_Zpower by lia. change (IZR (2 ^ 24)) with (bpow radix2 24). unfold Rdiv. rewrite <- bpow_opp, Rmult_assoc, <- bpow_plus.
  f_equal. f_equal. lia.
Qed.

(** A larger threshold never gives a larger magnitude. *)
Theorem C30_threshold_monotone A nt oaddr A' nt' oaddr' din dout scale thr thr' inm outm outm' o o' :
  buffers_ok nt din dout inm outm -> buffers_ok nt' din dout inm outm' -> good_scale scale -> 
  threshold thr -> threshold thr' -> (val thr <= val thr')%R ->
  (forall i, i < numel din (length inm) -> quantizable scale (elem_at din inm i)) ->
  forall zp, (Z.abs zp <= 2 ^ 62)%Z ->
  returns inm outm (quantize_call A nt oaddr din dout scale zp RM_STOCHASTIC thr inm outm) (Ok o) ->
  returns inm outm' (quantize_call A' nt' oaddr' din dout scale zp RM_STOCHASTIC thr' inm outm') (Ok o') ->
  forall i, i < numel din (length inm) ->
    let y := scaled (val scale) (val (elem_at din inm i)) in
    ((0 <= y)%R -> (code_at dout o' i <= code_at dout o i)%Z) /\ ((y <= 0)%R -> (code_at dout o i <= code_at dout o' i)%Z).
Proof.
  intros HB HB' Hs T T' Hle HI zp Hz HR HR' i Hi y.
  destruct (C29_quantize_stochastic _ _ _ _ _ _ _ _ _ _ _ HB Hs Hz T HI HR) as (p & E & _ & HC). injection E as <-.
  destruct (C29_quantize_stochastic _ _ _ _ _ _ _ _ _ _ _ HB' Hs Hz T' HI HR') as (p & E & _ & HC'). injection E as <-.
  rewrite HC, HC' by auto. unfold stoch_code. fold y. unfold stoch_round. cbv zeta. set (n := Zfloor (Rabs y)).
  destruct (Rlt_bool_spec (val thr') (Rabs y - IZR n)), (Rlt_bool_spec (val thr) (Rabs y - IZR n)), (Rlt_bool_spec y 0);
    split; intros; try lra; unfold clamp; try lia.
  (* y = 0: neither threshold is below the fractional part *)
  exfalso. assert (E0 : y = 0%R) by lra. unfold n in *. rewrite E0, Rabs_R0, (Zfloor_IZR 0) in *. destruct T as [_ [? _]]. cbn in *. lra.
Qed.
