(** PropsVariance.v -- C30: the mean-square error of stochastic rounding over all 2^64 generator outputs; C31: since one threshold serves
    the whole call, the errors of equal elements do not average out. *)
From Coq Require Import ZArith List Lia Bool Reals Lra.
From Flocq Require Import Core Binary Bits.
From Verif Require Import Base Floats Dtypes Spec ApiSpec FloatFacts FloatFacts2 Context Api PropsQuantize PropsMemory PropsStochastic Rng PropsRng.
Import ListNotations.
Local Open Scope R_scope.

(** sum of f(0) .. f(n-1) *)
Definition rsum_upto (n : nat) (f : nat -> R) : R := fold_right Rplus 0 (map f (seq 0 n)).
Lemma rsum_S n f : rsum_upto (S n) f = rsum_upto n f + f n.
Proof.
  unfold rsum_upto. rewrite seq_S, map_app, fold_right_app. cbn [map fold_right Nat.add].
  generalize (map f (seq 0 n)). intros l. induction l as [|a l IH]; cbn [fold_right]; [ring|]. rewrite IH. ring.
Qed.
Lemma rsum_ext n f g : (forall k, (k < n)%nat -> f k = g k) -> rsum_upto n f = rsum_upto n g.
Proof. induction n as [|n IH]; intros H; [reflexivity|]. rewrite !rsum_S, IH, H; auto. Qed.
Lemma rsum_const n c : rsum_upto n (fun _ => c) = INR n * c.
Proof. induction n as [|n IH]; [unfold rsum_upto; cbn; ring|]. rewrite rsum_S, IH, S_INR. ring. Qed.
Lemma rsum_two n N a b : (0 <= N)%Z -> rsum_upto n (fun k => if (Z.of_nat k <? N)%Z then a else b) = IZR (Z.min N (Z.of_nat n)) * (a - b) + INR n * b.
Proof.
  intros HN. induction n as [|n IH].
  - unfold rsum_upto. cbn [seq map fold_right INR]. change (Z.of_nat 0) with 0%Z. rewrite Z.min_r by lia. ring.
  - rewrite rsum_S, IH, S_INR. destruct (Z.ltb_spec (Z.of_nat n) N) as [L|L].
    + rewrite Z.min_r by lia. rewrite (Z.min_r N (Z.of_nat (S n))) by lia. rewrite Nat2Z.inj_succ, succ_IZR. ring.
    + rewrite Z.min_l by lia. rewrite (Z.min_l N (Z.of_nat (S n))) by lia. ring.
Qed.

Lemma away_error y : (IZR (away y) - y) ^ 2 = (1 - frac y) ^ 2.
Proof.
  unfold away, frac. destruct (Rlt_bool_spec y 0) as [L|L].
  - rewrite opp_IZR, plus_IZR, (Rabs_left y) by auto. ring.
  - rewrite plus_IZR, (Rabs_pos_eq y) by auto. ring.
Qed.
Lemma toward_error y : (IZR (toward y) - y) ^ 2 = frac y ^ 2.
Proof.
  unfold toward, frac. destruct (Rlt_bool_spec y 0) as [L|L].
  - rewrite opp_IZR, (Rabs_left y) by auto. ring.
  - rewrite (Rabs_pos_eq y) by auto. ring.
Qed.

(** The mean over all generator outputs. *)
Definition mean_over_outputs (f : Z -> R) : R := rsum_upto (Z.to_nat (2 ^ 64)) (fun u => f (Z.of_nat u)) / IZR (2 ^ 64).

Lemma share_unclipped draw A nt oaddr din dout scale zp inm outm o i :
  a_draw draw -> good_scale scale -> (Z.abs zp <= 2 ^ 62)%Z ->
  (forall i, (i < numel din (length inm))%nat -> quantizable scale (elem_at din inm i)) ->
  all_outputs draw A nt oaddr din dout scale zp inm outm o ->
  (i < numel din (length inm))%nat ->
  let y := scaled (val scale) (val (elem_at din inm i)) in
  (0 <= Zfloor y + zp /\ Zceil y + zp <= code_max dout)%Z ->
  exists N, (0 <= N <= 2 ^ 64)%Z /\ Rabs (IZR N / IZR (2 ^ 64) - frac y) <= frac y * bpow radix2 (-24) + bpow radix2 (-64) /\
    forall u, output64 u -> (code_at dout (o u) i - zp)%Z = if (u <? N)%Z then away y else toward y.
Proof.
  intros HD Hs Hz HI HK Hi y [Rlo Rhi].
  assert (Fy : fmt32 y) by apply RN32_in_fmt. pose proof (frac_bounds y) as [B0 _].
  destruct (draw_share draw (frac y) HD (conj B0 (frac_fmt y Fy))) as (N & HN & HC & HB). exists N. split; auto. split; auto.
  intros u Hu. destruct (HK _ Hu) as (HBu & HR). destruct (C30_draw draw _ HD Hu) as [T _].
  destruct (C29_quantize_stochastic _ _ _ _ _ _ _ _ _ _ _ HBu Hs Hz T HI HR) as (o' & E & _ & HCo). injection E as <-.
  rewrite HCo by auto. unfold stoch_code. fold y. pose proof (stoch_between (val (draw u)) y (proj1 (proj2 T))) as SB.
  replace (clamp 0 (code_max dout) (stoch_round (val (draw u)) y + zp) - zp)%Z with (stoch_round (val (draw u)) y) by (unfold clamp; lia).
  rewrite stoch_round_cases. specialize (HC _ Hu). destruct (Z.ltb_spec u N) as [L|L].
  - rewrite Rlt_bool_true; auto. apply HC; auto.
  - rewrite Rlt_bool_false; auto. apply Rnot_lt_le. intros Q. apply HC in Q. lia.
Qed.
Lemma two_valued_mean (f : Z -> R) N a b : (0 <= N <= 2 ^ 64)%Z -> (forall u, output64 u -> f u = if (u <? N)%Z then a else b) ->
  mean_over_outputs f = b + IZR N / IZR (2 ^ 64) * (a - b).
Proof.
  intros HN HF. unfold mean_over_outputs.
  remember (Z.to_nat (2 ^ 64)) as M eqn:EM. assert (HM : Z.of_nat M = (2 ^ 64)%Z) by (rewrite EM, Z2Nat.id; lia). clear EM.
  rewrite (rsum_ext M _ (fun k => if (Z.of_nat k <? N)%Z then a else b)).
  - rewrite rsum_two by lia. rewrite HM, Z.min_l by lia. rewrite INR_IZR_INZ, HM. field. apply not_0_IZR. lia.
  - intros k Hk. apply HF. unfold output64. lia.
Qed.

Lemma mean_ext f g : (forall u, output64 u -> f u = g u) -> mean_over_outputs f = mean_over_outputs g.
Proof.
  intros H. unfold mean_over_outputs. remember (Z.to_nat (2 ^ 64)) as M eqn:EM. assert (HM : Z.of_nat M = (2 ^ 64)%Z) by (rewrite EM, Z2Nat.id; lia). clear EM.
  rewrite (rsum_ext M (fun u => f (Z.of_nat u)) (fun u => g (Z.of_nat u))); [reflexivity|]. intros k Hk. apply H. unfold output64. lia.
Qed.

(** ** C30, mean-square error.  Over all 2^64 generator outputs the mean-square rounding error of an unclipped element is f*(1-f), f the
    fractional part of its scaled magnitude, up to f*2^-24 + 2^-64; it is never less than the squared error of rounding to nearest. *)
Theorem C30_generator_variance draw A nt oaddr din dout scale zp inm outm o :
  a_draw draw -> good_scale scale -> (Z.abs zp <= 2 ^ 62)%Z ->
  (forall i, (i < numel din (length inm))%nat -> quantizable scale (elem_at din inm i)) ->
  all_outputs draw A nt oaddr din dout scale zp inm outm o ->
  forall i, (i < numel din (length inm))%nat ->
    let y := scaled (val scale) (val (elem_at din inm i)) in
    (0 <= Zfloor y + zp /\ Zceil y + zp <= code_max dout)%Z ->
    let mse := mean_over_outputs (fun u => (IZR (code_at dout (o u) i - zp) - y) ^ 2) in
    Rabs (mse - frac y * (1 - frac y)) <= frac y * bpow radix2 (-24) + bpow radix2 (-64) /\
    mse <= / 4 + frac y * bpow radix2 (-24) + bpow radix2 (-64) /\
    (IZR (round_half_away y) - y) ^ 2 <= mse.
Proof.
  intros HD Hs Hz HI HK i Hi y HR. destruct (share_unclipped _ _ _ _ _ _ _ _ _ _ _ i HD Hs Hz HI HK Hi HR) as (N & HN & HB & HC). fold y in HB, HC.
  cbv zeta. set (p := IZR N / IZR (2 ^ 64)) in *. pose proof (frac_bounds y) as [F0 F1].
  assert (P : 0 <= p <= 1).
  { assert (G : 0 < IZR (2 ^ 64)) by (apply IZR_lt; lia). split.
    - apply Rmult_le_pos; [apply IZR_le; lia|left; apply Rinv_0_lt_compat; auto].
    - apply (Rmult_le_reg_r (IZR (2 ^ 64))); auto. unfold p, Rdiv. rewrite Rmult_assoc, Rinv_l, Rmult_1_r, Rmult_1_l by lra. apply IZR_le. lia. }
  rewrite (two_valued_mean _ N ((1 - frac y) ^ 2) (frac y ^ 2) HN); fold p.
  2: { intros u Hu. rewrite (HC u Hu). destruct (u <? N)%Z; [apply away_error|apply toward_error]. }
  set (f := frac y) in *. set (e := f * bpow radix2 (-24) + bpow radix2 (-64)) in *.
  assert (E : f ^ 2 + p * ((1 - f) ^ 2 - f ^ 2) - f * (1 - f) = (p - f) * (1 - 2 * f)) by ring.
  assert (Q : Rabs (f ^ 2 + p * ((1 - f) ^ 2 - f ^ 2) - f * (1 - f)) <= e).
  { rewrite E, Rabs_mult. apply Rle_trans with (Rabs (p - f) * 1); [|lra]. apply Rmult_le_compat_l; [apply Rabs_pos|]. apply Rabs_le. lra. }
  split; [exact Q|]. split.
  - replace (/ 4 + f * bpow radix2 (-24) + bpow radix2 (-64)) with (/ 4 + e) by (unfold e; ring).
    pose proof (Rle_abs (f ^ 2 + p * ((1 - f) ^ 2 - f ^ 2) - f * (1 - f))). pose proof (Rle_0_sqr (f - / 2)) as S2. unfold Rsqr in S2. lra.
  - assert (G : (IZR (round_half_away y) - y) ^ 2 <= f ^ 2 /\ (IZR (round_half_away y) - y) ^ 2 <= (1 - f) ^ 2).
    { assert (Z1 : (IZR (toward y) - y) ^ 2 = f ^ 2) by apply toward_error. assert (Z2 : (IZR (away y) - y) ^ 2 = (1 - f) ^ 2) by apply away_error.
      assert (NB : forall k, Rabs (IZR (round_half_away y) - y) <= Rabs (IZR k - y)).
      { intros k. assert (HR2 : Rabs (IZR (round_half_away y) - y) <= / 2) by apply rha_error.
        destruct (Rle_lt_dec (/ 2) (Rabs (IZR k - y))) as [H|H]; [lra|].
        replace k with (round_half_away y); [lra|].
        assert (D : Rabs (IZR (round_half_away y - k)) < 1).
        { rewrite minus_IZR. replace (IZR (round_half_away y) - IZR k) with ((IZR (round_half_away y) - y) - (IZR k - y)) by ring.
          eapply Rle_lt_trans; [apply Rabs_triang|]. rewrite Rabs_Ropp. lra. }
        rewrite <- abs_IZR in D. apply lt_IZR in D. lia. }
      assert (SQ : forall a b, Rabs a <= Rabs b -> a ^ 2 <= b ^ 2) by (intros a b H; rewrite <- !Rsqr_pow2; apply Rsqr_le_abs_1; auto).
      rewrite <- Z1, <- Z2. split; apply SQ; apply NB. }
    destruct G as [G1 G2]. set (m := (IZR (round_half_away y) - y) ^ 2) in *.
    assert (p * m <= p * (1 - f) ^ 2) by (apply Rmult_le_compat_l; lra). assert ((1 - p) * m <= (1 - p) * f ^ 2) by (apply Rmult_le_compat_l; lra). lra.
Qed.

(** ** C31, consequence.  For a buffer of equal elements the average error of a stochastic call is the error of a single element, so its
    mean square over the generator outputs stays f*(1-f) however many elements there are (with a threshold per element it would be
    f*(1-f)/n). *)
Theorem C31_errors_do_not_average draw A nt oaddr din dout scale zp inm outm o :
  a_draw draw -> good_scale scale -> (Z.abs zp <= 2 ^ 62)%Z ->
  let n := numel din (length inm) in
  (0 < n)%nat -> (forall i, (i < n)%nat -> elem_at din inm i = elem_at din inm 0) -> quantizable scale (elem_at din inm 0) ->
  all_outputs draw A nt oaddr din dout scale zp inm outm o ->
  let y := scaled (val scale) (val (elem_at din inm 0)) in
  (0 <= Zfloor y + zp /\ Zceil y + zp <= code_max dout)%Z ->
  let average_error u := rsum_upto n (fun i => IZR (code_at dout (o u) i - zp) - y) / INR n in
  (forall u, output64 u -> average_error u = IZR (code_at dout (o u) 0 - zp) - y) /\
  Rabs (mean_over_outputs (fun u => average_error u ^ 2) - frac y * (1 - frac y)) <= frac y * bpow radix2 (-24) + bpow radix2 (-64).
Proof.
  intros HD Hs Hz n Hn HE HQ HK y HR average_error.
  assert (HI : forall i, (i < numel din (length inm))%nat -> quantizable scale (elem_at din inm i)) by (intros i Hi; fold n in Hi; rewrite HE by auto; auto).
  assert (AV : forall u, output64 u -> average_error u = IZR (code_at dout (o u) 0 - zp) - y).
  { intros u Hu. destruct (HK _ Hu) as (HBu & HRu). destruct (C30_draw draw _ HD Hu) as [T _].
    destruct (C31_equal_inputs_equal_codes _ _ _ _ _ _ _ _ _ _ _ HBu Hs Hz T HI HRu) as (o' & E & HC). injection E as <-.
    unfold average_error. rewrite (rsum_ext n _ (fun _ => IZR (code_at dout (o u) 0 - zp) - y)).
    - rewrite rsum_const. field. apply not_0_INR. lia.
    - intros k Hk. rewrite (HC k 0%nat Hk Hn) by (apply HE; auto). reflexivity. }
  split; auto.
  destruct (C30_generator_variance draw A nt oaddr din dout scale zp inm outm o HD Hs Hz HI HK 0%nat Hn HR) as [V _]. fold y in V. cbv zeta in V.
  rewrite (mean_ext (fun u => average_error u ^ 2) (fun u => (IZR (code_at dout (o u) 0 - zp) - y) ^ 2)); [exact V|].
  intros u Hu. cbv beta. rewrite (AV u Hu). reflexivity.
Qed.
